(** * The Stumpff functions are smooth: power series and derivatives. *)
From Coq Require Import Reals ZArith Lra Lia Psatz.
From Coquelicot Require Import Coquelicot.
From Verif Require Import UniversalKepler LambertUV LambertRev StumpffXR DelatorreXR.
Local Open Scope R_scope.

Definition sa (k n : nat) : R := (-1) ^ n / INR (fact (2 * n + k)).
Definition cS (k : nat) (z : R) : R := PSeries (sa k) z.

Lemma sa_nonzero k n : sa k n <> 0.
Proof.
  unfold sa. apply Rmult_integral_contrapositive_currified; [apply pow_nonzero; lra|].
  apply Rinv_neq_0_compat, INR_fact_neq_0.
Qed.
Lemma sa_radius k : CV_radius (sa k) = p_infty.
Proof.
  apply CV_radius_infinite_DAlembert; [apply sa_nonzero|].
  apply is_lim_seq_ext with (fun n => / INR (2 * n + k + 1) * / INR (2 * n + k + 2)).
  { intros n. unfold sa.
    replace (2 * S n + k)%nat with (S (S (2 * n + k))) by lia. rewrite !fact_simpl, !mult_INR.
    replace (2 * n + k + 1)%nat with (S (2 * n + k)) by lia. replace (2 * n + k + 2)%nat with (S (S (2 * n + k))) by lia.
    assert (P1 : 0 < INR (S (2 * n + k))) by (apply lt_0_INR; lia).
    assert (P2 : 0 < INR (S (S (2 * n + k)))) by (apply lt_0_INR; lia).
    pose proof (INR_fact_neq_0 (2 * n + k)). assert ((-1) ^ n <> 0) by (apply pow_nonzero; lra).
    rewrite <- tech_pow_Rmult.
    set (u := INR (S (S (2 * n + k)))) in *. set (v := INR (S (2 * n + k))) in *.
    replace (-1 * (-1) ^ n / (u * (v * INR (fact (2 * n + k)))) / ((-1) ^ n / INR (fact (2 * n + k)))) with (- (/ v * / u)).
    - rewrite Rabs_Ropp, Rabs_right; [reflexivity|]. apply Rle_ge. apply Rmult_le_pos; left; now apply Rinv_0_lt_compat.
    - field. repeat split; auto; lra. }
  replace (Finite 0) with (Finite (0 * 0)) by (f_equal; ring).
  apply is_lim_seq_mult'.
  - apply is_lim_seq_ext with (fun n => / INR ((2 * n + k) + 1)); [intros; reflexivity|].
    replace (Finite 0) with (Rbar_inv p_infty) by reflexivity. apply is_lim_seq_inv; [|discriminate].
    apply is_lim_seq_le_p_loc with INR; [|apply is_lim_seq_INR]. exists 0%nat. intros n _. apply le_INR. lia.
  - replace (Finite 0) with (Rbar_inv p_infty) by reflexivity. apply is_lim_seq_inv; [|discriminate].
    apply is_lim_seq_le_p_loc with INR; [|apply is_lim_seq_INR]. exists 0%nat. intros n _. apply le_INR. lia.
Qed.
Lemma sa_in_radius k z : Rbar_lt (Rabs z) (CV_radius (sa k)).
Proof. rewrite sa_radius. exact I. Qed.

Lemma cS_pseries k z : is_pseries (sa k) z (cS k z).
Proof. apply PSeries_correct, CV_radius_inside, sa_in_radius. Qed.

Lemma cS_derive k z : is_derive (cS k) z ((INR k * cS (k + 2) z - cS (k + 1) z) / 2).
Proof.
  replace ((INR k * cS (k + 2) z - cS (k + 1) z) / 2) with (PSeries (PS_derive (sa k)) z).
  { apply is_derive_PSeries, sa_in_radius. }
  apply is_pseries_unique.
  apply is_pseries_ext with (PS_minus (PS_scal (INR k / 2) (sa (k + 2))) (PS_scal (/ 2) (sa (k + 1)))).
  - intros n.
    assert (P1 : 0 < INR (S (2 * n + k))) by (apply lt_0_INR; lia).
    assert (P2 : 0 < INR (S (S (2 * n + k)))) by (apply lt_0_INR; lia).
    assert (E2 : INR (S (S (2 * n + k))) = 2 * INR n + INR k + 2)
      by (rewrite !S_INR, plus_INR, mult_INR; simpl; ring).
    assert (E1 : INR (S (2 * n + k)) = 2 * INR n + INR k + 1)
      by (rewrite !S_INR, plus_INR, mult_INR; simpl; ring).
    pose proof (INR_fact_neq_0 (2 * n + k)) as F0.
    assert (F1 : sa k (S n) = - (-1) ^ n / ((2 * INR n + INR k + 2) * ((2 * INR n + INR k + 1) * INR (fact (2 * n + k))))).
    { unfold sa. replace (2 * S n + k)%nat with (S (S (2 * n + k))) by lia.
      rewrite !fact_simpl, !mult_INR, E1, E2, <- tech_pow_Rmult. unfold Rdiv. ring. }
    assert (F2 : sa (k + 2) n = (-1) ^ n / ((2 * INR n + INR k + 2) * ((2 * INR n + INR k + 1) * INR (fact (2 * n + k))))).
    { unfold sa. replace (2 * n + (k + 2))%nat with (S (S (2 * n + k))) by lia.
      rewrite !fact_simpl, !mult_INR, E1, E2. reflexivity. }
    assert (F3 : sa (k + 1) n = (-1) ^ n / ((2 * INR n + INR k + 1) * INR (fact (2 * n + k)))).
    { unfold sa. replace (2 * n + (k + 1))%nat with (S (2 * n + k)) by lia.
      rewrite !fact_simpl, !mult_INR, E1. reflexivity. }
    unfold PS_minus, PS_plus, PS_opp, PS_scal, PS_derive. rewrite F1, F2, F3, S_INR.
    rewrite E1 in P1. rewrite E2 in P2. generalize dependent (INR (fact (2 * n + k))). intros f; intros.
    change (INR k / 2 * ((-1) ^ n / ((2 * INR n + INR k + 2) * ((2 * INR n + INR k + 1) * f))) +
      - (/ 2 * ((-1) ^ n / ((2 * INR n + INR k + 1) * f))) =
      (INR n + 1) * (- (-1) ^ n / ((2 * INR n + INR k + 2) * ((2 * INR n + INR k + 1) * f)))).
    field. repeat split; auto; lra.
  - replace ((INR k * cS (k + 2) z - cS (k + 1) z) / 2) with (INR k / 2 * cS (k + 2) z - / 2 * cS (k + 1) z) by field.
    apply (is_pseries_minus _ _ _ (INR k / 2 * cS (k + 2) z) (/ 2 * cS (k + 1) z)).
    + apply (is_pseries_scal (INR k / 2) (sa (k + 2)) z (cS (k + 2) z)); [apply Rmult_comm|apply cS_pseries].
    + apply (is_pseries_scal (/ 2) (sa (k + 1)) z (cS (k + 1) z)); [apply Rmult_comm|apply cS_pseries].
Qed.

Lemma ser_lim_cS k z l : is_lim_seq (ser k (- z)) (Finite l) -> l = cS k z.
Proof.
  intros H. symmetry. apply is_pseries_unique. apply is_pseries_R.
  change (is_lim_seq (sum_n (fun n => sa k n * z ^ n)) (Finite l)).
  apply is_lim_seq_ext with (ser k (- z)); [|exact H].
  intros n. rewrite sum_n_Reals. unfold ser. apply sum_eq. intros i _. unfold sa.
  replace (- z) with (-1 * z) by ring. rewrite Rpow_mult_distr. unfold Rdiv. ring.
Qed.
Lemma C0_cS z : C0 z = cS 0 z. Proof. apply ser_lim_cS, C0_lim. Qed.
Lemma S1_cS z : S1 z = cS 1 z. Proof. apply ser_lim_cS, S1_lim. Qed.
Lemma S2_cS z : S2 z = cS 2 z. Proof. apply ser_lim_cS, S2_lim. Qed.
Lemma S3_cS z : S3 z = cS 3 z. Proof. apply ser_lim_cS, S3_lim. Qed.

Lemma C0_derive z : is_derive C0 z (- S1 z / 2).
Proof.
  apply is_derive_ext with (cS 0); [intros; symmetry; apply C0_cS|].
  replace (- S1 z / 2) with ((INR 0 * cS 2 z - cS 1 z) / 2) by (rewrite S1_cS; simpl; field). apply cS_derive.
Qed.
Lemma S1_derive z : is_derive S1 z ((S3 z - S2 z) / 2).
Proof.
  apply is_derive_ext with (cS 1); [intros; symmetry; apply S1_cS|].
  replace ((S3 z - S2 z) / 2) with ((INR 1 * cS 3 z - cS 2 z) / 2) by (rewrite S2_cS, S3_cS; simpl; field). apply cS_derive.
Qed.
Lemma S2_ex_derive z : ex_derive S2 z.
Proof. eexists. apply is_derive_ext with (cS 2); [intros; symmetry; apply S2_cS|apply cS_derive]. Qed.
Lemma S3_ex_derive z : ex_derive S3 z.
Proof. eexists. apply is_derive_ext with (cS 3); [intros; symmetry; apply S3_cS|apply cS_derive]. Qed.
