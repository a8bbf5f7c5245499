(** * C26: the Stumpff functions of utils/stumpff.py. *)
From Coq Require Import Reals ZArith Bool List Lra Lia Psatz.
From Coquelicot Require Import Coquelicot.
From Verif Require Import Num XReal XRealLemmas UniversalKepler LambertUV LambertRev StumpffXR StumpffSmooth ZMono MStumpff.
Local Open Scope R_scope.

Lemma sin_lt_self x : 0 < x -> sin x < x.
Proof. exact (sin_lt_x x). Qed.

Lemma cos_lt_1 x : 0 < x < 2 * PI -> cos x < 1.
Proof.
  intros H. replace (cos x) with (1 - 2 * (sin (x / 2) * sin (x / 2))).
  - assert (0 < sin (x / 2)) by (apply sin_gt_0; lra). nra.
  - replace x with (2 * (x / 2)) at 3 by field. rewrite cos_2a. pose proof (sin2_cos2 (x / 2)) as E. unfold Rsqr in E. lra.
Qed.

Lemma S3_positive psi : 0 < S3 psi.
Proof.
  unfold S3, U3. rewrite !Rmult_1_r. destruct (Rlt_dec 0 psi); [|destruct (Rlt_dec psi 0)].
  - destruct (sqrt_pos_facts psi) as [H1 H2]; [assumption|]. pose proof (sin_lt_self _ H1).
    apply Rdiv_lt_0_compat; [lra|nra].
  - destruct (sqrt_pos_facts (- psi)) as [H1 H2]; [lra|]. pose proof (sinh_gt_self _ H1).
    apply Rdiv_lt_0_compat; [lra|nra].
  - lra.
Qed.
Lemma S2_positive psi : psi < 4 * (PI * PI) -> 0 < S2 psi.
Proof.
  intros HP. unfold S2, U2. rewrite !Rmult_1_r. destruct (Rlt_dec 0 psi); [|destruct (Rlt_dec psi 0)].
  - destruct (sqrt_pos_facts psi) as [H1 H2]; [assumption|]. pose proof PI_RGT_0.
    assert (sqrt psi < 2 * PI) by nra. pose proof (cos_lt_1 (sqrt psi)). apply Rdiv_lt_0_compat; lra.
  - destruct (sqrt_pos_facts (- psi)) as [H1 H2]; [lra|]. pose proof (sinh_gt_self _ H1).
    pose proof (cosh_sinh_sq (sqrt (- psi))).
    assert (0 < cosh (sqrt (- psi))) by (unfold cosh; pose proof (exp_pos (sqrt (- psi))); pose proof (exp_pos (- sqrt (- psi))); lra).
    apply Rdiv_lt_0_compat; nra.
  - lra.
Qed.

Lemma lim_is_series k z l : is_lim_seq (ser k (- z)) (Finite l) -> is_series (fun n => (- z) ^ n / INR (fact (2 * n + k))) l.
Proof.
  intros H. apply is_lim_seq_ext with (2 := H). intros n. rewrite sum_n_Reals. reflexivity.
Qed.

(** For every real argument the two functions return numbers; they are the sums
    of the Stumpff series and have the closed forms of the docstrings, whichever
    branch of the code is taken; they are related by
    [2 c2 = psi c2^2 + (1 - psi c3)^2]; [c3] is always positive and [c2] is
    positive below [4 pi^2] and never negative. *)
Theorem C26_values : forall psi, exists a b,
  @c2 XR (Fin psi) = Fin a /\ @c3 XR (Fin psi) = Fin b /\
  is_series (fun n => (- psi) ^ n / INR (fact (2 * n + 2))) a /\
  is_series (fun n => (- psi) ^ n / INR (fact (2 * n + 3))) b /\
  (0 < psi -> a = (1 - cos (sqrt psi)) / psi /\ b = (sqrt psi - sin (sqrt psi)) / sqrt (psi ^ 3)) /\
  (psi < 0 -> a = (cosh (sqrt (- psi)) - 1) / (- psi) /\ b = (sinh (sqrt (- psi)) - sqrt (- psi)) / sqrt ((- psi) ^ 3)) /\
  (psi = 0 -> a = 1 / 2 /\ b = 1 / 6) /\
  2 * a = psi * a ^ 2 + (1 - psi * b) ^ 2 /\
  0 < b /\ 0 <= a /\ (psi < 4 * PI ^ 2 -> 0 < a).
Proof.
  intros psi. exists (S2 psi), (S3 psi).
  assert (SC : forall x, 0 < x -> sqrt (x ^ 3) = x * sqrt x).
  { intros x Hx. replace (x ^ 3) with (x * x * x) by ring. rewrite sqrt_mult by nra. rewrite sqrt_square by lra. reflexivity. }
  split; [apply c2_F|]. split; [apply c3_F|].
  split; [apply lim_is_series, S2_lim|]. split; [apply lim_is_series, S3_lim|].
  split; [intros H|split; [intros H|split; [intros ->|split; [|split; [apply S3_positive|split; [apply S2_nonneg|]]]]]].
  - unfold S2, S3, U2, U3. rewrite !Rmult_1_r. destruct (Rlt_dec 0 psi); [|lra]. rewrite SC by lra. split; reflexivity.
  - unfold S2, S3, U2, U3. rewrite !Rmult_1_r. destruct (Rlt_dec 0 psi); [lra|]. destruct (Rlt_dec psi 0); [|lra].
    rewrite SC by lra. split; reflexivity.
  - unfold S2, S3, U2, U3. destruct (Rlt_dec 0 0); [lra|]. lra.
  - pose proof (S_identity psi) as E. unfold S1 in E. lra.
  - intros H. apply S2_positive. replace (PI ^ 2) with (PI * PI) in H by ring. exact H.
Qed.
Print Assumptions C26_values.

(** [c2] vanishes at [4 pi^2], so the bound for positivity is sharp. *)
Example C26_bound_sharp : exists a, @c2 XR (Fin (4 * PI ^ 2)) = Fin a /\ a = 0.
Proof.
  exists (S2 (4 * PI ^ 2)). split; [apply c2_F|]. unfold S2, U2. pose proof PI_RGT_0. destruct (Rlt_dec 0 (4 * PI ^ 2)); [|nra].
  replace (4 * PI ^ 2) with ((2 * PI) * (2 * PI)) at 1 by ring. rewrite sqrt_square by lra. rewrite Rmult_1_r, cos_2PI. field. lra.
Qed.

(** The two functions are continuous and differentiable at every real number,
    in particular at [1] and [-1] where the code switches between the closed
    forms and the series. *)
Theorem C26_smooth : exists f g : R -> R,
  (forall psi, @c2 XR (Fin psi) = Fin (f psi)) /\ (forall psi, @c3 XR (Fin psi) = Fin (g psi)) /\
  (forall psi, continuity_pt f psi /\ continuity_pt g psi) /\
  (forall psi, psi <> 0 ->
     is_derive f psi ((1 - psi * g psi - 2 * f psi) / (2 * psi)) /\
     is_derive g psi ((f psi - 3 * g psi) / (2 * psi))) /\
  is_derive f 0 (- 1 / 24) /\ is_derive g 0 (- 1 / 120).
Proof.
  exists S2, S3. split; [apply c2_F|]. split; [apply c3_F|]. split.
  { intros psi. split; apply derivable_continuous_pt, ex_derive_Reals_0; [apply S2_ex_derive|apply S3_ex_derive]. }
  assert (D2 : forall z, is_derive S2 z ((2 * cS 4 z - cS 3 z) / 2)).
  { intros z. eapply is_derive_ext; [intros t; symmetry; apply S2_cS|]. replace 2 with (INR 2) at 1 by (simpl; lra). apply (cS_derive 2 z). }
  assert (D3 : forall z, is_derive S3 z ((3 * cS 5 z - cS 4 z) / 2)).
  { intros z. eapply is_derive_ext; [intros t; symmetry; apply S3_cS|]. replace 3 with (INR 3) at 1 by (simpl; lra). apply (cS_derive 3 z). }
  assert (SH : forall k z, cS k z = 1 / INR (fact k) - z * cS (2 + k) z).
  { apply cS_shift. }
  assert (F2 : INR (fact 2) = 2) by (simpl; lra). assert (F3 : INR (fact 3) = 6) by (simpl; lra).
  assert (F1 : INR (fact 1) = 1) by (simpl; lra). assert (F4 : INR (fact 4) = 24) by (simpl; lra). assert (F5 : INR (fact 5) = 120) by (simpl; lra).
  split.
  { intros psi H. split.
    - replace ((1 - psi * S3 psi - 2 * S2 psi) / (2 * psi)) with ((2 * cS 4 psi - cS 3 psi) / 2); [apply D2|].
      rewrite S2_cS, S3_cS, (SH 2%nat psi), F2. change (2 + 2)%nat with 4%nat. field. exact H.
    - replace ((S2 psi - 3 * S3 psi) / (2 * psi)) with ((3 * cS 5 psi - cS 4 psi) / 2); [apply D3|].
      rewrite S2_cS, S3_cS, (SH 2%nat psi), (SH 3%nat psi), F2, F3. change (2 + 2)%nat with 4%nat. change (2 + 3)%nat with 5%nat. field. exact H. }
  split.
  - replace (- 1 / 24) with ((2 * cS 4 0 - cS 3 0) / 2); [apply D2|]. rewrite (SH 4%nat), (SH 3%nat), F4, F3. field.
  - replace (- 1 / 120) with ((3 * cS 5 0 - cS 4 0) / 2); [apply D3|]. rewrite (SH 5%nat), (SH 4%nat), F4, F5. field.
Qed.
Print Assumptions C26_smooth.
