(** * The Stumpff functions of the model are the mathematical ones. *)
From Coq Require Import Reals ZArith Lra Lia Psatz.
From Coquelicot Require Import Coquelicot.
From Verif Require Import Num XReal XRealLemmas MStumpff UniversalKepler LambertUV.
Local Open Scope R_scope.

(** Partial sums of the series. *)
Definition ser (a : nat) (z : R) (n : nat) : R :=
  sum_f_R0 (fun k => z ^ k / INR (fact (2 * k + a))) n.

Lemma IZR_zfact n : IZR (zfact n) = INR (fact n).
Proof.
  induction n as [|n IH]; [simpl; lra|].
  change (zfact (S n)) with (Z.of_nat (S n) * zfact n)%Z.
  rewrite mult_IZR, IH, <- INR_IZR_INZ, fact_simpl, mult_INR. reflexivity.
Qed.

Lemma npown_F x n : @npown XR (Fin x) n = Fin (x ^ n).
Proof.
  induction n as [|n IH]; [reflexivity|].
  destruct n as [|n]; [simpl; f_equal; ring|].
  change (@npown XR (Fin x) (S (S n))) with (xmul (Fin x) (@npown XR (Fin x) (S n))).
  rewrite IH. reflexivity.
Qed.

Lemma stumpff_partial_F a res0 psi n :
  res0 = 1 / INR (fact a) ->
  @stumpff_partial XR a (Fin res0) (Fin psi) n = Fin (ser a (- psi) n).
Proof.
  intros H0. induction n as [|n IH].
  - simpl. unfold ser; simpl. rewrite H0. f_equal.
  - change (@stumpff_partial XR a (Fin res0) (Fin psi) (S n)) with
      (xadd (@stumpff_partial XR a (Fin res0) (Fin psi) n)
            (@stumpff_delta XR a (Fin psi) (S n))).
    rewrite IH. unfold stumpff_delta. xunf. change (xopp (Fin psi)) with (Fin (- psi)).
    rewrite npown_F. rewrite xdiv_F by (rewrite IZR_zfact; apply INR_fact_neq_0).
    rewrite IZR_zfact. reflexivity.
Qed.

(** ** Series of the trigonometric and hyperbolic functions *)
Lemma infinite_sum_lim u l : infinite_sum u l -> is_lim_seq (sum_f_R0 u) l.
Proof.
  intros H. apply is_lim_seq_Reals. intros eps He. destruct (H eps He) as [N HN].
  exists N. intros n Hn. apply HN. assumption.
Qed.

Lemma cos_lim x : is_lim_seq (fun n => ser 0 (- (x * x)) n) (cos x).
Proof.
  apply is_lim_seq_ext with (sum_f_R0 (fun i => cos_n i * (Rsqr x) ^ i)).
  - intros n. unfold ser. apply sum_eq. intros i _. unfold cos_n, Rsqr.
    replace (2 * i + 0)%nat with (2 * i)%nat by lia.
    replace (- (x * x)) with ((-1) * (x * x)) by ring. rewrite (Rpow_mult_distr (-1)).
    unfold Rdiv. ring.
  - apply infinite_sum_lim. unfold cos. destruct (exist_cos (Rsqr x)) as [l Hl]. exact Hl.
Qed.
Lemma sin_lim x : is_lim_seq (fun n => x * ser 1 (- (x * x)) n) (sin x).
Proof.
  assert (H : exists l, is_lim_seq (fun n => ser 1 (- (x * x)) n) (Finite l) /\ sin x = x * l).
  { unfold sin. destruct (exist_sin (Rsqr x)) as [l Hl]. exists l. split; [|reflexivity].
    apply is_lim_seq_ext with (sum_f_R0 (fun i => sin_n i * (Rsqr x) ^ i)).
    - intros n. unfold ser. apply sum_eq. intros i _. unfold sin_n, Rsqr.
      replace (- (x * x)) with ((-1) * (x * x)) by ring. rewrite (Rpow_mult_distr (-1)).
      unfold Rdiv. ring.
    - apply infinite_sum_lim. exact Hl. }
  destruct H as (l & Hl & ->). apply (is_lim_seq_scal_l _ x (Finite l)). exact Hl.
Qed.

Lemma exp_lim x : is_lim_seq (sum_f_R0 (fun i => / INR (fact i) * x ^ i)) (exp x).
Proof. apply infinite_sum_lim. unfold exp. destruct (exist_exp x) as [l Hl]. exact Hl. Qed.

Lemma even_sum x n :
  (sum_f_R0 (fun i => / INR (fact i) * x ^ i) (2 * n)
   + sum_f_R0 (fun i => / INR (fact i) * (- x) ^ i) (2 * n)) / 2 = ser 0 (x * x) n.
Proof.
  induction n as [|n IH].
  - unfold ser; simpl. field.
  - replace (2 * S n)%nat with (S (S (2 * n))) by lia. rewrite !tech5.
    replace (ser 0 (x * x) (S n)) with (ser 0 (x * x) n + (x * x) ^ S n / INR (fact (2 * S n + 0)))
      by reflexivity.
    rewrite <- IH.
    replace (2 * S n + 0)%nat with (S (S (2 * n))) by lia.
    replace ((- x) ^ S (2 * n)) with (- x ^ S (2 * n)).
    2:{ replace (- x) with ((-1) * x) by ring. rewrite (Rpow_mult_distr (-1)).
        rewrite pow_1_odd. ring. }
    replace ((- x) ^ S (S (2 * n))) with (x ^ S (S (2 * n))).
    2:{ replace (- x) with ((-1) * x) by ring. rewrite (Rpow_mult_distr (-1)).
        replace (S (S (2 * n))) with (2 * S n)%nat by lia. rewrite pow_1_even. ring. }
    replace ((x * x) ^ S n) with (x ^ S (S (2 * n))).
    2:{ replace (S (S (2 * n))) with (2 * S n)%nat by lia. rewrite pow_mult. f_equal. ring. }
    generalize (x ^ S (2 * n)), (x ^ S (S (2 * n))); intros.
    field. split; apply INR_fact_neq_0.
Qed.
Lemma odd_sum x n :
  (sum_f_R0 (fun i => / INR (fact i) * x ^ i) (S (2 * n))
   - sum_f_R0 (fun i => / INR (fact i) * (- x) ^ i) (S (2 * n))) / 2 = x * ser 1 (x * x) n.
Proof.
  induction n as [|n IH].
  - unfold ser; simpl. field.
  - replace (2 * S n)%nat with (S (S (2 * n))) by lia.
    rewrite (tech5 _ (S (S (2 * n)))), (tech5 _ (S (2 * n))).
    rewrite (tech5 (fun i => / INR (fact i) * (- x) ^ i) (S (S (2 * n)))),
            (tech5 (fun i => / INR (fact i) * (- x) ^ i) (S (2 * n))).
    replace (ser 1 (x * x) (S n)) with (ser 1 (x * x) n + (x * x) ^ S n / INR (fact (2 * S n + 1)))
      by reflexivity.
    rewrite Rmult_plus_distr_l, <- IH.
    replace (2 * S n + 1)%nat with (S (S (S (2 * n)))) by lia.
    replace ((- x) ^ S (S (S (2 * n)))) with (- x ^ S (S (S (2 * n)))).
    2:{ replace (- x) with ((-1) * x) by ring. rewrite (Rpow_mult_distr (-1)).
        replace (S (S (S (2 * n)))) with (S (2 * S n)) by lia. rewrite pow_1_odd. ring. }
    replace ((- x) ^ S (S (2 * n))) with (x ^ S (S (2 * n))).
    2:{ replace (- x) with ((-1) * x) by ring. rewrite (Rpow_mult_distr (-1)).
        replace (S (S (2 * n))) with (2 * S n)%nat by lia. rewrite pow_1_even. ring. }
    replace ((x * x) ^ S n) with (x ^ S (S (2 * n))).
    2:{ replace (S (S (2 * n))) with (2 * S n)%nat by lia. rewrite pow_mult. f_equal. ring. }
    replace (x ^ S (S (S (2 * n)))) with (x * x ^ S (S (2 * n))) by reflexivity.
    generalize (x ^ S (S (2 * n))); intros.
    field. split; apply INR_fact_neq_0.
Qed.

Lemma cosh_lim x : is_lim_seq (fun n => ser 0 (x * x) n) (cosh x).
Proof.
  apply is_lim_seq_ext with (fun n =>
    / 2 * (sum_f_R0 (fun i => / INR (fact i) * x ^ i) (2 * n)
     + sum_f_R0 (fun i => / INR (fact i) * (- x) ^ i) (2 * n))).
  { intros n. rewrite <- even_sum. unfold Rdiv. ring. }
  replace (cosh x) with (/ 2 * (exp x + exp (- x))) by (unfold cosh; field).
  apply (is_lim_seq_scal_l _ (/ 2) (Finite (exp x + exp (- x)))).
  apply (is_lim_seq_plus' _ _ (exp x) (exp (- x)));
    (apply is_lim_seq_subseq with (phi := fun n => (2 * n)%nat);
     [intros P [N HN]; exists N; intros; apply HN; lia | apply exp_lim]).
Qed.
Lemma sinh_lim x : is_lim_seq (fun n => x * ser 1 (x * x) n) (sinh x).
Proof.
  apply is_lim_seq_ext with (fun n =>
    / 2 * (sum_f_R0 (fun i => / INR (fact i) * x ^ i) (S (2 * n))
     - sum_f_R0 (fun i => / INR (fact i) * (- x) ^ i) (S (2 * n)))).
  { intros n. rewrite <- odd_sum. unfold Rdiv. ring. }
  replace (sinh x) with (/ 2 * (exp x - exp (- x))) by (unfold sinh; field).
  apply (is_lim_seq_scal_l _ (/ 2) (Finite (exp x - exp (- x)))).
  apply (is_lim_seq_minus' _ _ (exp x) (exp (- x)));
    (apply is_lim_seq_subseq with (phi := fun n => S (2 * n)%nat);
     [intros P [N HN]; exists N; intros; apply HN; lia | apply exp_lim]).
Qed.

Lemma ser_shift a z n :
  ser a z (S n) = 1 / INR (fact a) + z * ser (2 + a) z n.
Proof.
  unfold ser. rewrite decomp_sum by lia. simpl pred. apply f_equal2; [reflexivity|].
  rewrite scal_sum. apply sum_eq. intros i _.
  replace (2 * S i + a)%nat with (2 * i + (2 + a))%nat by lia. simpl. unfold Rdiv. ring.
Qed.

Lemma ser_at_0 a n : ser a 0 n = 1 / INR (fact a).
Proof.
  destruct n.
  - unfold ser. simpl. reflexivity.
  - rewrite ser_shift. ring.
Qed.

Lemma S2_lim psi : is_lim_seq (ser 2 (- psi)) (S2 psi).
Proof.
  unfold S2, U2. rewrite !Rmult_1_r. destruct (Rlt_dec 0 psi); [|destruct (Rlt_dec psi 0)].
  - destruct (sqrt_pos_facts psi) as [H1 H2]; [assumption|].
    apply is_lim_seq_ext with (fun n => / psi * (1 - ser 0 (- (sqrt psi * sqrt psi)) (S n))).
    { intros m. rewrite ser_shift. rewrite H2. change (2 + 0)%nat with 2%nat. change (INR (fact 0)) with 1. field. lra. }
    replace ((1 - cos (sqrt psi)) / psi) with (/ psi * (1 - cos (sqrt psi))) by (field; lra).
    apply (is_lim_seq_scal_l _ (/ psi) (Finite (1 - cos (sqrt psi)))).
    apply (is_lim_seq_minus' _ _ 1 (cos (sqrt psi))); [apply is_lim_seq_const|].
    apply (is_lim_seq_incr_1 (fun n => ser 0 (- (sqrt psi * sqrt psi)) n)). apply cos_lim.
  - destruct (sqrt_pos_facts (- psi)) as [H1 H2]; [lra|].
    apply is_lim_seq_ext with (fun m => / (- psi) * (ser 0 (sqrt (- psi) * sqrt (- psi)) (S m) - 1)).
    { intros m. rewrite ser_shift. rewrite H2. change (2 + 0)%nat with 2%nat. change (INR (fact 0)) with 1. field. lra. }
    replace ((cosh (sqrt (- psi)) - 1) / (- psi)) with (/ (- psi) * (cosh (sqrt (- psi)) - 1))
      by (field; lra).
    apply (is_lim_seq_scal_l _ (/ (- psi)) (Finite (cosh (sqrt (- psi)) - 1))).
    apply (is_lim_seq_minus' _ _ (cosh (sqrt (- psi))) 1); [|apply is_lim_seq_const].
    apply (is_lim_seq_incr_1 (fun n => ser 0 (sqrt (- psi) * sqrt (- psi)) n)). apply cosh_lim.
  - replace psi with 0 by lra. apply is_lim_seq_ext with (fun _ => 1 ^ 2 / 2).
    + intros m. rewrite Ropp_0, ser_at_0. simpl. field.
    + apply is_lim_seq_const.
Qed.
Lemma S3_lim psi : is_lim_seq (ser 3 (- psi)) (S3 psi).
Proof.
  unfold S3, U3. rewrite !Rmult_1_r. destruct (Rlt_dec 0 psi); [|destruct (Rlt_dec psi 0)].
  - destruct (sqrt_pos_facts psi) as [H1 H2]; [assumption|].
    apply is_lim_seq_ext with
      (fun n => / (psi * sqrt psi) * (sqrt psi - sqrt psi * ser 1 (- (sqrt psi * sqrt psi)) (S n))).
    { intros m. rewrite ser_shift. rewrite H2. change (2 + 1)%nat with 3%nat. change (INR (fact 1)) with 1. field. lra. }
    replace ((sqrt psi - sin (sqrt psi)) / (psi * sqrt psi))
      with (/ (psi * sqrt psi) * (sqrt psi - sin (sqrt psi))) by (field; lra).
    apply (is_lim_seq_scal_l _ _ (Finite (sqrt psi - sin (sqrt psi)))).
    apply (is_lim_seq_minus' _ _ (sqrt psi) (sin (sqrt psi))); [apply is_lim_seq_const|].
    apply (is_lim_seq_incr_1 (fun n => sqrt psi * ser 1 (- (sqrt psi * sqrt psi)) n)). apply sin_lim.
  - destruct (sqrt_pos_facts (- psi)) as [H1 H2]; [lra|].
    apply is_lim_seq_ext with
      (fun n => / (- psi * sqrt (- psi)) *
         (sqrt (- psi) * ser 1 (sqrt (- psi) * sqrt (- psi)) (S n) - sqrt (- psi))).
    { intros m. rewrite ser_shift. rewrite H2. change (2 + 1)%nat with 3%nat. change (INR (fact 1)) with 1. field. lra. }
    replace ((sinh (sqrt (- psi)) - sqrt (- psi)) / (- psi * sqrt (- psi)))
      with (/ (- psi * sqrt (- psi)) * (sinh (sqrt (- psi)) - sqrt (- psi))) by (field; lra).
    apply (is_lim_seq_scal_l _ _ (Finite (sinh (sqrt (- psi)) - sqrt (- psi)))).
    apply (is_lim_seq_minus' _ _ (sinh (sqrt (- psi))) (sqrt (- psi))); [|apply is_lim_seq_const].
    apply (is_lim_seq_incr_1 (fun n => sqrt (- psi) * ser 1 (sqrt (- psi) * sqrt (- psi)) n)).
    apply sinh_lim.
  - replace psi with 0 by lra. apply is_lim_seq_ext with (fun _ => 1 ^ 3 / 6).
    + intros m. rewrite Ropp_0, ser_at_0. simpl. field.
    + apply is_lim_seq_const.
Qed.

(** ** The model *)
Theorem c2_F psi : @c2 XR (Fin psi) = Fin (S2 psi).
Proof.
  unfold c2. xunf. change (xopp (Fin 1)) with (Fin (-1)).
  destruct (xltb (Fin 1) (Fin psi)) eqn:E1; [apply xltb_F in E1 | apply xltb_Ff in E1].
  - rewrite xsqrt_F by lra. cbn [xlift1]. change (xsub (Fin 1) ?x) with (xsub (Fin 1) x).
    unfold xsub; cbn [xlift2]. rewrite xdiv_F by lra.
    unfold S2, U2. rewrite !Rmult_1_r. destruct (Rlt_dec 0 psi); [reflexivity|lra].
  - destruct (xltb (Fin psi) (Fin (-1))) eqn:E2; [apply xltb_F in E2 | apply xltb_Ff in E2].
    + unfold xopp; cbn [xlift1]. rewrite xsqrt_F by lra. unfold xsub; cbn [xlift1 xlift2].
      rewrite xdiv_F by lra. unfold S2, U2. rewrite !Rmult_1_r.
      destruct (Rlt_dec 0 psi); [lra|]. destruct (Rlt_dec psi 0); [reflexivity|lra].
    + rewrite xdiv_F by lra.
      apply (xlim_is_lim _ (ser 2 (- psi))); [|apply S2_lim].
      intros n. apply stumpff_partial_F. simpl. field.
Qed.
Theorem c3_F psi : @c3 XR (Fin psi) = Fin (S3 psi).
Proof.
  unfold c3. xunf. change (xopp (Fin 1)) with (Fin (-1)).
  destruct (xltb (Fin 1) (Fin psi)) eqn:E1; [apply xltb_F in E1 | apply xltb_Ff in E1].
  - destruct (sqrt_pos_facts psi) as [H1 H2]; [lra|].
    rewrite xsqrt_F by lra. unfold xsub, xmul; cbn [xlift1 xlift2]. rewrite xdiv_F by nra.
    unfold S3, U3. rewrite !Rmult_1_r. destruct (Rlt_dec 0 psi); [reflexivity|lra].
  - destruct (xltb (Fin psi) (Fin (-1))) eqn:E2; [apply xltb_F in E2 | apply xltb_Ff in E2].
    + destruct (sqrt_pos_facts (- psi)) as [H1 H2]; [lra|].
      unfold xopp; cbn [xlift1]. rewrite xsqrt_F by lra. unfold xsub, xmul; cbn [xlift1 xlift2].
      rewrite xdiv_F by nra. unfold S3, U3. rewrite !Rmult_1_r.
      destruct (Rlt_dec 0 psi); [lra|]. destruct (Rlt_dec psi 0); [reflexivity|lra].
    + rewrite xdiv_F by lra.
      apply (xlim_is_lim _ (ser 3 (- psi))); [|apply S3_lim].
      intros n. apply stumpff_partial_F. simpl. field.
Qed.
Lemma c2_inv x r : @c2 XR x = Fin r -> exists psi, x = Fin psi /\ r = S2 psi.
Proof.
  destruct x as [p|]; [rewrite c2_F; intros H; inversion H; eauto|].
  intros H. exfalso. unfold c2 in H. xunf. cbn in H.
  apply xlim_fin in H. destruct H as [H _]. specialize (H 1%nat). cbn in H. 
  destruct (Req_EM_T 2 0) in H; discriminate.
Qed.
Lemma c3_inv x r : @c3 XR x = Fin r -> exists psi, x = Fin psi /\ r = S3 psi.
Proof.
  destruct x as [p|]; [rewrite c3_F; intros H; inversion H; eauto|].
  intros H. exfalso. unfold c3 in H. xunf. cbn in H.
  apply xlim_fin in H. destruct H as [H _]. specialize (H 1%nat). cbn in H.
  destruct (Req_EM_T 6 0) in H; discriminate.
Qed.
