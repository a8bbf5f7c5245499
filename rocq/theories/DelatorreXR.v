(** * delatorre2018 in exact arithmetic: the accepted iterate determines a
    genuine transfer. *)
From Coq Require Import Reals ZArith Bool Lra Lia Psatz String List.
From Coquelicot Require Import Coquelicot.
From Verif Require Import Num XReal XRealLemmas MApi ApiFacts Loops MScipy MLinalg MAssertions MAngles MStumpff
  MDelatorre Spec SpecLambert VecFacts VecXR UniversalKepler LambertUV LambertRev AnglesXR StumpffXR CallXR Godal GodalXR.
Local Open Scope R_scope.

(** ** Stumpff functions *)
Lemma C0_S2 z : C0 z = 1 - z * S2 z.
Proof. unfold C0, S2. apply U0_U2. Qed.
Lemma C0_lim z : is_lim_seq (ser 0 (- z)) (C0 z).
Proof.
  apply is_lim_seq_incr_1. apply is_lim_seq_ext with (fun n => 1 + - z * ser 2 (- z) n).
  { intros n. rewrite ser_shift. change (INR (fact 0)) with 1. change (2 + 0)%nat with 2%nat. field. }
  rewrite C0_S2. replace (1 - z * S2 z) with (1 + - z * S2 z) by ring.
  apply (is_lim_seq_plus' _ _ 1 (- z * S2 z)); [apply is_lim_seq_const|].
  apply (is_lim_seq_scal_l _ (- z) (Finite (S2 z))), S2_lim.
Qed.
Lemma S1_lim z : is_lim_seq (ser 1 (- z)) (S1 z).
Proof.
  apply is_lim_seq_incr_1. apply is_lim_seq_ext with (fun n => 1 + - z * ser 3 (- z) n).
  { intros n. rewrite ser_shift. change (INR (fact 1)) with 1. change (2 + 1)%nat with 3%nat. field. }
  unfold S1. replace (1 - z * S3 z) with (1 + - z * S3 z) by ring.
  apply (is_lim_seq_plus' _ _ 1 (- z * S3 z)); [apply is_lim_seq_const|].
  apply (is_lim_seq_scal_l _ (- z) (Finite (S3 z))), S3_lim.
Qed.

Lemma tor_term_F k z n :
  @tor_term XR (Z.of_nat k) (Fin z) n = Fin ((- z) ^ n / INR (fact (2 * n + k))).
Proof.
  induction n as [|n IH].
  - cbn [tor_term]. rewrite Nat2Z.id. xunf. rewrite xdiv_F by (rewrite IZR_zfact; apply INR_fact_neq_0).
    rewrite IZR_zfact. f_equal.
  - change (@tor_term XR (Z.of_nat k) (Fin z) (S n)) with
      (xmul (@tor_term XR (Z.of_nat k) (Fin z) n)
         (xdiv (Fin (- z)) (Fin (IZR ((Z.of_nat k + 2 * Z.of_nat (S n) - 1) * (Z.of_nat k + 2 * Z.of_nat (S n))))))).
    rewrite IH.
    assert (E : IZR ((Z.of_nat k + 2 * Z.of_nat (S n) - 1) * (Z.of_nat k + 2 * Z.of_nat (S n))) =
      INR (S (2 * n + k)) * INR (S (S (2 * n + k)))).
    { rewrite !INR_IZR_INZ, <- mult_IZR. f_equal. lia. }
    assert (P1 : INR (S (2 * n + k)) <> 0) by (apply not_0_INR; lia).
    assert (P2 : INR (S (S (2 * n + k))) <> 0) by (apply not_0_INR; lia).
    pose proof (INR_fact_neq_0 (2 * n + k)) as P3.
    rewrite xdiv_F by (rewrite E; now apply Rmult_integral_contrapositive_currified).
    rewrite E. cbn [xmul xlift2]. f_equal.
    replace (2 * S n + k)%nat with (S (S (2 * n + k))) by lia. rewrite !fact_simpl, !mult_INR.
    rewrite <- tech_pow_Rmult. set (u := INR (S (S (2 * n + k)))) in *. set (v := INR (S (2 * n + k))) in *.
    field. auto.
Qed.
Lemma tor_partial_F k z n : @tor_partial XR (Z.of_nat k) (Fin z) n = Fin (ser k (- z) n).
Proof.
  induction n as [|n IH].
  - cbn [tor_partial]. rewrite tor_term_F. reflexivity.
  - change (@tor_partial XR (Z.of_nat k) (Fin z) (S n)) with
      (xadd (@tor_partial XR (Z.of_nat k) (Fin z) n) (@tor_term XR (Z.of_nat k) (Fin z) (S n))).
    rewrite IH, tor_term_F. reflexivity.
Qed.

Lemma tor_1em8_pos : 0 < 1 / 100000000. Proof. lra. Qed.
Lemma tor_stumpff0_F z : @tor_stumpff0 XR (Fin z) = Fin (C0 z).
Proof.
  unfold tor_stumpff0, tor_1em8. xunf.
  destruct (xltb (Fin (1 / 100000000)) (Fin z)) eqn:E1; [apply xltb_F in E1 | apply xltb_Ff in E1].
  - rewrite xsqrt_F by lra. unfold C0, U0. rewrite !Rmult_1_r. destruct (Rlt_dec 0 z); [reflexivity|lra].
  - cbn [xopp xlift1]. destruct (xltb (Fin z) (Fin (- (1 / 100000000)))) eqn:E2; [apply xltb_F in E2 | apply xltb_Ff in E2].
    + rewrite xsqrt_F by lra. unfold C0, U0. rewrite !Rmult_1_r. destruct (Rlt_dec 0 z); [lra|].
      destruct (Rlt_dec z 0); [reflexivity|lra].
    + apply (xlim_is_lim _ (ser 0 (- z))); [|apply C0_lim]. intros n. apply (tor_partial_F 0).
Qed.
Lemma tor_stumpff1_F z : @tor_stumpff1 XR (Fin z) = Fin (S1 z).
Proof.
  unfold tor_stumpff1, tor_1em8. xunf.
  destruct (xltb (Fin (1 / 100000000)) (Fin z)) eqn:E1; [apply xltb_F in E1 | apply xltb_Ff in E1].
  - destruct (sqrt_pos_facts z) as [H1 H2]; [lra|].
    rewrite xsqrt_F by lra. cbn [xlift1]. rewrite xdiv_F by lra. rewrite S1_U1. unfold U1. rewrite !Rmult_1_r.
    destruct (Rlt_dec 0 z); [reflexivity|lra].
  - cbn [xopp xlift1]. destruct (xltb (Fin z) (Fin (- (1 / 100000000)))) eqn:E2; [apply xltb_F in E2 | apply xltb_Ff in E2].
    + destruct (sqrt_pos_facts (- z)) as [H1 H2]; [lra|].
      rewrite xsqrt_F by lra. cbn [xlift1]. rewrite xdiv_F by lra. rewrite S1_U1. unfold U1. rewrite !Rmult_1_r.
      destruct (Rlt_dec 0 z); [lra|]. destruct (Rlt_dec z 0); [reflexivity|lra].
    + apply (xlim_is_lim _ (ser 1 (- z))); [|apply S1_lim]. intros n. apply (tor_partial_F 1).
Qed.
Lemma tor_stumpff2_F z : @tor_stumpff2 XR (Fin z) = Fin (S2 z).
Proof.
  unfold tor_stumpff2, tor_1em8. xunf.
  destruct (xltb (Fin (1 / 100000000)) (Fin z)) eqn:E1; [apply xltb_F in E1 | apply xltb_Ff in E1].
  - rewrite xsqrt_F by lra. unfold xsub; cbn [xlift1 xlift2]. rewrite xdiv_F by lra. unfold S2, U2. rewrite !Rmult_1_r.
    destruct (Rlt_dec 0 z); [reflexivity|lra].
  - cbn [xopp xlift1]. destruct (xltb (Fin z) (Fin (- (1 / 100000000)))) eqn:E2; [apply xltb_F in E2 | apply xltb_Ff in E2].
    + rewrite xsqrt_F by lra. unfold xsub; cbn [xlift1 xlift2]. rewrite xdiv_F by lra. unfold S2, U2. rewrite !Rmult_1_r.
      destruct (Rlt_dec 0 z); [lra|]. destruct (Rlt_dec z 0); [reflexivity|lra].
    + apply (xlim_is_lim _ (ser 2 (- z))); [|apply S2_lim]. intros n. apply (tor_partial_F 2).
Qed.
Lemma tor_stumpff3_F z : @tor_stumpff3 XR (Fin z) = Fin (S3 z).
Proof.
  unfold tor_stumpff3, tor_1em8. xunf.
  destruct (xltb (Fin (1 / 100000000)) (Fin z)) eqn:E1; [apply xltb_F in E1 | apply xltb_Ff in E1].
  - destruct (sqrt_pos_facts z) as [H1 H2]; [lra|].
    rewrite xsqrt_F by lra. unfold xsub, xmul; cbn [xlift1 xlift2]. rewrite xdiv_F by nra. unfold S3, U3. rewrite !Rmult_1_r.
    destruct (Rlt_dec 0 z); [reflexivity|lra].
  - cbn [xopp xlift1]. destruct (xltb (Fin z) (Fin (- (1 / 100000000)))) eqn:E2; [apply xltb_F in E2 | apply xltb_Ff in E2].
    + destruct (sqrt_pos_facts (- z)) as [H1 H2]; [lra|].
      rewrite xsqrt_F by lra. unfold xsub, xmul; cbn [xlift1 xlift2]. rewrite xdiv_F by nra. unfold S3, U3. rewrite !Rmult_1_r.
      destruct (Rlt_dec 0 z); [lra|]. destruct (Rlt_dec z 0); [reflexivity|lra].
    + apply (xlim_is_lim _ (ser 3 (- z))); [|apply S3_lim]. intros n. apply (tor_partial_F 3).
Qed.

(** ** The time equation *)
(** [Q] of the code is [sqrt 2 * A] for the [A] of [z_solution]. *)
Lemma tor_tof_inv P A mu z M t :
  0 < mu -> z < PI * PI -> (0 <= M)%Z -> (M <> 0%Z -> 0 < z) ->
  @tor_tof XR (Fin P) (Fin (sqrt 2 * A)) (Fin mu) (Fin z) M = Fin t ->
  0 <= P - sqrt 2 * A * C0 z /\ t = tz mu A (P - sqrt 2 * A * C0 z) z M.
Proof.
  intros Hmu Hz HM HMz H. pose proof (S1_pos z Hz) as HS.
  destruct (sqrt_pos_facts 2) as [W1 W2]; [lra|].
  destruct (sqrt_pos_facts mu Hmu) as [N1 N2].
  assert (Hid : S1 z * S2 (4 * z) = S1 z * S1 z * S1 z / 2) by (rewrite S2_double; field).
  assert (First : forall t0,
    @ndiv XR (@nmul XR (@nadd XR (@nmul XR (@nmul XR (nofZ 2) (Fin P)) (Fin (S3 (4 * z))))
       (@nmul XR (Fin (sqrt 2 * A)) (@nsub XR (@nmul XR (Fin (S1 z)) (Fin (S2 (4 * z)))) (@nmul XR (@nmul XR (nofZ 2) (Fin (C0 z))) (Fin (S3 (4 * z)))))))
       (@nsqrt XR (@ndiv XR (@nmul XR (nofZ 2) (Fin (P - sqrt 2 * A * C0 z))) (Fin mu)))) (@cube XR (Fin (S1 z))) = Fin t0 ->
    0 <= P - sqrt 2 * A * C0 z /\ t0 = tz mu A (P - sqrt 2 * A * C0 z) z 0).
  { intros t0 H0. set (V := P - sqrt 2 * A * C0 z) in *. unfold cube in H0. xunf. xinv. subst.
    assert (HV : 0 <= V).
    { destruct (Rle_dec 0 V); [assumption|exfalso].
      match goal with Hq : 0 <= _ / mu |- _ => apply (Rmult_le_compat_r mu) in Hq; [|lra]; unfold Rdiv in Hq; rewrite Rmult_assoc, Rinv_l in Hq by lra; lra end. }
    split; [assumption|]. unfold tz.
    replace (0 * PI * (V * sqrt V) / (sqrt 2 * (z * sqrt z) * (S1 z * S1 z * S1 z) * sqrt mu)) with 0
      by (unfold Rdiv; ring).
    rewrite Rplus_0_r. rewrite sqrt_div by lra. rewrite sqrt_mult by lra.
    pose proof (sqrt_sqrt V HV) as V2.
    rewrite Hid. assert (EP : P = V + sqrt 2 * A * C0 z) by (unfold V; ring). clearbody V. subst P.
    set (w := sqrt 2) in *. set (sv := sqrt V) in *. clearbody w sv.
    replace (2 * (V + w * A * C0 z) * S3 (4 * z) + w * A * (S1 z * S1 z * S1 z / 2 - 2 * C0 z * S3 (4 * z))) with
      (2 * V * S3 (4 * z) + w * A * (S1 z * S1 z * S1 z) / 2) by field.
    replace ((2 * V * S3 (4 * z) + w * A * (S1 z * S1 z * S1 z) / 2) * (w * sv / sqrt mu) / (S1 z * S1 z * S1 z)) with
      ((2 * V * S3 (4 * z) * w * sv / (S1 z * S1 z * S1 z) + (w * w) * A * sv / 2) / sqrt mu) by (field; lra).
    rewrite W2. field. lra. }
  unfold tor_tof in H.
  rewrite tor_stumpff0_F, tor_stumpff1_F in H.
  replace (@nmul XR (nofZ 4) (Fin z)) with (Fin (4 * z)) in H by reflexivity.
  rewrite tor_stumpff2_F, tor_stumpff3_F in H.
  replace (@nsub XR (Fin P) (@nmul XR (Fin (sqrt 2 * A)) (Fin (C0 z)))) with (Fin (P - sqrt 2 * A * C0 z)) in H by reflexivity.
  destruct (Z.eqb_spec M 0) as [->|NM]; [now apply First|].
  specialize (HMz NM).
  match type of H with @nadd XR ?a ?b = _ =>
    assert (E0 : exists t0, a = Fin t0) by (clear First; destruct a; [eauto|discriminate H]);
    destruct E0 as [t0 E0]; pose proof (First _ E0) as [HV Et0]; rewrite E0 in H; clear E0 end.
  subst t0. split; [assumption|].
  set (V := P - sqrt 2 * A * C0 z) in *. clearbody V. clear First.
  set (T0 := tz mu A V z 0) in *. 
  assert (ET : tz mu A V z M = T0 + IZR M * PI * (V * sqrt V) / (sqrt 2 * (z * sqrt z) * (S1 z * S1 z * S1 z) * sqrt mu)).
  { unfold T0, tz. unfold Rdiv. ring. }
  rewrite ET. clear ET. clearbody T0. unfold cube in H. xunf. xinv. subst. f_equal.
  destruct (sqrt_pos_facts z HMz) as [Z1 Z2].
  assert (zz : 0 <= z * z) by (apply Rmult_le_pos; lra).
  assert (VV : 0 <= V * V) by (apply Rmult_le_pos; lra).
  assert (m2 : 0 < 2 * mu) by lra.
  assert (z3 : 0 < z * z * z) by (apply Rmult_lt_0_compat; [apply Rmult_lt_0_compat; lra|lra]).
  rewrite sqrt_div_alt by (now apply Rmult_lt_0_compat).
  rewrite (sqrt_mult (V * V)), (sqrt_mult (2 * mu)), (sqrt_mult 2), (sqrt_mult (z * z)) by lra.
  rewrite !sqrt_square by lra. field. repeat split; lra.
Qed.

(** ** Velocities *)
Definition halfA (r1 r2 : rvec) (th : R) : R := sqrt 2 * sqrt (vnorm r1 * vnorm r2) * cos (th / 2).
Lemma halfA_sq p r1 r2 th :
  non_collinear r1 r2 -> angle_facts p r1 r2 th ->
  halfA r1 r2 th * halfA r1 r2 th = vnorm r1 * vnorm r2 + vdot r1 r2.
Proof.
  intros Hn F. destruct (norms_pos _ _ Hn) as [N1 N2].
  pose proof (af_K _ _ _ _ F) as K. unfold Kgeo in K. rewrite <- K.
  pose proof (af_half_sq _ _ _ _ F) as Q. unfold halfA.
  destruct (sqrt_pos_facts 2) as [W1 W2]; [lra|].
  destruct (sqrt_pos_facts (vnorm r1 * vnorm r2)) as [V1 V2]; [nra|].
  transitivity ((sqrt 2 * sqrt 2) * (sqrt (vnorm r1 * vnorm r2) * sqrt (vnorm r1 * vnorm r2)) * (cos (th / 2) * cos (th / 2))); [ring|].
  rewrite W2, V2, Q. field.
Qed.
(** The Lagrange coefficient [g] of the code from the semi-latus rectum. *)
Lemma p_g mu p r1 r2 th q V :
  non_collinear r1 r2 -> 0 < mu -> 0 < q -> angle_facts p r1 r2 th ->
  V = vnorm r1 * vnorm r2 * (1 - cos th) / q ->
  vnorm r1 * vnorm r2 * sin th / sqrt (mu * q) = halfA r1 r2 th * sqrt V / sqrt mu.
Proof.
  intros Hn Hm Hq F HV. destruct (norms_pos _ _ Hn) as [N1 N2].
  pose proof (af_range _ _ _ _ F) as Rg. pose proof PI_RGT_0.
  assert (Sp : 0 < sin (th / 2)) by (apply sin_gt_0; lra).
  assert (Ec : 1 - cos th = 2 * (sin (th / 2) * sin (th / 2))).
  { pose proof (cos_2a_sin (th / 2)) as Q. replace (2 * (th / 2)) with th in Q by field. lra. }
  assert (Es : sin th = 2 * sin (th / 2) * cos (th / 2)).
  { pose proof (sin_2a (th / 2)) as Q. replace (2 * (th / 2)) with th in Q by field. lra. }
  assert (N12 : 0 < vnorm r1 * vnorm r2) by nra.
  assert (Esv : sqrt V = sqrt (vnorm r1 * vnorm r2) * sqrt 2 * sin (th / 2) / sqrt q).
  { rewrite HV, Ec. rewrite sqrt_div_alt by assumption.
    rewrite (sqrt_mult (vnorm r1 * vnorm r2)) by nra. rewrite (sqrt_mult 2) by nra.
    rewrite sqrt_square by lra. f_equal. ring. }
  rewrite Esv, Es, sqrt_mult by lra. unfold halfA.
  destruct (sqrt_pos_facts 2) as [W1 W2]; [lra|].
  destruct (sqrt_pos_facts _ N12) as [V1 V2]. destruct (sqrt_pos_facts q Hq) as [Q1 Q2].
  destruct (sqrt_pos_facts mu Hm) as [M1 M2].
  transitivity ((sqrt 2 * sqrt 2) * (sqrt (vnorm r1 * vnorm r2) * sqrt (vnorm r1 * vnorm r2)) * sin (th / 2) * cos (th / 2) / (sqrt mu * sqrt q)).
  - rewrite W2, V2. field. lra.
  - field. lra.
Qed.

Lemma tor_velocities_inv mu p r1 r2 th P Q z v1 v2 :
  non_collinear r1 r2 -> 0 < mu -> angle_facts p r1 r2 th ->
  @tor_velocities XR (Fin mu) (vfin r1) (vfin r2) (Fin (vnorm r1)) (Fin (vnorm r2)) (Fin th) (Fin P) (Fin Q) (Fin z)
    = (vfin v1, vfin v2) ->
  let V := P - Q * C0 z in
  0 < V /\
  v1 = vmult (/ (halfA r1 r2 th * sqrt V / sqrt mu)) (vminus r2 (vmult (1 - V / vnorm r1) r1)) /\
  v2 = vmult (/ (halfA r1 r2 th * sqrt V / sqrt mu)) (vminus (vmult (1 - V / vnorm r2) r2) r1).
Proof.
  intros Hn Hm F H V. destruct (norms_pos _ _ Hn) as [N1 N2].
  unfold tor_velocities in H. rewrite tor_stumpff0_F in H.
  replace (@nsub XR (Fin P) (@nmul XR (Fin Q) (Fin (C0 z)))) with (Fin V) in H by reflexivity.
  clearbody V. clear P Q z.
  pose proof (af_sin _ _ _ _ F) as S0. pose proof (af_cos _ _ _ _ F) as Cb.
  vinv. xunf. xinv. subst.
  match type of F with angle_facts _ ?a ?b _ => rename a into r1, b into r2 end.
  set (q := vnorm r1 * vnorm r2 * (1 - cos th) / V) in *.
  assert (N12 : 0 < vnorm r1 * vnorm r2) by nra.
  assert (HV0 : V <> 0) by assumption.
  assert (Hqq : V = vnorm r1 * vnorm r2 * (1 - cos th) / q) by (unfold q; field; repeat split; lra).
  assert (Hq : 0 < q) by nra.
  rewrite <- (p_g mu p r1 r2 th q V Hn Hm Hq F Hqq).
  split; [rewrite Hqq; apply Rdiv_lt_0_compat; [apply Rmult_lt_0_compat; lra|assumption]|].
  assert (F1 : vnorm r2 * (1 - cos th) / q = V / vnorm r1) by (rewrite Hqq; field; lra).
  assert (F2 : vnorm r1 * (1 - cos th) / q = V / vnorm r2) by (rewrite Hqq; field; lra).
  rewrite ?F1, ?F2. split; reflexivity.
Qed.

(** ** The iteration keeps its iterate inside the bracket *)
Lemma tor_mid a b : @nmul XR (nlit 1 2) (@nadd XR (Fin a) (Fin b)) = Fin ((a + b) / 2).
Proof. xunf. cbn [xmul xadd xlift2]. f_equal. field. Qed.

(** State of the safeguarded iteration inside [lo, hi]. *)
Definition tor_inside (lo hi : R) (st : xr * xr * xr * xr) : Prop :=
  let '(z, z_low, z_high, _) := st in
  exists a b c, z = Fin b /\ z_low = Fin a /\ z_high = Fin c /\ lo <= a /\ a <= b /\ b <= c /\ c <= hi.

Lemma tor_newton_inside fres dres tol lo hi j st st' :
  tor_inside lo hi st -> @tor_newton_body XR fres dres tol j st = Next st' -> tor_inside lo hi st'.
Proof.
  destruct st as [[[z zl] zh] fl]. intros (a & b & c & -> & -> & -> & L1 & L2 & L3 & L4).
  unfold tor_newton_body. destruct (@nleb XR _ tol); [discriminate|].
  assert (W : forall a' c' f' zn, lo <= a' -> a' <= c' -> c' <= hi ->
    (let z_new := if negb (@nisfinite XR zn) || @nleb XR zn (Fin a') || @nleb XR (Fin c') zn
       then @nmul XR (nlit 1 2) (@nadd XR (Fin a') (Fin c')) else zn in
     @Next (xr * Z) (xr * xr * xr * xr) (z_new, Fin a', Fin c', f')) = Next st' -> tor_inside lo hi st').
  { intros a' c' f' zn K1 K2 K3. cbv zeta.
    destruct (negb (nisfinite zn) || _ || _) eqn:E; intros H; injection H as <-.
    - eexists a', _, c'. do 3 (split; [reflexivity|]). lra.
    - apply orb_false_iff in E. destruct E as [E E3]. apply orb_false_iff in E. destruct E as [E1 E2].
      destruct zn as [w|]; [|discriminate E1].
      exists a', w, c'. xunf.
      apply xleb_Ff in E2. apply xleb_Ff in E3. repeat split; lra. }
  match goal with |- context [if ?b then (_, _, _) else (_, _, _)] => destruct b end; apply W; lra.
Qed.

Lemma tor_solve_inv P Q mu tof M lo hi mi at_ rt z n :
  lo <= hi ->
  @tor_solve_bracketed XR P Q mu (Fin tof) M (Fin lo) (Fin hi) mi (Fin at_) (Fin rt) = Ok (z, n) ->
  exists zr t, z = Fin zr /\ lo <= zr <= hi /\ @tor_tof XR P Q mu (Fin zr) M = Fin t /\
    (t = tof \/ Rabs (t - tof) <= at_ + rt * tof).
Proof.
  intros Hlh. unfold tor_solve_bracketed.
  destruct (@neqb XR (@nsub XR _ _) _) eqn:E1.
  { intros H; inversion H; subst. exists lo. xunf. xinv. eexists. split; [reflexivity|]. split; [lra|].
    split; [eassumption|]. left. lra. }
  destruct (@neqb XR (@nsub XR (tor_tof P Q mu (Fin hi) M) _) _) eqn:E2.
  { intros H; inversion H; subst. exists hi. xunf. xinv. eexists. split; [reflexivity|]. split; [lra|].
    split; [eassumption|]. left. lra. }
  destruct (@nltb XR _ _); [discriminate|].
  destruct (for_range _ _ _ _) as [r|s|e] eqn:EL; try discriminate.
  intros H. inversion H; subst; clear H.
  apply (for_range_inv _ (fun _ st => tor_inside lo hi st)) in EL.
  - destruct EL as (j & st & _ & I & Eb). destruct st as [[[z0 zl] zh] fl].
    destruct I as (a & b & c & -> & -> & -> & L1 & L2 & L3 & L4).
    unfold tor_newton_body in Eb.
    destruct (@nleb XR _ _) eqn:Et in Eb.
    + inversion Eb; subst. exists b. xunf. xinv. eexists. split; [reflexivity|]. split; [lra|].
      split; [eassumption|]. right. subst. assumption.
    + destruct (if _ : bool then _ else _) as [[? ?] ?]. discriminate.
  - eexists lo, _, hi. do 3 (split; [reflexivity|]). lra.
  - intros j t t' _ I. now apply tor_newton_inside.
Qed.

(** ** Brackets *)
Lemma pi_sq_bracket : @nsub XR (sq npi) tor_1em12 = Fin (PI * PI - 1 / 1000000000000).
Proof. reflexivity. Qed.

Definition tor_box (lo hi : R) (x : xr) : Prop := exists a, x = Fin a /\ lo <= a <= hi.
Lemma tor_box_up lo hi g x y :
  0 <= g <= 1 -> tor_box lo hi x -> tor_box lo hi y ->
  tor_box lo hi (@nadd XR x (@nmul XR (Fin g) (@nsub XR y x))).
Proof.
  intros G (a & -> & A) (b & -> & B). eexists. split; [reflexivity|]. nra.
Qed.
Lemma tor_box_down lo hi g x y :
  0 <= g <= 1 -> tor_box lo hi x -> tor_box lo hi y ->
  tor_box lo hi (@nsub XR y (@nmul XR (Fin g) (@nsub XR y x))).
Proof.
  intros G (a & -> & A) (b & -> & B). eexists. split; [reflexivity|]. nra.
Qed.
Definition tor_gr : R := (sqrt 5 - 1) / 2.
Lemma tor_gr_bounds : 0 <= tor_gr <= 1.
Proof.
  unfold tor_gr. assert (H : sqrt 5 * sqrt 5 = 5) by (apply sqrt_sqrt; lra). pose proof (sqrt_pos 5). nra.
Qed.
Definition tor_min_box (lo hi : R) (st : xr * xr * xr * xr * xr * xr) : Prop :=
  let '(zl, zh, z1, z2, _, _) := st in
  tor_box lo hi zl /\ tor_box lo hi zh /\ tor_box lo hi z1 /\ tor_box lo hi z2.

Lemma tor_min_next P Q mu M at_ rt lo hi j st :
  tor_min_box lo hi st ->
  match @tor_min_body XR P Q mu M at_ rt (Fin tor_gr) j st with
  | Break (zl, zh) => tor_box lo hi zl /\ tor_box lo hi zh
  | Next st' => tor_min_box lo hi st'
  | Raise _ => False
  end.
Proof.
  destruct st as [[[[[zl zh] z1] z2] t1] t2]. intros (B1 & B2 & B3 & B4).
  unfold tor_min_body. destruct (@nltb XR t2 t1).
  - destruct (@nleb XR _ _); [split; assumption|]. 
    split; [assumption|]. split; [assumption|]. split; [assumption|].
    apply tor_box_up; auto using tor_gr_bounds.
  - destruct (@nleb XR _ _); [split; assumption|].
    split; [assumption|]. split; [assumption|]. split; [|assumption].
    apply tor_box_down; auto using tor_gr_bounds.
Qed.

Lemma tor_minimum_box P Q mu M at_ rt z t :
  @tor_find_minimum_time XR P Q mu M at_ rt = (z, t) ->
  tor_box (1 / 1000000000000) (PI * PI - 1 / 1000000000000) z.
Proof.
  intros H. unfold tor_find_minimum_time in H. rewrite pi_sq_bracket in H.
  set (lo := 1 / 1000000000000) in *. change (@tor_1em12 XR) with (Fin lo) in H.
  set (hi := PI * PI - lo) in *.
  assert (Hlh : lo <= hi) by (unfold hi, lo; pose proof PI2_3_2; unfold Rdiv in *; nra).
  assert (Egr : @ndiv XR (@nsub XR (nsqrt (nofZ 5)) (nofZ 1)) (nofZ 2) = Fin tor_gr).
  { xunf. rewrite xsqrt_F by lra. cbn [xsub xlift2]. rewrite xdiv_F by lra. reflexivity. }
  rewrite Egr in H.
  assert (Blo : tor_box lo hi (Fin lo)) by (exists lo; split; [reflexivity|lra]).
  assert (Bhi : tor_box lo hi (Fin hi)) by (exists hi; split; [reflexivity|lra]).
  assert (B0 : tor_min_box lo hi (Fin lo, Fin hi, @nsub XR (Fin hi) (@nmul XR (Fin tor_gr) (@nsub XR (Fin hi) (Fin lo))),
     @nadd XR (Fin lo) (@nmul XR (Fin tor_gr) (@nsub XR (Fin hi) (Fin lo))),
     tor_tof P Q mu (@nsub XR (Fin hi) (@nmul XR (Fin tor_gr) (@nsub XR (Fin hi) (Fin lo)))) M,
     tor_tof P Q mu (@nadd XR (Fin lo) (@nmul XR (Fin tor_gr) (@nsub XR (Fin hi) (Fin lo)))) M)).
  { split; [assumption|]. split; [assumption|]. split; [apply tor_box_down|apply tor_box_up]; auto using tor_gr_bounds. }
  match type of H with context [for_range ?b ?n ?i ?s] => 
    assert (Step : forall j t t', (i <= j < i + Z.of_nat n)%Z -> tor_min_box lo hi t -> b j t = Next t' -> tor_min_box lo hi t')
      by (intros j u u' _ Bu Eu; pose proof (tor_min_next P Q mu M at_ rt lo hi j u Bu) as W; rewrite Eu in W; exact W);
    destruct (for_range b n i s) as [[zl zh]|[[[[[zl zh] ?] ?] ?] ?]|e] eqn:EL end.
  - apply (for_range_inv _ (fun _ st => tor_min_box lo hi st)) in EL; [|exact B0|exact Step].
    destruct EL as (j & u & _ & Bu & Eu). pose proof (tor_min_next P Q mu M at_ rt lo hi j u Bu) as W. rewrite Eu in W.
    destruct W as [(a & -> & A) (b & -> & B)]. rewrite tor_mid in H. inversion H; subst.
    exists ((a + b) / 2). split; [reflexivity|lra].
  - apply (for_range_next_inv _ (fun _ st => tor_min_box lo hi st)) in EL; [|exact B0|exact Step].
    destruct EL as [(a & -> & A) [(b & -> & B) _]]. rewrite tor_mid in H. inversion H; subst.
    exists ((a + b) / 2). split; [reflexivity|lra].
  - rewrite tor_mid in H. inversion H; subst. exists ((lo + hi) / 2). split; [reflexivity|lra].
Qed.

(** The lower end of the zero-revolution bracket is not positive when the end
    points are not too close to each other. *)
Lemma cosh_small x : 0 <= x < 1 -> cosh x <= 1 / (1 - x * x).
Proof.
  intros H. unfold cosh.
  pose proof (exp_ineq1_le (- x)) as E1. pose proof (exp_ineq1_le x) as E2.
  pose proof (exp_pos x). pose proof (exp_pos (- x)).
  assert (E : exp x * exp (- x) = 1) by (rewrite <- exp_plus, Rplus_opp_r; apply exp_0).
  set (u := exp x) in *. set (v := exp (- x)) in *.
  assert (u <= 1 / (1 - x)) by (apply Rmult_le_reg_r with (1 - x); [lra|]; unfold Rdiv; rewrite Rmult_assoc, Rinv_l by lra; nra).
  assert (v <= 1 / (1 + x)) by (apply Rmult_le_reg_r with (1 + x); [lra|]; unfold Rdiv; rewrite Rmult_assoc, Rinv_l by lra; nra).
  assert (1 / (1 - x) + 1 / (1 + x) = 2 * (1 / (1 - x * x))) by (field; split; nra). lra.
Qed.
Lemma cosh_arcosh x : 1 <= x -> cosh (arcosh x) = x /\ 0 <= arcosh x.
Proof.
  intros H. unfold arcosh. set (q := sqrt (x ^ 2 - 1)).
  assert (Hq : q * q = x * x - 1) by (unfold q; rewrite sqrt_sqrt by nra; ring).
  assert (0 <= q) by apply sqrt_pos.
  split.
  - unfold cosh. rewrite exp_Ropp, exp_ln by lra.
    apply Rmult_eq_reg_r with (2 * (x + q)); [|lra]. field_simplify; [|lra]. nra.
  - destruct (Req_dec (x + q) 1) as [->|]; [rewrite ln_1; lra|]. left. rewrite <- ln_1. apply ln_increasing; lra.
Qed.

Lemma cosh_increasing a b : 0 <= a -> a < b -> cosh a < cosh b.
Proof.
  intros Ha Hb. unfold cosh. rewrite !exp_Ropp. pose proof (exp_pos a). 
  assert (E1 : 1 <= exp a) by (destruct Ha as [Ha|<-]; [left; rewrite <- exp_0; now apply exp_increasing|rewrite exp_0; lra]).
  assert (E2 : exp a < exp b) by now apply exp_increasing.
  set (u := exp a) in *. set (v := exp b) in *.
  assert (E : (v + / v) - (u + / u) = (v - u) * (u * v - 1) / (u * v)) by (field; split; lra).
  assert (0 < (v - u) * (u * v - 1) / (u * v)); [|lra].
  apply Rdiv_lt_0_compat; [apply Rmult_lt_0_compat|]; nra.
Qed.

Lemma tor_expand_neg P Q mu tof fuel z0 z :
  z0 <= 0 -> @tor_expand XR P Q mu tof fuel (Fin z0) = Break z -> exists a, z = Fin a /\ a <= 0.
Proof.
  intros Hz H. unfold tor_expand in H.
  apply (while_true_inv _ (fun s => exists a, s = Fin a /\ a <= 0)) in H.
  - destruct H as (t & (a & -> & A) & H). destruct (@nltb XR _ _); inversion H. eauto.
  - eauto.
  - intros t t' (a & -> & A) E. destruct (@nltb XR _ _); inversion E. xunf. eexists. split; [reflexivity|]. lra.
Qed.

Lemma tor_bracket_inv P Q mu tof fuel zl zh :
  0 < P -> Q * Q <= P * P * ((1 - 1 / 1000000000000) * (1 - 1 / 1000000000000)) ->
  @tor_initial_bracket XR (Fin P) (Fin Q) mu tof fuel = Ok (zl, zh) ->
  exists a, zl = Fin a /\ a <= 0 /\ zh = Fin (PI * PI - 1 / 1000000000000).
Proof.
  intros HP HQ H. unfold tor_initial_bracket in H. rewrite pi_sq_bracket in H.
  set (z0 := if _ : bool then _ else _) in H.
  assert (Z0 : exists a, z0 = Fin a /\ a <= 0).
  { unfold z0. destruct (@nltb XR (nofZ 0) (Fin Q)) eqn:EQ.
    2:{ exists (-1). split; [reflexivity|lra]. }
    assert (Qp : 0 < Q) by (xunf; now apply xltb_F in EQ).
    set (k := 1 / 1000000000000) in *.
    assert (L1 : Q <= P * (1 - k)) by (apply Rsqr_incr_0; unfold Rsqr, k in *; nra).
    assert (L2 : / (1 - k) <= P / Q).
    { apply Rmult_le_reg_r with (Q * (1 - k)); [unfold k in *; nra|].
      replace (/ (1 - k) * (Q * (1 - k))) with Q by (field; unfold k; lra).
      replace (P / Q * (Q * (1 - k))) with (P * (1 - k)) by (field; lra). assumption. }
    assert (L3 : 1 <= / (1 - k)) by (rewrite <- Rinv_1; apply Rinv_le_contravar; unfold k; lra).
    assert (L4 : cosh (1 / 1000000) <= P / Q).
    { eapply Rle_trans; [apply cosh_small; lra|]. eapply Rle_trans; [|exact L2]. right. unfold k. field. }
    assert (L5 : 1 / 1000000 <= arcosh (P / Q)).
    { destruct (cosh_arcosh (P / Q)) as [C1 C2]; [lra|].
      destruct (Rle_dec (1 / 1000000) (arcosh (P / Q))) as [|N]; [assumption|exfalso].
      assert (cosh (arcosh (P / Q)) < cosh (1 / 1000000)) by (apply cosh_increasing; lra). lra. }
    xunf. rewrite xdiv_F by lra. rewrite xacosh_F by lra. cbn [xmul xopp xabs xlift1 xlift2].
    set (w := arcosh (P / Q)) in *. change (@tor_1em12 XR) with (Fin k).
    cbn [xmul xlift2]. rewrite Rabs_left1 by nra.
    unfold pymax. xunf. assert (K : 0 < k < 1 /\ k = 1 / 1000000 * (1 / 1000000)) by (unfold k; lra).
    destruct K as [K1 K2]. 
    destruct (xltb (Fin k) (Fin (- - (w * w) * k))); (eexists; split; [reflexivity|nra]). }
  destruct Z0 as (a & E0 & A). rewrite E0 in H. clear z0 E0.
  destruct (tor_expand _ _ _ _ _ _) as [z|z|e] eqn:EE; try discriminate.
  apply tor_expand_neg in EE; [|assumption]. destruct EE as (a' & -> & A').
  destruct (@nltb XR _ _); inversion H; subst. eauto.
Qed.

(** ** Soundness *)
Lemma tor_Q_F r1 r2 th :
  non_collinear r1 r2 ->
  @nmul XR (@nmul XR (nofZ 2) (nsqrt (@nmul XR (Fin (vnorm r1)) (Fin (vnorm r2))))) (@ncos XR (@ndiv XR (Fin th) (nofZ 2)))
    = Fin (sqrt 2 * halfA r1 r2 th).
Proof.
  intros Hn. destruct (norms_pos _ _ Hn) as [N1 N2]. xunf. cbn [xmul xlift2].
  rewrite xsqrt_F by nra. rewrite xdiv_F by lra. cbn [xlift1 xmul xlift2]. f_equal. unfold halfA.
  rewrite <- !Rmult_assoc. rewrite sqrt_sqrt by lra. reflexivity.
Qed.

Theorem delatorre_sound ev mu r1 r2 tof M p l mi at_ rt fo o v1 v2 :
  non_collinear r1 r2 ->
  (M = 0%Z -> 2 / 1000000 * (vnorm r1 + vnorm r2) <= vnorm (vminus r2 r1)) ->
  @delatorre2018 XR ev (call mu r1 r2 tof M p l mi at_ rt fo) = Ok o ->
  out_v1 o = vfin v1 -> out_v2 o = vfin v2 ->
  exists T, lambert_solution mu r1 v1 r2 v2 T M /\ (T = tof \/ Rabs (T - tof) <= at_ + rt * tof).
Proof.
  intros Hnc Hch H O1 O2. unfold delatorre2018 in H. apply validated_call in H.
  destruct H as [(Hmu & H1 & H12 & Ht & HM) H].
  cbn [call a_mu a_tof a_is_prograde a_rtol a_atol a_maxiter a_full_output a_M a_is_low_path] in H.
  rewrite !norm_F in H. destruct (transfer_angle r1 r2 p Hnc) as (th & Eth & AF). rewrite Eth in H.
  destruct (norms_pos _ _ Hnc) as [N1 N2].
  rewrite tor_Q_F in H by assumption.
  pose proof (halfA_sq p r1 r2 th Hnc AF) as HA2. set (A := halfA r1 r2 th) in *.
  replace (@nadd XR (Fin (vnorm r1)) (Fin (vnorm r2))) with (Fin (vnorm r1 + vnorm r2)) in H by reflexivity.
  set (P := vnorm r1 + vnorm r2) in *.
  destruct (tor_find_z _ _ _ _ _ _ _ _ _ _) as [[z n]|e] eqn:Ez; [|discriminate]. cbn [bind] in H.
  assert (Z : exists zr t, z = Fin zr /\ zr < PI * PI /\ (M <> 0%Z -> 0 < zr) /\
     @tor_tof XR (Fin P) (Fin (sqrt 2 * A)) (Fin mu) (Fin zr) M = Fin t /\ (t = tof \/ Rabs (t - tof) <= at_ + rt * tof)).
  { unfold tor_find_z in Ez. destruct (Z.eqb_spec M 0) as [EM|NM].
    - destruct (tor_initial_bracket _ _ _ _ _) as [[zl zh]|e] eqn:Eb; [|discriminate]. cbn [bind] in Ez.
      apply tor_bracket_inv in Eb.
      + destruct Eb as (a & -> & A0 & ->). apply tor_solve_inv in Ez; [|pose proof PI2_3_2; nra].
        destruct Ez as (zr & t & -> & B & E & C). exists zr, t. split; [reflexivity|]. split; [lra|].
        split; [intros; contradiction|]. split; assumption.
      + unfold P; lra.
      + specialize (Hch EM). fold P in Hch.
        assert (W2 : sqrt 2 * sqrt 2 = 2) by (apply sqrt_sqrt; lra).
        assert (C2 : vnorm (vminus r2 r1) * vnorm (vminus r2 r1) = P * P - sqrt 2 * A * (sqrt 2 * A)).
        { replace (sqrt 2 * A * (sqrt 2 * A)) with ((sqrt 2 * sqrt 2) * (A * A)) by ring. rewrite W2, HA2.
          rewrite vnorm_sq. unfold P.
          replace (vdot (vminus r2 r1) (vminus r2 r1)) with (vdot r1 r1 + vdot r2 r2 - 2 * vdot r1 r2) by (vunf; ring).
          rewrite <- (vnorm_sq r1), <- (vnorm_sq r2). ring. }
        assert (PP : 0 < P) by (unfold P; lra). pose proof (vnorm_nonneg (vminus r2 r1)). nra.
    - destruct (tor_find_minimum_time _ _ _ _ _ _) as [zm tm] eqn:Em.
      apply tor_minimum_box in Em. destruct Em as (m & -> & B1).
      destruct (@nltb XR _ _); [discriminate|].
      destruct l; cbn [bind] in Ez; apply tor_solve_inv in Ez; try lra;
        destruct Ez as (zr & t & -> & B & E & C); exists zr, t; (split; [reflexivity|]); (split; [lra|]);
        (split; [intros; lra|]); split; assumption. }
  destruct Z as (zr & t & -> & Hz & HMz & Et & Hres).
  destruct (tor_velocities _ _ _ _ _ _ _ _ _) as [w1 w2] eqn:Ev.
  apply (@tpi_inv XR) in H. destruct H as (tp & H & _). injection H as <-.
  assert (w1 = vfin v1) by (destruct fo; exact O1). assert (w2 = vfin v2) by (destruct fo; exact O2). subst w1 w2.
  apply (tor_velocities_inv mu p r1 r2 th) in Ev; [|assumption..]. destruct Ev as (HV & E1 & E2). fold A in E1, E2.
  apply tor_tof_inv in Et; [|assumption..]. destruct Et as [_ ->].
  eexists. split; [|exact Hres].
  apply (z_solution mu r1 r2 v1 v2 A); auto.
Qed.
