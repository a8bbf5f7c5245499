(** * negrete2024's equation and its roots: C50. *)
From Coq Require Import Reals ZArith Bool Lra Lia Psatz.
From Coquelicot Require Complex.
From Verif Require Import Num XReal XRealLemmas MApi MLinalg MAngles MComplex MNegrete MInit Spec SpecLambert VecFacts VecXR UniversalKepler LambertUV LambertRev LambertZ ZMono LambertUnique
  Godal GodalXR GodalIzzo GodalMore OrbitXR ApiFacts CallXR PropertiesOrbit CallXR ComplexXR PropertiesAngles PropertiesMotion PropertiesStumpff PropertiesUnique PropertiesMultiRev.
Local Open Scope R_scope.

(** ** Stumpff functions on the real axis, outside the series *)
Section Stumpff.
Variable z : R.
Hypothesis Hz : 1 / 100000000 <= Rabs z.

Lemma outside : @nltb XR (@cabs XR (cr z)) (nlit 1 100000000) = false.
Proof. rewrite cr_abs. change (xltb (Fin (Rabs z)) (Fin (1 / 100000000)) = false). now apply xltb_Ff. Qed.
Lemma z_nonzero : z <> 0.
Proof. intros E. pose proof Hz as H. rewrite E, Rabs_R0 in H. lra. Qed.

Lemma neg_c2_F : @neg_c2 XR (cr z) = cr (S2 z).
Proof.
  pose proof z_nonzero as Z0. unfold neg_c2. rewrite outside. change (@creal XR (nofZ 1)) with (cr 1). unfold S2, U2. destruct (Rlt_dec 0 z) as [P|P].
  - rewrite cr_sqrt, cr_cos, cr_sub, cr_div by lra. now rewrite Rmult_1_r.
  - destruct (Rlt_dec z 0) as [Q|Q]; [|lra]. rewrite cr_sqrt_neg, ci_cos, cr_sub, cr_div by lra. rewrite Rmult_1_r. apply cc_eq; [field; lra|reflexivity].
Qed.
Lemma neg_c3_F : @neg_c3 XR (cr z) = cr (S3 z).
Proof.
  pose proof z_nonzero as Z0. unfold neg_c3. rewrite outside. unfold S3, U3. destruct (Rlt_dec 0 z) as [P|P].
  - pose proof (sqrt_lt_R0 z P). rewrite cr_sqrt, cr_sin, cr_sub, cr_mul, cr_div by (lra || apply Rmult_integral_contrapositive; split; lra). now rewrite Rmult_1_r.
  - destruct (Rlt_dec z 0) as [Q|Q]; [|lra]. destruct (sqrt_facts (- z)) as [S0 _]; [lra|]. rewrite cr_sqrt_neg, ci_sin, ci_sub, cr_ci_mul, ci_div by (lra || apply Rmult_integral_contrapositive; split; lra).
    rewrite Rmult_1_r. apply cc_eq; [field; lra|reflexivity].
Qed.

Variables (r1 r2 A : R).
Hypothesis H2 : 0 < S2 z.
Let y := r1 + r2 - A * S1 z / sqrt (S2 z).

Lemma neg_y_F : @neg_y XR (@creal XR (Fin z)) (Fin r1) (Fin r2) (Fin A) = cr y.
Proof.
  unfold neg_y. rewrite creal_F, neg_c2_F, neg_c3_F. pose proof (sqrt_lt_R0 _ H2) as Q.
  change (@creal XR (nofZ 1)) with (cr 1). change (@nadd XR (Fin r1) (Fin r2)) with (Fin (r1 + r2)). rewrite creal_F.
  rewrite cr_mul, cr_sub, cr_scale, cr_sqrt, cr_div, cr_add by lra. unfold y, S1. apply cc_eq; [field; lra|reflexivity].
Qed.

Lemma neg_scaled_F : 0 < y ->
  @neg_scaled_tof XR (@creal XR (Fin z)) (Fin r1) (Fin r2) (Fin A) =
    cr (sqrt (y / S2 z) * sqrt (y / S2 z) * sqrt (y / S2 z) * S3 z + A * sqrt y).
Proof.
  intros Hy. unfold neg_scaled_tof. rewrite neg_y_F, creal_F, neg_c2_F, neg_c3_F.
  assert (0 < y / S2 z) by now apply Rdiv_lt_0_compat. rewrite cr_div by lra. rewrite !cr_sqrt by lra.
  unfold ccube. rewrite !cr_mul, cr_scale, cr_add. reflexivity.
Qed.
End Stumpff.

(** ** The universal variable of a transfer *)

(** [psi] belongs to the range of [M] complete revolutions. *)
Definition psi_range (M : Z) (psi : R) : Prop :=
  (psi < 0 /\ M = 0%Z) \/ (0 < psi /\ 2 * PI * IZR M < sqrt psi < 2 * PI * (IZR M + 1)).

Lemma psi_range_S2 M psi : psi_range M psi -> 0 < S2 psi.
Proof.
  intros H. pose proof PI_RGT_0 as HP. destruct H as [[H _]|[H1 H2]].
  - apply S2_positive. nra.
  - unfold S2, U2. destruct (Rlt_dec 0 psi); [|lra]. rewrite Rmult_1_r. apply Rdiv_lt_0_compat; [|lra].
    set (s := sqrt psi / 2 - PI * IZR M). assert (Hs : 0 < s < PI) by (unfold s; lra).
    replace (sqrt psi) with (2 * s + 2 * PI * IZR M) by (unfold s; field). rewrite cos_turn, cos_2a_sin.
    pose proof (sin_gt_0 s ltac:(lra) ltac:(lra)). nra.
Qed.

(** The universal variable of the half angle's [z]. *)
Definition psi_of (M : Z) (z : R) : R :=
  if Rlt_dec z 0 then 4 * z else (2 * sqrt z + 2 * PI * IZR M) * (2 * sqrt z + 2 * PI * IZR M).

Lemma psi_of_facts M z : (0 <= M)%Z -> z < PI * PI -> z <> 0 -> (M <> 0%Z -> 0 < z) ->
  psi_range M (psi_of M z) /\
  S1 (psi_of M z) / sqrt (S2 (psi_of M z)) = sqrt 2 * C0 z /\
  forall mu A V, 0 < mu -> 0 < V ->
    (sqrt (V / S2 (psi_of M z)) * sqrt (V / S2 (psi_of M z)) * sqrt (V / S2 (psi_of M z)) * S3 (psi_of M z) + A * sqrt V) / sqrt mu = tz mu A V z M.
Proof.
  intros HM Hz Z0 Hz0. pose proof PI_RGT_0 as HP. destruct (sqrt_facts 2) as [W1 W2]; [lra|].
  assert (HM' : 0 <= IZR M) by now apply IZR_le.
  assert (R : psi_range M (psi_of M z)).
  { unfold psi_of, psi_range. destruct (Rlt_dec z 0) as [L|L].
    - left. split; [lra|]. destruct (Z.eq_dec M 0) as [|N]; [assumption|]. specialize (Hz0 N). lra.
    - right. assert (P : 0 < z) by lra. destruct (sqrt_facts _ P) as [P1 P2]. assert (sqrt z < PI) by nra.
      assert (0 <= 2 * PI * IZR M) by nra. split; [nra|]. rewrite sqrt_square by lra. lra. }
  split; [exact R|]. pose proof (psi_range_S2 _ _ R) as P2. revert R P2. unfold psi_of. destruct (Rlt_dec z 0) as [H|H]; intros R P2.
  - assert (M = 0%Z) as -> by (destruct (Z.eq_dec M 0) as [|N]; [assumption|]; specialize (Hz0 N); lra).
    pose proof (S1_pos z Hz) as Q1.
    assert (EQ : sqrt (S2 (4 * z)) = S1 z / sqrt 2).
    { rewrite S2_double. replace (S1 z * S1 z / 2) with ((S1 z / sqrt 2) * (S1 z / sqrt 2)) by (replace 2 with (sqrt 2 * sqrt 2) at 3 by exact W2; field; lra).
      apply sqrt_square. left. now apply Rdiv_lt_0_compat. }
    split.
    + rewrite EQ, S1_double. set (a := S1 z) in *. set (c := C0 z). set (w := sqrt 2) in *. clearbody a c w. field. lra.
    + intros mu A V Hm HV. rewrite tz_0. rewrite sqrt_div by lra. rewrite EQ.
      destruct (sqrt_facts _ HV) as [V1 V2]. destruct (sqrt_facts _ Hm) as [M1 _]. rewrite (sqrt_mult 2 V) by lra.
      f_equal. f_equal. set (w := sqrt 2) in *. set (a := S1 z) in *. set (v := sqrt V) in *. set (b := S3 (4 * z)). clearbody w a v b.
      rewrite <- V2. replace 2 with (w * w) by exact W2. field. lra.
  - assert (Pz : 0 < z) by lra. destruct (sqrt_facts _ Pz) as [Q1 Q2]. set (s := sqrt z) in *.
    assert (Hs : 0 < s < PI) by (split; [lra|nra]). rewrite <- Q2. clearbody s.
    pose proof (sin_gt_0 s ltac:(lra) ltac:(lra)) as SS.
    set (S := 2 * s + 2 * PI * IZR M) in *. assert (S0 : 0 < S) by (unfold S; nra).
    assert (Sn : sin S = 2 * (sin s * cos s)) by (unfold S; rewrite sin_turn, sin_2a; ring).
    assert (Cn : cos S = 1 - 2 * (sin s * sin s)) by (unfold S; rewrite cos_turn, cos_2a_sin; ring).
    assert (E2 : S2 (S * S) = 2 * (sin s * sin s) / (S * S)).
    { unfold S2, U2. destruct (Rlt_dec 0 (S * S)); [|nra]. rewrite Rmult_1_r, sqrt_square, Cn by lra. field. lra. }
    assert (EQ : sqrt (S2 (S * S)) = sqrt 2 * sin s / S).
    { rewrite E2. replace (2 * (sin s * sin s) / (S * S)) with ((sqrt 2 * sin s / S) * (sqrt 2 * sin s / S)) by (replace 2 with (sqrt 2 * sqrt 2) at 3 by exact W2; field; lra).
      apply sqrt_square. left. apply Rdiv_lt_0_compat; [now apply Rmult_lt_0_compat|assumption]. }
    rewrite C0_ell by lra. split.
    + rewrite EQ, S1_ell by assumption. rewrite Sn. set (w := sqrt 2) in *. clearbody w.
      apply Rmult_eq_reg_r with (w * sin s * S); [|apply Rmult_integral_contrapositive; split; [apply Rmult_integral_contrapositive; split|]; lra].
      transitivity ((w * w) * (sin s * cos s) * S); [rewrite W2; field; lra|]. ring.
    + intros mu A V Hm HV. rewrite tz_ell by assumption. rewrite sqrt_div by lra. rewrite EQ. rewrite S3_ell by assumption. rewrite Sn.
      destruct (sqrt_facts _ HV) as [V1 V2]. destruct (sqrt_facts _ Hm) as [M1 _]. f_equal. f_equal.
      replace (2 * s - sin (2 * s) + 2 * PI * IZR M) with (S - 2 * (sin s * cos s)) by (rewrite sin_2a; unfold S; ring).
      set (w := sqrt 2) in *. set (v := sqrt V) in *. set (k := sin s) in *. set (c := cos s) in *. clearbody w v k c S.
      rewrite <- V2. transitivity (v * v * v * (S - 2 * (k * c)) / ((w * w) * w * (k * k * k))); [field; lra|]. rewrite W2. field. lra.
Qed.

Lemma psi_of_onto M psi : (0 <= M)%Z -> psi_range M psi ->
  exists z, z < PI * PI /\ z <> 0 /\ (M <> 0%Z -> 0 < z) /\ psi = psi_of M z.
Proof.
  intros HM H. pose proof PI_RGT_0 as HP. destruct H as [[H HM0]|[H1 H2]].
  - subst M. exists (psi / 4). split; [nra|]. split; [lra|]. split; [intros E; now contradict E|].
    unfold psi_of. destruct (Rlt_dec (psi / 4) 0); lra.
  - set (s := sqrt psi / 2 - PI * IZR M). assert (Hs : 0 < s < PI) by (unfold s; lra).
    exists (s * s). split; [nra|]. split; [nra|]. split; [nra|].
    unfold psi_of. destruct (Rlt_dec (s * s) 0); [nra|]. rewrite sqrt_square by lra.
    replace (2 * s + 2 * PI * IZR M) with (sqrt psi) by (unfold s; field). symmetry. apply sqrt_sqrt. lra.
Qed.

(** The departure and arrival velocities and the number of revolutions fix the
    time of flight. *)
Lemma fg_pair_inj mu r1 r2 A V B W v1 v2 :
  0 < mu -> non_collinear r1 r2 -> fg_pair mu r1 r2 A V v1 v2 -> fg_pair mu r1 r2 B W v1 v2 -> A = B /\ V = W.
Proof.
  intros Hm Hn F G. destruct (norms_pos _ _ Hn) as [N1 N2]. destruct (sqrt_facts _ Hm) as [M1 _].
  destruct (fg_sense _ _ _ _ _ _ _ Hm Hn F) as [A0 SA]. destruct (fg_sense _ _ _ _ _ _ _ Hm Hn G) as [B0 SB].
  assert (EA : A = B).
  { pose proof (fg_A _ _ _ _ _ _ _ F) as X. pose proof (fg_A _ _ _ _ _ _ _ G) as Y.
    assert (S : 0 < A <-> 0 < B) by tauto. assert (Z : (A - B) * (A + B) = 0) by lra.
    apply Rmult_integral in Z. destruct Z as [Z|Z]; [lra|]. exfalso.
    destruct (Rlt_dec 0 A) as [L|L]; [assert (0 < B) by tauto; lra|]. assert (0 < B) by lra. tauto. }
  subst B. split; [reflexivity|].
  pose proof (fg_momentum _ _ _ _ _ _ _ F) as E1. pose proof (fg_momentum _ _ _ _ _ _ _ G) as E2. rewrite E1 in E2.
  destruct (sqrt_facts _ (fg_V _ _ _ _ _ _ _ F)) as [V1 V2]. destruct (sqrt_facts _ (fg_V _ _ _ _ _ _ _ G)) as [W1 W2].
  pose proof (vdot_nonzero _ Hn) as P.
  assert (E3 : / (A * sqrt V / sqrt mu) * vdot (vcross r1 r2) (vcross r1 r2) = / (A * sqrt W / sqrt mu) * vdot (vcross r1 r2) (vcross r1 r2)) by (rewrite <- !vdot_mult_l; now rewrite E2).
  apply Rmult_eq_reg_r in E3; [|lra].
  assert (E4 : A * sqrt V / sqrt mu = A * sqrt W / sqrt mu) by (rewrite <- (Rinv_inv (A * sqrt V / sqrt mu)), E3; apply Rinv_inv).
  assert (E5 : sqrt V = sqrt W).
  { apply Rmult_eq_reg_l with (A / sqrt mu); [|apply Rmult_integral_contrapositive; split; [lra|apply Rinv_neq_0_compat; lra]]. unfold Rdiv in *. lra. }
  rewrite <- V2, <- W2, E5. reflexivity.
Qed.

Lemma C0_inj x y : x < PI * PI -> y < PI * PI -> C0 x = C0 y -> x = y.
Proof.
  intros Hx Hy E. destruct (Rtotal_order x y) as [L|[L|L]]; [|assumption|].
  - pose proof (C0_decreasing x y ltac:(lra) ltac:(lra)). lra.
  - pose proof (C0_decreasing y x ltac:(lra) ltac:(lra)). lra.
Qed.

Lemma time_unique mu r1 r2 v1 v2 T T' M : 0 < mu -> non_collinear r1 r2 ->
  lambert_solution mu r1 v1 r2 v2 T M -> lambert_solution mu r1 v1 r2 v2 T' M -> T = T'.
Proof.
  intros Hm Hn H H'.
  destruct (solution_fg _ _ _ _ _ _ _ Hm Hn H) as (_ & A & V & z & F & Hz & _ & EC & ->).
  destruct (solution_fg _ _ _ _ _ _ _ Hm Hn H') as (_ & B & W & y & G & Hy & _ & EC' & ->).
  destruct (fg_pair_inj _ _ _ _ _ _ _ _ _ Hm Hn F G) as [<- <-].
  destruct (fg_sense _ _ _ _ _ _ _ Hm Hn F) as [A0 _]. destruct (sqrt_facts 2) as [W1 _]; [lra|].
  assert (E : C0 z = C0 y).
  { apply Rmult_eq_reg_l with (sqrt 2 * A); [lra|]. apply Rmult_integral_contrapositive. split; lra. }
  apply C0_inj in E; [|assumption|assumption]. now rewrite E.
Qed.

(** ** The equation in the model *)
Section Model.
Variables (mu : R) (r1 r2 : rvec) (A psi : R).
Hypothesis Hm : 0 < mu.
Hypothesis Hn : non_collinear r1 r2.
Hypothesis HA : A * A = Kgeo r1 r2.
Hypothesis Hpsi : 1 / 100000000 <= Rabs psi.
Hypothesis H2 : 0 < S2 psi.
Let y := vnorm r1 + vnorm r2 - A * S1 psi / sqrt (S2 psi).

Lemma neg_tof_F : 0 < y ->
  @neg_tof_at_z XR (Fin psi) (Fin mu) (Fin (vnorm r1)) (Fin (vnorm r2)) (Fin A) =
    Fin ((sqrt (y / S2 psi) * sqrt (y / S2 psi) * sqrt (y / S2 psi) * S3 psi + A * sqrt y) / sqrt mu).
Proof.
  intros Hy. unfold neg_tof_at_z. rewrite neg_scaled_F by assumption. fold y.
  change (@nsqrt XR (Fin mu)) with (xsqrt (Fin mu)). rewrite xsqrt_F by lra. destruct (sqrt_facts _ Hm) as [M1 _].
  rewrite creal_F, cr_div by lra. reflexivity.
Qed.

Lemma neg_velocities_F :
  @neg_velocities XR (Fin mu) (vfin r1) (vfin r2) (Fin (vnorm r1)) (Fin (vnorm r2)) (Fin A) (Fin psi) =
    (let f := xsub (Fin 1) (xdiv (Fin y) (Fin (vnorm r1))) in
     let g := xmul (Fin A) (xsqrt (xdiv (Fin y) (Fin mu))) in
     let gdot := xsub (Fin 1) (xdiv (Fin y) (Fin (vnorm r2))) in
     (@vdivs XR (@vsub XR (vfin r2) (@vscale XR f (vfin r1))) g, @vdivs XR (@vsub XR (@vscale XR gdot (vfin r2)) (vfin r1)) g)).
Proof. unfold neg_velocities. rewrite neg_y_F by assumption. reflexivity. Qed.

Lemma neg_pair v1 v2 :
  @neg_velocities XR (Fin mu) (vfin r1) (vfin r2) (Fin (vnorm r1)) (Fin (vnorm r2)) (Fin A) (Fin psi) = (vfin v1, vfin v2) <->
  fg_pair mu r1 r2 A y v1 v2.
Proof.
  rewrite neg_velocities_F. cbv zeta. destruct (norms_pos _ _ Hn) as [N1 N2]. destruct (sqrt_facts _ Hm) as [M1 _].
  assert (A0 : A <> 0) by (intros ->; pose proof (Kgeo_pos _ _ Hn); lra).
  rewrite !xdiv_F by lra. cbn [xsub xlift2]. rewrite !vscale_F, !vsub_F.
  assert (EG : 0 < y -> A * sqrt (y / mu) = A * sqrt y / sqrt mu) by (intros L; rewrite sqrt_div by lra; field; lra).
  assert (G0 : 0 < y -> A * sqrt (y / mu) <> 0).
  { intros L. assert (Q : 0 < y / mu) by now apply Rdiv_lt_0_compat. apply sqrt_lt_R0 in Q. apply Rmult_integral_contrapositive. split; lra. }
  split.
  - intros H. apply pair_equal_spec in H. destruct H as [H1 H3].
    assert (L : 0 < y).
    { apply vdivs_inv in H1. destruct H1 as (k & Ek & Hk). destruct (Rle_dec 0 (y / mu)) as [Q|Q].
      - rewrite xsqrt_F in Ek by assumption. cbn [xmul xlift2] in Ek. injection Ek as Ek.
        destruct (Rlt_dec 0 (y / mu)) as [Q'|Q'].
        + replace y with (y / mu * mu) by (field; lra). now apply Rmult_lt_0_compat.
        + exfalso. apply Hk. rewrite <- Ek. replace (y / mu) with 0 by lra. rewrite sqrt_0. ring.
      - exfalso. rewrite xsqrt_neg in Ek by lra. discriminate Ek. }
    assert (0 < y / mu) by now apply Rdiv_lt_0_compat. rewrite xsqrt_F in H1, H3 by lra. cbn [xmul xlift2] in H1, H3.
    rewrite vdivs_F in H1, H3 by now apply G0. apply vfin_inj in H1, H3. rewrite EG in H1, H3 by assumption. constructor; try assumption; now symmetry.
  - intros [_ L E1 E2]. assert (0 < y / mu) by now apply Rdiv_lt_0_compat. rewrite xsqrt_F by lra. cbn [xmul xlift2].
    rewrite !vdivs_F by now apply G0. rewrite EG by assumption. now rewrite E1, E2.
Qed.

(** The time of the model at [psi], and the Lambert problem its velocities solve. *)
Lemma neg_solution M v1 v2 :
  (0 <= M)%Z -> psi_range M psi -> fg_pair mu r1 r2 A y v1 v2 ->
  exists T, @neg_tof_at_z XR (Fin psi) (Fin mu) (Fin (vnorm r1)) (Fin (vnorm r2)) (Fin A) = Fin T /\
    lambert_solution mu r1 v1 r2 v2 T M.
Proof.
  intros HM R F. destruct (psi_of_onto M psi HM R) as (z & Z1 & Z2 & Z3 & E).
  destruct (psi_of_facts M z HM Z1 Z2 Z3) as (_ & E1 & E2). rewrite <- E in E1, E2.
  pose proof (fg_V _ _ _ _ _ _ _ F) as HV. rewrite (neg_tof_F HV). rewrite E2 by assumption.
  eexists. split; [reflexivity|]. apply fg_lambert; try assumption.
  unfold y. unfold Rdiv in *. rewrite Rmult_assoc, E1. ring.
Qed.
End Model.

Lemma neg_velocities_nan mu r1 r2 n1 n2 A v1 v2 :
  @neg_velocities XR mu r1 r2 n1 n2 A NaN = (vfin v1, vfin v2) -> False.
Proof.
  intros H. unfold neg_velocities in H. set (y := cre _) in H.
  assert (E : y = NaN).
  { unfold y, neg_y. assert (E2 : @csqrt XR (@neg_c2 XR (@creal XR NaN)) = @csqrt XR (@C XR NaN NaN)) by reflexivity. rewrite E2.
    assert (E3 : @csqrt XR (@C XR NaN NaN) = @C XR NaN NaN) by reflexivity. rewrite E3.
    destruct n1, n2, A; reflexivity. }
  rewrite E in H. apply pair_equal_spec in H. destruct H as [H _]. apply vdivs_inv in H. destruct H as (k & Ek & _). destruct A; discriminate Ek.
Qed.

(** ** C50 *)

(** Every abscissa of the range of [M] revolutions at which the model's [y] is
    positive stands for a transfer: the velocities of the model there solve
    Lambert's problem with [M] revolutions in the requested sense for the time
    of flight the model assigns to it. *)
Theorem C50_negrete_time :
  forall mu r1 r2 M prograde psi y,
  0 < mu -> vz (vcross r1 r2) <> 0 -> (0 <= M)%Z -> psi_range M psi -> 1 / 100000000 <= Rabs psi ->
  let n1 := norm (vfin r1) in
  let n2 := norm (vfin r2) in
  let A := @neg_A XR n1 n2 (get_transfer_angle (vfin r1) (vfin r2) prograde) in
  @neg_y XR (creal (Fin psi)) n1 n2 A = creal (Fin y) -> 0 < y ->
  exists v1 v2 T,
    @neg_velocities XR (Fin mu) (vfin r1) (vfin r2) n1 n2 A (Fin psi) = (vfin v1, vfin v2) /\
    @neg_tof_at_z XR (Fin psi) (Fin mu) n1 n2 A = Fin T /\
    lambert_solution mu r1 v1 r2 v2 T M /\ moves_as_requested prograde r1 v1.
Proof.
  intros mu r1 r2 M p psi y Hm Hz HM R HP. pose proof (vz_non_collinear _ _ Hz) as Hn. cbv zeta. rewrite !norm_F.
  destruct (transfer_angle r1 r2 p Hn) as (th & ET & F). rewrite ET.
  destruct (neg_A_F p r1 r2 th Hn F) as (A & EA & A2 & As). rewrite EA. pose proof (psi_range_S2 _ _ R) as P2.
  rewrite neg_y_F by assumption. intros EY Hy. change (@creal XR (Fin y)) with (cr y) in EY. apply cr_inj in EY.
  assert (G : exists v1 v2, fg_pair mu r1 r2 A y v1 v2) by (do 2 eexists; constructor; [exact A2|exact Hy|reflexivity|reflexivity]).
  destruct G as (v1 & v2 & G). subst y. destruct (neg_solution mu r1 r2 A psi Hm Hn HP P2 M v1 v2 HM R G) as (T & T1 & T2).
  exists v1, v2, T. split; [now apply neg_pair|]. split; [exact T1|]. split; [exact T2|]. exact (fg_moves mu r1 r2 A _ v1 v2 p Hm Hz G As).
Qed.
Print Assumptions C50_negrete_time.

(** Whatever root negrete2024 settles on, the velocities it returns solve
    Lambert's problem exactly, with the requested number of revolutions and in
    the requested sense, for the time of flight the model assigns to that root;
    they answer the request exactly when that time is the requested one. *)
Theorem C50_negrete_answers :
  forall ev mu r1 r2 tof M prograde low_path maxiter atol rtol full_output o v1 v2,
  vz (vcross r1 r2) <> 0 ->
  @run XR Negrete ev (call mu r1 r2 tof M prograde low_path maxiter atol rtol full_output) = Ok o ->
  delivers o v1 v2 ->
  let A := @neg_A XR (norm (vfin r1)) (norm (vfin r2)) (get_transfer_angle (vfin r1) (vfin r2) prograde) in
  exists z,
    @neg_find_z XR (Fin mu) (norm (vfin r1)) (norm (vfin r2)) A (Fin tof) M low_path (Z.max 4 maxiter) (Fin atol) (Fin rtol) = Ok (Fin z) /\
    (1 / 100000000 <= Rabs z -> psi_range M z ->
     exists T, @neg_tof_at_z XR (Fin z) (Fin mu) (norm (vfin r1)) (norm (vfin r2)) A = Fin T /\
       lambert_solution mu r1 v1 r2 v2 T M /\ moves_as_requested prograde r1 v1 /\
       (lambert_solution mu r1 v1 r2 v2 tof M <-> T = tof)).
Proof.
  intros ev mu r1 r2 tof M p l mi at_ rt fo o v1 v2 Hz H D. pose proof (vz_non_collinear _ _ Hz) as Hn. cbn [run] in H.
  unfold negrete2024 in H. enter H. cbv zeta. rewrite ?norm_F.
  destruct (transfer_angle r1 r2 p Hn) as (th & ET & F). rewrite ET in *.
  destruct (neg_A_F p r1 r2 th Hn F) as (A & EA & A2 & As). rewrite EA in *.
  do 2 skip_check H. apply bind_ok in H. destruct H as (z & EZ & H). rewrite EZ. finish H D.
  destruct z as [z|]; [|exfalso; exact (neg_velocities_nan _ _ _ _ _ _ _ _ EV)].
  exists z. split; [reflexivity|]. intros Hz0 HR. pose proof (psi_range_S2 _ _ HR) as P2.
  apply neg_pair in EV; try assumption.
  destruct (neg_solution mu r1 r2 A z Hmu Hn Hz0 P2 M v1 v2) as (T & T1 & T2); try assumption.
  exists T. split; [exact T1|]. split; [exact T2|]. split; [exact (fg_moves mu r1 r2 A _ v1 v2 p Hmu Hz EV As)|].
  split; [intros T3; exact (time_unique _ _ _ _ _ _ _ _ Hmu Hn T2 T3)|intros <-; exact T2].
Qed.
Print Assumptions C50_negrete_answers.

(** Conversely every transfer of the requested kind is a root: its universal
    variable lies in the range of its number of revolutions, the denominator of
    the pole function vanishes there, and the velocities of the model at it are
    the transfer's.  (Parabolas have [psi = 0]; for [psi] within [1e-8] of zero
    the code uses a truncated series.) *)
Theorem C50_negrete_roots :
  forall mu r1 r2 v1 v2 tof M prograde,
  0 < mu -> vz (vcross r1 r2) <> 0 ->
  lambert_solution mu r1 v1 r2 v2 tof M -> moves_as_requested prograde r1 v1 ->
  let n1 := norm (vfin r1) in
  let n2 := norm (vfin r2) in
  let A := @neg_A XR n1 n2 (get_transfer_angle (vfin r1) (vfin r2) prograde) in
  exists psi, ((psi = 0 /\ M = 0%Z) \/ psi_range M psi) /\
    (1 / 100000000 <= Rabs psi ->
     @neg_scaled_tof XR (creal (Fin psi)) n1 n2 A = creal (nmul (nsqrt (Fin mu)) (Fin tof)) /\
     @neg_tof_at_z XR (Fin psi) (Fin mu) n1 n2 A = Fin tof /\
     @neg_velocities XR (Fin mu) (vfin r1) (vfin r2) n1 n2 A (Fin psi) = (vfin v1, vfin v2)).
Proof.
  intros mu r1 r2 v1 v2 tof M p Hm Hz L D. pose proof (vz_non_collinear _ _ Hz) as Hn. cbv zeta. rewrite !norm_F.
  destruct (transfer_angle r1 r2 p Hn) as (th & ET & F). rewrite ET.
  destruct (neg_A_F p r1 r2 th Hn F) as (A & EA & A2 & As). rewrite EA.
  destruct (solution_fg _ _ _ _ _ _ _ Hm Hn L) as (HM & B & V & z & G & Hz1 & Hz2 & EC & ETz).
  assert (EB : B = A).
  { destruct (fg_sense _ _ _ _ _ _ _ Hm Hn G) as [B0 SB]. rewrite (sense_of_request _ _ _ _ _ _ _ _ Hm Hz L D), <- As in SB.
    pose proof (fg_A _ _ _ _ _ _ _ G) as X. unfold Kgeo in A2. assert (Z : (A - B) * (A + B) = 0) by lra.
    assert (A0 : A <> 0) by (intros E; rewrite E in A2; pose proof (Kgeo_pos _ _ Hn) as K; unfold Kgeo in K; lra).
    apply Rmult_integral in Z. destruct Z as [Z|Z]; [lra|]. exfalso.
    destruct (Rlt_dec 0 A) as [Q|Q]; [assert (0 < B) by tauto; lra|]. assert (0 < B) by lra. tauto. }
  subst B. destruct (Req_dec z 0) as [Z0|Z0].
  - exists 0. split.
    + left. split; [reflexivity|]. destruct (Z.eq_dec M 0) as [|N]; [assumption|]. specialize (Hz2 N). lra.
    + rewrite Rabs_R0. lra.
  - destruct (psi_of_facts M z HM Hz1 Z0 Hz2) as (R & E1 & E2). set (psi := psi_of M z) in *. exists psi. split; [now right|].
    intros HP. pose proof (psi_range_S2 _ _ R) as P2.
    assert (EY : V = vnorm r1 + vnorm r2 - A * S1 psi / sqrt (S2 psi)) by (unfold Rdiv in *; rewrite Rmult_assoc, E1; lra).
    pose proof (fg_V _ _ _ _ _ _ _ G) as HV. destruct (sqrt_facts _ Hm) as [M1 _].
    split; [|split].
    + rewrite neg_scaled_F by (try assumption; rewrite <- EY; assumption). rewrite <- EY.
      change (@nsqrt XR (Fin mu)) with (xsqrt (Fin mu)). rewrite xsqrt_F by lra. change (@nmul XR (Fin (sqrt mu)) (Fin tof)) with (Fin (sqrt mu * tof)).
      rewrite creal_F. apply cc_eq; [|reflexivity]. rewrite ETz, <- E2 by assumption. field. lra.
    + rewrite neg_tof_F by (try assumption; rewrite <- EY; assumption). rewrite <- EY, E2 by assumption. now rewrite ETz.
    + apply neg_pair; try assumption. now rewrite <- EY.
Qed.
Print Assumptions C50_negrete_roots.

(** ** The quadratic of the four moments *)
Module CC := Coquelicot.Complex.
Import Coquelicot.Complex.
Definition cC (z : CC.C) : @cplx XR := cc (fst z) (snd z).
Lemma cC_add a b : @cadd XR (cC a) (cC b) = cC (CC.Cplus a b). Proof. reflexivity. Qed.
Lemma cC_sub a b : @csub XR (cC a) (cC b) = cC (CC.Cminus a b). Proof. reflexivity. Qed.
Lemma cC_mul a b : @cmul XR (cC a) (cC b) = cC (CC.Cmult a b). Proof. reflexivity. Qed.
Lemma cC_opp a : @copp XR (cC a) = cC (CC.Copp a). Proof. reflexivity. Qed.
Lemma cC_scale k a : @cscale XR (Fin k) (cC a) = cC (CC.Cmult (CC.RtoC k) a).
Proof. unfold cC. rewrite cscale_F. apply cc_eq; cbn; ring. Qed.
Lemma cC_div a b : b <> CC.RtoC 0 -> @cdiv XR (cC a) (cC b) = cC (CC.Cdiv a b).
Proof.
  intros H. destruct a as [a1 a2], b as [b1 b2]. assert (N : b1 * b1 + b2 * b2 <> 0).
  { intros E. apply H. assert (b1 = 0) by nra. assert (b2 = 0) by nra. subst. reflexivity. }
  unfold cC. cbn [fst snd]. rewrite cdiv_F by assumption. apply cc_eq; cbn; field; nra.
Qed.
Lemma cC_sqrt a : @csqrt XR (cC (CC.Cmult a a)) = cC a \/ @csqrt XR (cC (CC.Cmult a a)) = cC (CC.Copp a).
Proof.
  destruct a as [p q]. unfold cC. cbn [CC.Cmult CC.Copp fst snd]. replace (p * q + q * p) with (2 * (p * q)) by ring. apply csqrt_square.
Qed.

Fixpoint cpow (z : CC.C) (k : nat) : CC.C := match k with O => CC.RtoC 1 | S j => CC.Cmult z (cpow z j) end.

Lemma RtoC_nonzero x : x <> 0 -> CC.RtoC x <> CC.RtoC 0.
Proof. intros H E. apply H. now injection E. Qed.

(** The moments of two distinct simple poles [z1], [z2] with residues [rho1],
    [rho2] determine the poles, and the quadratic of the code finds them. *)
Theorem C50_negrete_quadratic : forall rho1 rho2 z1 z2 : CC.C,
  rho1 <> CC.RtoC 0 -> rho2 <> CC.RtoC 0 -> z1 <> z2 ->
  let moment k := cC (CC.Cplus (CC.Cmult rho1 (cpow z1 k)) (CC.Cmult rho2 (cpow z2 k))) in
  let roots := @neg_quadratic_roots XR (moment 0%nat) (moment 1%nat) (moment 2%nat) (moment 3%nat) in
  roots = (cC z1, cC z2) \/ roots = (cC z2, cC z1).
Proof.
  intros p q z w Hp Hq Hzw moment roots. unfold roots, neg_quadratic_roots, csq, moment.
  change (@nofZ XR 4) with (Fin 4). change (@nofZ XR 2) with (Fin 2). cbn [cpow].
  assert (Hd : CC.Cminus z w <> CC.RtoC 0).
  { intros E. apply Hzw. replace z with (CC.Cplus (CC.Cminus z w) w) by ring. rewrite E. ring. }
  repeat rewrite ?cC_mul, ?cC_sub, ?cC_scale, ?cC_opp.
  set (e := CC.Cmult (CC.Cmult p q) (CC.Cmult (CC.Cminus z w) (CC.Cminus z w))).
  assert (He : e <> CC.RtoC 0) by (repeat apply CC.Cmult_neq_0; assumption).
  match goal with |- context [@csqrt XR (cC ?d)] => replace d with (CC.Cmult (CC.Cmult e (CC.Cminus z w)) (CC.Cmult e (CC.Cminus z w))) end.
  2: { replace (CC.RtoC 4) with (CC.Cmult (CC.Cplus (CC.RtoC 1) (CC.RtoC 1)) (CC.Cplus (CC.RtoC 1) (CC.RtoC 1))) by (apply injective_projections; cbn; ring). unfold e. ring. }
  assert (E2 : CC.RtoC 2 = CC.Cplus (CC.RtoC 1) (CC.RtoC 1)) by (apply injective_projections; cbn; ring).
  assert (H2 : CC.RtoC 2 <> CC.RtoC 0) by (apply RtoC_nonzero; lra).
  match goal with |- context [CC.Cmult (CC.RtoC 2) ?a] => replace a with (CC.Copp e) by (unfold e; ring) end.
  assert (Hden : CC.Cmult (CC.RtoC 2) (CC.Copp e) <> CC.RtoC 0).
  { apply CC.Cmult_neq_0; [assumption|]. intros E. apply He. replace e with (CC.Copp (CC.Copp e)) by ring. rewrite E. ring. }
  match goal with |- context [CC.Copp (CC.Cminus ?x ?y)] => replace (CC.Cminus x y) with (CC.Cmult e (CC.Cplus z w)) by (unfold e; ring) end.
  destruct (cC_sqrt (CC.Cmult e (CC.Cminus z w))) as [-> | ->]; rewrite !cC_add, !cC_sub, !cC_div by assumption; [right|left];
    rewrite E2 in *; apply pair_equal_spec; split; apply (f_equal cC); clearbody e; field; (split; [intros E; apply He; replace e with (CC.Copp (CC.Copp e)) by ring; rewrite E; ring|exact H2]).
Qed.
Print Assumptions C50_negrete_quadratic.

(** The quarter turn: at [psi = (PI / 2)^2] the hypotheses of
    [C50_negrete_time] hold with [y = 1]. *)
Example C50_case : psi_range 0 (PI / 2 * (PI / 2)) /\ 1 / 100000000 <= Rabs (PI / 2 * (PI / 2)) /\
  vz (vcross ex_r1 ex_r2) <> 0 /\
  @neg_y XR (creal (Fin (PI / 2 * (PI / 2)))) (norm (vfin ex_r1)) (norm (vfin ex_r2))
    (@neg_A XR (norm (vfin ex_r1)) (norm (vfin ex_r2)) (get_transfer_angle (vfin ex_r1) (vfin ex_r2) true)) = creal (Fin 1).
Proof.
  pose proof PI_RGT_0 as P. pose proof PI2_3_2 as P3. assert (P4 : 1 < PI / 2 * (PI / 2)) by nra.
  assert (R : psi_range 0 (PI / 2 * (PI / 2))) by (right; rewrite sqrt_square by lra; split; [lra|]; lra).
  assert (Q : 1 / 100000000 <= Rabs (PI / 2 * (PI / 2))) by (rewrite Rabs_pos_eq; lra).
  assert (Z : vz (vcross ex_r1 ex_r2) <> 0) by (unfold ex_r1, ex_r2; vunf; lra).
  split; [exact R|]. split; [exact Q|]. split; [exact Z|].
  pose proof (vz_non_collinear _ _ Z) as Hn. destruct ex_norms as [N1 [N2 _]]. rewrite !norm_F.
  destruct (transfer_angle ex_r1 ex_r2 true Hn) as (th & ET & F). rewrite ET.
  destruct (neg_A_F true ex_r1 ex_r2 th Hn F) as (A & EA & A2 & As). rewrite EA.
  rewrite neg_y_F by (try assumption; exact (psi_range_S2 _ _ R)). rewrite creal_F. apply cc_eq; [|reflexivity].
  assert (A = 1) as ->.
  { unfold Kgeo in A2. rewrite N1, N2 in A2. assert (E : vdot ex_r1 ex_r2 = 0) by (unfold ex_r1, ex_r2; vunf; ring). rewrite E in A2.
    assert (0 < A) by (apply As; unfold short_way, ex_r1, ex_r2; vunf; lra). nra. }
  rewrite N1, N2. rewrite S1_ell by lra. rewrite sin_PI2.
  assert (E2 : S2 (PI / 2 * (PI / 2)) = (/ (PI / 2)) * (/ (PI / 2))).
  { unfold S2, U2. destruct (Rlt_dec 0 (PI / 2 * (PI / 2))); [|lra]. rewrite Rmult_1_r, sqrt_square, cos_PI2 by lra. field. lra. }
  rewrite E2, sqrt_square by (left; apply Rinv_0_lt_compat; lra). field. lra.
Qed.

(** Residues one and poles [1], [4] have the moments [2], [5], [17], [65]. *)
Example C50_quadratic_case :
  let roots := @neg_quadratic_roots XR (cr 2) (cr 5) (cr 17) (cr 65) in
  roots = (cr 1, cr 4) \/ roots = (cr 4, cr 1).
Proof.
  pose proof (C50_negrete_quadratic (CC.RtoC 1) (CC.RtoC 1) (CC.RtoC 1) (CC.RtoC 4)) as H. cbv beta zeta in H |- *.
  assert (M : forall k a, a = 1 + 4 ^ k -> cC (CC.Cplus (CC.Cmult (CC.RtoC 1) (cpow (CC.RtoC 1) k)) (CC.Cmult (CC.RtoC 1) (cpow (CC.RtoC 4) k))) = cr a).
  { intros k a ->. assert (P : forall x, cpow (CC.RtoC x) k = CC.RtoC (x ^ k)).
    { intros x. induction k as [|k IH]; [reflexivity|]. cbn [cpow pow]. rewrite IH. apply injective_projections; cbn; ring. }
    rewrite !P, pow1. apply cc_eq; cbn; ring. }
  rewrite (M 0%nat 2), (M 1%nat 5), (M 2%nat 17), (M 3%nat 65) in H by (cbn; lra).
  apply H; try (apply RtoC_nonzero; lra). intros E. injection E. lra.
Qed.
