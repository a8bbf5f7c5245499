(** * C42 for avanzini2008 and gauss1809: one orbit and a transfer are the same thing on ellipses. *)
From Coq Require Import String ZArith List Bool Lia Reals Lra Psatz.
From Verif Require Import Num XReal XRealLemmas MApi ApiFacts MScipy MGauss MInit Spec SpecLambert VecFacts CallXR DelatorreXR Godal GodalXR LambertRev LambertZ
  LambertUnique PropertiesAngles PropertiesMotion AvanziniXR OrbitXR PropertiesOrbit PropertiesIzzo PropertiesTransfer PropertiesGauss PropertiesAvanzini.
Import ListNotations.
Local Open Scope R_scope.

(** ** The states of one orbit at two positions *)
Section SameOrbit.
Context (mu : R) (r1 r2 v1 v2 : rvec) (Hmu : 0 < mu) (Hn : non_collinear r1 r2).
Let n1 := vnorm r1.
Let n2 := vnorm r2.
Let c := vcross r1 r2.

Lemma cross_sq : 0 < vdot c c /\ vdot c c = (n1 * n2 + vdot r1 r2) * (n1 * n2 - vdot r1 r2).
Proof.
  split; [now apply vdot_nonzero|]. unfold c, n1, n2. rewrite lagrange. rewrite <- !vnorm_sq. ring.
Qed.

(** A vector orthogonal to the normal of the plane of [r1] and [r2]. *)
Lemma in_plane v : vdot c v = 0 -> exists x y, v = vplus (vmult x r1) (vmult y r2).
Proof.
  intros H. destruct cross_sq as [Hc _]. exists (vdot (vcross v r2) c / vdot c c), (vdot (vcross r1 v) c / vdot c c).
  assert (E : vmult (vdot c c) v = vplus (vmult (vdot (vcross v r2) c) r1) (vmult (vdot (vcross r1 v) c) r2)).
  { assert (E0 : vplus (vmult (vdot (vcross v r2) c) r1) (vmult (vdot (vcross r1 v) c) r2) = vminus (vmult (vdot c c) v) (vmult (vdot c v) c)).
    { unfold c. apply vec_eq; unfold vplus, vminus, vmult, vdot, vcross; cbn [vx vy vz]; ring. }
    rewrite E0, H. apply vec_eq; unfold vminus, vmult; cbn [vx vy vz]; ring. }
  transitivity (vmult (/ vdot c c) (vmult (vdot c c) v)).
  - rewrite vmult_mult, Rinv_l, vmult_1 by lra. reflexivity.
  - rewrite E. apply vec_eq; unfold vplus, vmult; cbn [vx vy vz]; field; lra.
Qed.

Lemma parallel_normal h : vdot r1 h = 0 -> vdot r2 h = 0 -> exists k, h = vmult k c.
Proof.
  intros A B. destruct cross_sq as [Hc _]. exists (vdot h c / vdot c c).
  assert (E : vmult (vdot c c) h = vmult (vdot h c) c).
  { assert (E0 : vminus (vmult (vdot c c) h) (vmult (vdot h c) c) = vcross c (vcross h c)).
    { unfold c. apply vec_eq; unfold vplus, vminus, vmult, vdot, vcross; cbn [vx vy vz]; ring. }
    assert (E1 : vcross h c = vminus (vmult (vdot r2 h) r1) (vmult (vdot r1 h) r2)).
    { unfold c. apply vec_eq; unfold vplus, vminus, vmult, vdot, vcross; cbn [vx vy vz]; ring. }
    rewrite E1, A, B in E0. generalize (f_equal vx E0) (f_equal vy E0) (f_equal vz E0).
    unfold vcross, vminus, vmult; cbn [vx vy vz]. intros. apply vec_eq; cbn [vx vy vz]; lra. }
  transitivity (vmult (/ vdot c c) (vmult (vdot c c) h)).
  - rewrite vmult_mult, Rinv_l, vmult_1 by lra. reflexivity.
  - rewrite E. apply vec_eq; unfold vplus, vmult; cbn [vx vy vz]; field; lra.
Qed.

Lemma same_orbit_ab : momentum r1 v1 = momentum r2 v2 -> ecc_vector mu r1 v1 = ecc_vector mu r2 v2 ->
  exists a b, v1 = vplus (vmult a (vminus r2 r1)) (vmult (b / n1) r1) /\
    v2 = vminus (vmult a (vminus r2 r1)) (vmult (b / n2) r2) /\ a * b * Kgeo r1 r2 = mu.
Proof.
  intros HM HE. destruct cross_sq as [Hc Ec]. destruct (norms_pos _ _ Hn) as [N1 N2]. fold n1 in N1. fold n2 in N2.
  pose proof (Kgeo_pos _ _ Hn) as HK. unfold Kgeo in HK. fold n1 n2 in HK.
  assert (HK' : 0 < n1 * n2 - vdot r1 r2) by nra.
  unfold momentum in HM.
  destruct (parallel_normal (vcross r1 v1)) as (k & Ek).
  { apply vdot_cross_l. } { rewrite HM. apply vdot_cross_l. }
  assert (HE' : vminus (vcross v2 (vmult k c)) (vcross v1 (vmult k c)) = vmult mu (vminus (vmult (1 / n2) r2) (vmult (1 / n1) r1))).
  { unfold ecc_vector in HE. rewrite <- HM, Ek in HE. fold n1 n2 in HE.
    generalize (f_equal (fun u => mu * vx u) HE) (f_equal (fun u => mu * vy u) HE) (f_equal (fun u => mu * vz u) HE).
    destruct (vcross v1 (vmult k c)) as [a1 a2 a3], (vcross v2 (vmult k c)) as [b1 b2 b3]. unfold vminus, vmult. cbn [vx vy vz].
    intros X Y Z. assert (M : forall z, mu * (1 / mu * z) = z) by (intros; field; lra).
    rewrite !Rmult_minus_distr_l, !M in X, Y, Z. apply vec_eq; cbn [vx vy vz]; lra. }
  destruct (Req_dec k 0) as [K0|K0].
  { exfalso. subst k. rewrite vmult_0, !vcross_zero_r in HE'.
    assert (Z : vdot r1 (vmult mu (vminus (vmult (1 / n2) r2) (vmult (1 / n1) r1))) = 0).
    { rewrite <- HE'. unfold vdot, vminus, vzero. cbn [vx vy vz]. ring. }
    assert (Z' : vdot r1 (vmult mu (vminus (vmult (1 / n2) r2) (vmult (1 / n1) r1))) = mu * (vdot r1 r2 / n2 - vdot r1 r1 / n1)).
    { unfold vdot, vminus, vmult. cbn [vx vy vz]. field. lra. }
    rewrite Z', <- (vnorm_sq r1) in Z. fold n1 in Z. apply Rmult_integral in Z. destruct Z as [Z|Z]; [lra|].
    assert (W : n1 * n2 - vdot r1 r2 = - n2 * (vdot r1 r2 / n2 - n1 * n1 / n1)) by (field; lra). rewrite Z in W. lra. }
  assert (P : forall r v, vcross r v = vmult k c -> vdot c v = 0).
  { intros r v E. assert (Z : k * vdot c v = 0); [|apply Rmult_integral in Z; tauto].
    rewrite <- vdot_mult_l, <- E, vdot_comm. apply vdot_cross_r. }
  destruct (in_plane v1 (P _ _ Ek)) as (x1 & y1 & F1).
  destruct (in_plane v2 (P r2 v2 ltac:(congruence))) as (x2 & y2 & F2).
  assert (Y1 : y1 = k).
  { assert (E : vmult y1 c = vmult k c) by (rewrite <- Ek, F1; unfold c; apply vec_eq; unfold vcross, vplus, vmult; cbn [vx vy vz]; ring).
    now apply vmult_cancel in E. }
  assert (X2 : x2 = - k).
  { assert (E : vmult (- x2) c = vmult k c) by (rewrite <- Ek, HM, F2; unfold c; apply vec_eq; unfold vcross, vplus, vmult; cbn [vx vy vz]; ring).
    apply vmult_cancel in E; [lra|exact Hn]. }
  subst y1 x2.
  assert (D1 : vdot r1 (vminus (vcross v2 (vmult k c)) (vcross v1 (vmult k c))) = k * (y2 - k) * vdot c c).
  { rewrite F1, F2. unfold c. unfold vdot, vcross, vplus, vminus, vmult. cbn [vx vy vz]. ring. }
  assert (D2 : vdot r2 (vminus (vcross v2 (vmult k c)) (vcross v1 (vmult k c))) = k * (k + x1) * vdot c c).
  { rewrite F1, F2. unfold c. unfold vdot, vcross, vplus, vminus, vmult. cbn [vx vy vz]. ring. }
  rewrite HE' in D1, D2.
  replace (vdot r1 (vmult mu (vminus (vmult (1 / n2) r2) (vmult (1 / n1) r1)))) with (mu * (vdot r1 r2 / n2 - vdot r1 r1 / n1)) in D1
    by (unfold vdot, vminus, vmult; cbn [vx vy vz]; field; lra).
  replace (vdot r2 (vmult mu (vminus (vmult (1 / n2) r2) (vmult (1 / n1) r1)))) with (mu * (vdot r2 r2 / n2 - vdot r1 r2 / n1)) in D2
    by (unfold vdot, vminus, vmult; cbn [vx vy vz]; field; lra).
  rewrite <- vnorm_sq in D1, D2. fold n1 in D1. fold n2 in D2. rewrite Ec in D1, D2.
  set (d := vdot r1 r2) in *.
  assert (B1 : k * (k + x1) * (n1 * n2 + d) = mu / n1).
  { apply Rmult_eq_reg_r with (n1 * n2 - d); [|lra]. transitivity (k * (k + x1) * ((n1 * n2 + d) * (n1 * n2 - d))); [ring|].
    rewrite <- D2. field. lra. }
  assert (B2 : k * (k - y2) * (n1 * n2 + d) = mu / n2).
  { apply Rmult_eq_reg_r with (n1 * n2 - d); [|lra]. transitivity (- (k * (y2 - k) * ((n1 * n2 + d) * (n1 * n2 - d)))); [ring|].
    rewrite <- D1. field. lra. }
  exists k, (n1 * (k + x1)). split; [|split].
  - rewrite F1. apply vec_eq; unfold vplus, vminus, vmult; cbn [vx vy vz]; field; lra.
  - assert (Q : n1 * (k + x1) / n2 = k - y2).
    { apply Rmult_eq_reg_l with (k * (n1 * n2 + d)); [|apply Rmult_integral_contrapositive; split; lra].
      transitivity (n1 / n2 * (k * (k + x1) * (n1 * n2 + d))); [field; lra|]. rewrite B1.
      transitivity (k * (k - y2) * (n1 * n2 + d)); [rewrite B2; field; lra|ring]. }
    rewrite Q, F2. apply vec_eq; unfold vplus, vminus, vmult; cbn [vx vy vz]; ring.
  - unfold Kgeo. fold n1 n2 d. transitivity (n1 * (k * (k + x1) * (n1 * n2 + d))); [ring|]. rewrite B1. field. lra.
Qed.

(** Conversely, the two ends of a transfer are states of one orbit. *)
Lemma solution_same_orbit T M : lambert_solution mu r1 v1 r2 v2 T M -> same_orbit mu r1 v1 r2 v2.
Proof.
  intros H. destruct (solution_fg _ _ _ _ _ _ _ Hmu Hn H) as (_ & A & V & z & F & _).
  destruct F as [FA FV F1 F2]. destruct (sqrt_facts _ FV) as [W1 W2]. destruct (sqrt_facts _ Hmu) as [M1 M2].
  pose proof (Kgeo_pos _ _ Hn) as HK. unfold Kgeo in HK. rewrite <- FA in HK.
  assert (HA : A <> 0) by (intros ->; lra). destruct (norms_pos _ _ Hn) as [N1 N2].
  set (a := / (A * sqrt V / sqrt mu)) in *.
  assert (AB : a * (a * V) * (A * A) = mu).
  { unfold a. rewrite <- W2 at 3. rewrite <- M2 at 3. field. repeat split; lra. }
  assert (E1 : v1 = vplus (vmult a (vminus r2 r1)) (vmult (a * V / vnorm r1) r1))
    by (rewrite F1; apply vec_eq; unfold vplus, vminus, vmult; cbn [vx vy vz]; field; lra).
  assert (E2 : v2 = vminus (vmult a (vminus r2 r1)) (vmult (a * V / vnorm r2) r2))
    by (rewrite F2; apply vec_eq; unfold vplus, vminus, vmult; cbn [vx vy vz]; field; lra).
  assert (EK : a * (a * V) * Kgeo r1 r2 = mu) by (unfold Kgeo; rewrite <- FA; exact AB).
  rewrite E1, E2. split; [|split].
  - destruct (godal_momentum r1 r2 a (a * V)) as [-> ->]. reflexivity.
  - now apply godal_energy.
  - apply godal_ecc; auto. lra.
Qed.

(** On an ellipse: one orbit through both positions, then a transfer with any
    number of complete revolutions. *)
Lemma elliptic_same_orbit K : same_orbit mu r1 v1 r2 v2 -> energy mu r1 v1 < 0 -> (0 <= K)%Z ->
  exists T, lambert_solution mu r1 v1 r2 v2 T K.
Proof.
  intros (HM & _ & HE) En HK. destruct (same_orbit_ab HM HE) as (a & b & E1 & E2 & E3). now apply (ab_elliptic mu r1 r2 a b).
Qed.
End SameOrbit.

(** ** C42 for avanzini2008 *)
Theorem C42_avanzini : forall ev mu r1 r2 tof M prograde low_path maxiter atol rtol full_output o v1 v2 K,
  non_collinear r1 r2 -> ~ equatorial r1 r2 ->
  @run XR Avanzini ev (call mu r1 r2 tof M prograde low_path maxiter atol rtol full_output) = Ok o ->
  delivers o v1 v2 -> energy mu r1 v1 < 0 -> (0 <= K)%Z ->
  exists T, lambert_solution mu r1 v1 r2 v2 T K.
Proof.
  intros ev mu r1 r2 tof M p l mi a r f o v1 v2 K Hn Hne H D HE HK.
  pose proof (C11_avanzini _ _ _ _ _ _ _ _ _ _ _ _ _ _ _ Hn Hne H D) as S. cbn [run] in H.
  destruct (avanzini_returns _ _ _ _ _ _ _ _ _ _ _ _ _ _ _ H D) as (Hmu & _). now apply elliptic_same_orbit.
Qed.
Print Assumptions C42_avanzini.

(** ** C42 for gauss1809 *)

(** The velocities of gauss1809 are those of a transfer exactly when the two
    positions are at the same distance. *)
Theorem C42_gauss : forall ev mu r1 r2 tof M prograde low_path maxiter atol rtol full_output o v1 v2 K,
  non_collinear r1 r2 ->
  @run XR Gauss ev (call mu r1 r2 tof M prograde low_path maxiter atol rtol full_output) = Ok o ->
  delivers o v1 v2 -> energy mu r1 v1 < 0 -> (0 <= K)%Z ->
  ((exists T, lambert_solution mu r1 v1 r2 v2 T K) <-> vnorm r1 = vnorm r2).
Proof.
  intros ev mu r1 r2 tof M p l mi a r f o v1 v2 K Hn H D HE HK.
  pose proof (C37_gauss_same_orbit_iff_equal_radii _ _ _ _ _ _ _ _ _ _ _ _ _ _ _ Hn H D) as S. cbn [run] in H.
  destruct (gauss_returns _ _ _ _ _ _ _ _ _ _ _ _ _ _ _ Hn H D) as (Hmu & _). rewrite <- S. split.
  - intros (T & L). eapply solution_same_orbit; eauto.
  - intros Q. now apply elliptic_same_orbit.
Qed.
Print Assumptions C42_gauss.

(** At different distances gauss1809 returns velocities of no transfer at all. *)
Theorem C42_gauss_refuted : forall mu r1 r2 M prograde low_path maxiter atol rtol full_output,
  0 < mu -> short_way prograde r1 r2 -> vnorm r1 <> vnorm r2 -> (0 <= M)%Z -> (1 <= maxiter)%Z -> 0 < atol ->
  exists tof0, 0 < tof0 /\ forall ev tof, 0 < tof < tof0 ->
  exists o v1 v2,
    @run XR Gauss ev (call mu r1 r2 tof M prograde low_path maxiter atol rtol full_output) = Ok o /\
    delivers o v1 v2 /\ forall T K, ~ lambert_solution mu r1 v1 r2 v2 T K.
Proof.
  intros mu r1 r2 M p l mi a r f Hmu Hs Hne HM Hmi Ha.
  assert (Hn : non_collinear r1 r2) by (apply vz_non_collinear; unfold short_way in Hs; destruct p; lra).
  destruct (C37_gauss_same_orbit_refuted mu r1 r2 M p l mi a r f Hmu Hs Hne HM Hmi Ha) as (t0 & T0 & G).
  exists t0. split; [exact T0|]. intros ev tof HT. destruct (G ev tof HT) as (o & v1 & v2 & R & D & N).
  exists o, v1, v2. split; [exact R|]. split; [exact D|]. intros T K L. apply N. eapply solution_same_orbit; eauto.
Qed.
Print Assumptions C42_gauss_refuted.

(** ** Cases *)
Example C42_avanzini_case : forall ev, non_collinear ex_r1 ex_r2c /\ ~ equatorial ex_r1 ex_r2c /\ exists o v1 v2,
  @run XR Avanzini ev (call 1 ex_r1 ex_r2c (PI / 2) 0 true true 35 (1 / 100000) (1 / 10000000) false) = Ok o /\
  delivers o v1 v2 /\ energy 1 ex_r1 v1 < 0.
Proof.
  intros ev. destruct ex_r2c_facts as (A & B & C & D & E).
  split; [apply vz_non_collinear; lra|]. split; [assumption|].
  destruct (avanzini_quarter ev true ex_r1 ex_r2c true 35 (1 / 100000) (1 / 10000000)) as (v1 & v2 & H & HE); try assumption; try lra; try lia.
  eexists _, v1, v2. split; [exact H|]. split; [split; reflexivity|exact HE].
Qed.

(** A quarter turn between unit positions: gauss1809 accepts its first pass and
    answers an ellipse. *)
Example C42_gauss_case : forall ev, non_collinear ex_r1 ex_r2 /\ vnorm ex_r1 = vnorm ex_r2 /\ exists tof o v1 v2,
  @run XR Gauss ev (call 1 ex_r1 ex_r2 tof 0 true true 35 (1 / 100000) (1 / 10000000) false) = Ok o /\
  delivers o v1 v2 /\ energy 1 ex_r1 v1 < 0.
Proof.
  intros ev.
  assert (U1 : vnorm ex_r1 = 1) by (unfold vnorm, vdot, ex_r1; cbn [vx vy vz]; replace (1 * 1 + 0 * 0 + 0 * 0) with 1 by ring; apply sqrt_1).
  assert (U2 : vnorm ex_r2 = 1) by (unfold vnorm, vdot, ex_r2; cbn [vx vy vz]; replace (0 * 0 + 1 * 1 + 0 * 0) with 1 by ring; apply sqrt_1).
  assert (Hs : short_way true ex_r1 ex_r2) by (unfold short_way, ex_r1, ex_r2, vcross; cbn [vx vy vz]; lra).
  assert (Hn : non_collinear ex_r1 ex_r2) by (apply vz_non_collinear; unfold short_way in Hs; lra).
  split; [exact Hn|]. split; [congruence|].
  destruct (transfer_angle ex_r1 ex_r2 true Hn) as (th & ET & F).
  assert (C0 : cos th = 0).
  { pose proof (af_dot _ _ _ _ F) as A. rewrite U1, U2 in A. replace (vdot ex_r1 ex_r2) with 0 in A by (unfold vdot, ex_r1, ex_r2; cbn [vx vy vz]; ring). lra. }
  assert (S0 : sin th = 1).
  { pose proof (proj2 (af_short _ _ _ _ F) Hs) as A. pose proof (sin2_cos2 th) as B. unfold Rsqr in B. rewrite C0 in B. nra. }
  destruct (gauss_consts 1 1 true ex_r1 ex_r2 th Hn F Hs) as (_ & _ & P & Sp).
  set (s := gauss_s ex_r1 ex_r2 th) in *.
  destruct (gau_X_bounded s (Rlt_le _ _ Sp)) as (L & HL & HX).
  set (a := 1 / 100000). assert (Ha : 0 < a) by (unfold a; lra).
  set (m := Rmin s (a / L) / 2).
  assert (Hm' : 0 < Rmin s (a / L)) by (apply Rmin_pos; [assumption|now apply Rdiv_lt_0_compat]).
  pose proof (Rmin_l s (a / L)) as R1. pose proof (Rmin_r s (a / L)) as R2.
  assert (Hm : 0 < m < s /\ m <= a / L) by (unfold m; lra). destruct Hm as [Hm HmL].
  pose proof (af_half_sq _ _ _ _ F) as C2. rewrite C0 in C2. rewrite U1, U2, Rmult_1_l, sqrt_1, Rmult_1_l in P.
  set (c := cos (th / 2)) in *.
  set (K := (2 * c) * (2 * c) * (2 * c)). assert (HK : 0 < K) by (unfold K; repeat apply Rmult_lt_0_compat; lra).
  set (tof := sqrt (m * K)). assert (HT : 0 < m * K) by (apply Rmult_lt_0_compat; lra).
  destruct (sqrt_facts _ HT) as [T0 T2]. fold tof in T0, T2.
  assert (Ew : gauss_w 1 tof ex_r1 ex_r2 th = m).
  { unfold gauss_w. rewrite U1, U2, (Rmult_1_l 1), sqrt_1, T2. cbv zeta. fold c. unfold K. field. lra. }
  assert (Es : s = 1 / (2 * c) - 1 / 2) by (unfold s, gauss_s; rewrite U1, U2, (Rmult_1_l 1), sqrt_1; fold c; field; lra).
  destruct (HX (m - s)) as (X & EX & BX).
  { rewrite Rabs_left1 by lra. lra. }
  assert (HA : Rabs (X * m) <= a).
  { rewrite Rabs_mult, (Rabs_pos_eq m) by lra.
    apply Rle_trans with (L * m); [apply Rmult_le_compat_r; lra|].
    apply Rle_trans with (L * (a / L)); [apply Rmult_le_compat_l; lra|]. apply Req_le. field. lra. }
  pose proof (gauss_first_pass (e_clock ev) 1 ex_r1 ex_r2 tof 0 true true 35 a (1 / 10000000) false th X Hn F Hs ET ltac:(lra) T0 ltac:(lia) ltac:(lia)) as R.
  cbv zeta in R. fold s in R. rewrite Ew in R. specialize (R EX HA).
  unfold time_per_iteration in R. cbn [bind] in R.
  set (u := 1 - 2 * (m - s)) in *. assert (Hu : 1 < u < 1 + 2 * s) by (unfold u; lra).
  assert (ED : @gau_delta_anomaly XR (Fin (m - s)) = Ok (Fin (2 * arcosh u))).
  { unfold gau_delta_anomaly. xunf. cbn [xmul xsub xlift2].
    replace (xltb (Fin 0) (Fin (m - s))) with false by (symmetry; apply xltb_Ff; lra).
    replace (xeqb (Fin (m - s)) (Fin 0)) with false by (symmetry; apply xeqb_Ff; lra).
    fold u. rewrite xacosh_F by lra. reflexivity. }
  rewrite ED in R. cbn [bind] in R.
  set (b := cos (arcosh u)).
  assert (CU : 7 / 10 < c < 1) by (clear - C2 P; nra).
  assert (B1 : -1 < b < 1).
  { destruct (cosh_arcosh u ltac:(lra)) as [CH YP]. unfold b. set (y := arcosh u) in *. clearbody y.
    assert (U3 : u < 3 / 2).
    { assert (1 / (2 * c) < 3 / 4); [|lra]. apply (Rmult_lt_reg_r (2 * c)); [lra|]. replace (1 / (2 * c) * (2 * c)) with 1 by (field; lra). lra. }
    assert (Y0 : y <> 0) by (intros ->; rewrite cosh_0 in CH; lra).
    assert (Y2 : y < 2).
    { unfold cosh in CH. pose proof (exp_ineq1 y Y0). pose proof (exp_pos (- y)). lra. }
    pose proof PI2_3_2 as PI3. pose proof PI_RGT_0 as PP. split.
    - rewrite <- cos_PI. apply cos_decreasing_1; lra.
    - rewrite <- cos_0. apply cos_decreasing_1; lra. }
  assert (Den : 0 < 2 - 2 * c * b) by nra.
  set (k := / (2 - 2 * c * b)). assert (Hk : 0 < k) by now apply Rinv_0_lt_compat.
  assert (EP : @gau_p XR (Fin (vnorm ex_r1)) (Fin (vnorm ex_r2)) (Fin th) (Fin (2 * arcosh u)) = Fin k).
  { unfold gau_p. rewrite U1, U2. xunf. cbn [xmul xadd xsub xlift1 xlift2]. rewrite xsqrt_F by lra. rewrite !(xdiv_F _ 2) by lra.
    cbn [xmul xadd xsub xlift1 xlift2]. rewrite (Rmult_1_l 1), sqrt_1, C0. replace (2 * arcosh u / 2) with (arcosh u) by field. fold b c.
    replace (1 + 1 - 2 * 1 * c * b) with (2 - 2 * c * b) by ring. rewrite xdiv_F by lra. f_equal. unfold k. field. lra. }
  rewrite EP in R.
  destruct (gau_velocities_finite 1 true ex_r1 ex_r2 th k Hn ltac:(lra) Hk F) as (v1 & v2 & EV). rewrite EV in R.
  exists tof. cbn [run]. exists (@mk_out XR false (vfin v1) (vfin v2) 1 (Fin 0)), v1, v2. split; [exact R|]. split; [split; reflexivity|].
  destruct (gau_velocities_inv 1 true ex_r1 ex_r2 th (Fin k) v1 v2 Hn ltac:(lra) F EV) as (k' & Ek & _ & E1 & _).
  injection Ek as <-. cbv zeta in E1. rewrite U1, U2, C0, S0 in E1.
  destruct (sqrt_facts k Hk) as [K1 K2].
  assert (E2 : vdot v1 v1 = 2 * k - 2 + / k).
  { rewrite E1, !Rmult_1_l. unfold vdot, vmult, vminus, ex_r1, ex_r2. cbn [vx vy vz]. set (w := sqrt k) in *. clearbody w k. rewrite <- K2. field. lra. }
  unfold energy. rewrite E2, U1.
  set (d := 2 - 2 * c * b) in *. assert (Ed : k = / d) by reflexivity. rewrite Ed, Rinv_involutive by lra.
  assert (Q : 2 + d * d < 4 * d) by (unfold d; nra).
  apply (Rmult_lt_reg_r (2 * d)); [lra|].
  replace (((2 * / d - 2 + d) / 2 - 1 / 1) * (2 * d)) with (2 + d * d - 4 * d) by (field; lra). lra.
Qed.
