(** * The conics of avanzini2008 over the reals *)
From Coq Require Import Reals ZArith Bool String Lra Lia Psatz.
From Verif Require Import Num XReal XRealLemmas MApi ApiFacts MScipy MLinalg MAssertions MAngles MElements MAvanzini
  Spec SpecElements VecFacts VecXR AnglesXR CallXR ElementsXR PropertiesMotion Godal GodalXR GodalPan OrbitXR.
Local Open Scope R_scope.

Lemma atan2_polar x y :
  sqrt (x * x + y * y) * cos (Ratan2 y x) = x /\ sqrt (x * x + y * y) * sin (Ratan2 y x) = y.
Proof.
  destruct (Req_EM_T x 0) as [->|Hx]; [destruct (Req_EM_T y 0) as [->|Hy]|].
  - replace (0 * 0 + 0 * 0) with 0 by ring. rewrite sqrt_0. split; ring.
  - destruct (Ratan2_cos_sin 0 y) as [-> ->]; [auto|].
    assert (0 < 0 * 0 + y * y) by nra. pose proof (sqrt_lt_R0 _ H). split; field; lra.
  - destruct (Ratan2_cos_sin x y) as [-> ->]; [auto|].
    assert (0 < x * x + y * y) by nra. pose proof (sqrt_lt_R0 _ H). split; field; lra.
Qed.

(** Requested sense of the normal [r1 x r2]. *)
Definition sense (p : bool) (r1 r2 : rvec) : R := if short_way_dec p r1 r2 then 1 else -1.

Lemma sense_sq p r1 r2 : sense p r1 r2 * sense p r1 r2 = 1.
Proof. unfold sense. destruct (short_way_dec p r1 r2); ring. Qed.

Lemma af_dot p r1 r2 th : angle_facts p r1 r2 th -> vnorm r1 * vnorm r2 * cos th = vdot r1 r2.
Proof. intros F. pose proof (af_K _ _ _ _ F) as K. unfold Kgeo in K. lra. Qed.

Lemma af_sin_val p r1 r2 th : non_collinear r1 r2 -> angle_facts p r1 r2 th ->
  vnorm r1 * vnorm r2 * sin th = sense p r1 r2 * vnorm (vcross r1 r2).
Proof.
  intros Hn F. destruct (norms_pos _ _ Hn) as [N1 N2]. pose proof (af_dot _ _ _ _ F) as D.
  pose proof (lagrange r1 r2) as L. rewrite <- !vnorm_sq in L. pose proof (vnorm_pos _ Hn) as NC.
  pose proof (sc th) as S. set (n1 := vnorm r1) in *. set (n2 := vnorm r2) in *. set (m := vnorm (vcross r1 r2)) in *.
  assert (P : 0 < n1 * n2) by nra.
  assert (E : (n1 * n2 * sin th) * (n1 * n2 * sin th) = m * m).
  { rewrite <- D in L.
    transitivity (n1 * n1 * (n2 * n2) * (1 - cos th * cos th)); [|lra].
    replace (1 - cos th * cos th) with (sin th * sin th) by lra. ring. }
  pose proof (af_short _ _ _ _ F) as Sh. pose proof (af_sin _ _ _ _ F) as Z.
  unfold sense. destruct (short_way_dec p r1 r2) as [W|W].
  - assert (0 < n1 * n2 * sin th) by (apply Rmult_lt_0_compat; tauto). nra.
  - assert (~ 0 < sin th) by tauto. assert (n1 * n2 * sin th < 0) by nra. nra.
Qed.

Lemma chord_cross r1 r2 : vcross r1 (vminus r2 r1) = vcross r1 r2.
Proof. unfold vcross, vminus. apply vec_eq; cbn [vx vy vz]; ring. Qed.

(** ** Every conic of the family passes through both positions (C33) *)
Section Family.
Variables (p : bool) (r1 r2 : rvec) (th wc : R).
Hypotheses (Hn : non_collinear r1 r2) (F : angle_facts p r1 r2 th) (Fc : angle_facts p r1 (vminus r2 r1) wc).
Let n1 := vnorm r1. Let n2 := vnorm r2. Let c := chord r1 r2.
Let eF := (n1 - n2) / c.
Let pF := (n1 + n2) / 2 * (1 - eF * eF).

Lemma chord_frame : 0 < n1 /\ 0 < n2 /\ 0 < c /\ c * cos wc = n2 * cos th - n1 /\ c * sin wc = n2 * sin th /\
  c * c = n1 * n1 + n2 * n2 - 2 * (n1 * n2 * cos th).
Proof.
  destruct (norms_pos _ _ Hn) as [N1 N2]. pose proof (chord_pos _ _ Hn) as Hc.
  assert (Hnc : non_collinear r1 (vminus r2 r1)) by (unfold non_collinear; rewrite chord_cross; exact Hn).
  pose proof (af_dot _ _ _ _ F) as D. pose proof (af_dot _ _ _ _ Fc) as Dc.
  pose proof (af_sin_val _ _ _ _ Hn F) as S. pose proof (af_sin_val _ _ _ _ Hnc Fc) as Sc.
  rewrite chord_cross in Sc.
  assert (Es : sense p r1 (vminus r2 r1) = sense p r1 r2).
  { unfold sense. destruct (short_way_dec p r1 (vminus r2 r1)) as [A|A], (short_way_dec p r1 r2) as [B|B];
      try reflexivity; unfold short_way in A, B; rewrite chord_cross in A; contradiction. }
  rewrite Es in Sc. change (vnorm (vminus r2 r1)) with c in Sc, Dc. fold n1 n2 in D, S, Sc, Dc.
  change (0 < n1) in N1. change (0 < n2) in N2. change (0 < c) in Hc.
  assert (Ed : vdot r1 (vminus r2 r1) = vdot r1 r2 - n1 * n1).
  { unfold n1. rewrite vnorm_sq. unfold vdot, vminus. cbn [vx vy vz]. ring. }
  rewrite Ed in Dc. repeat split; try assumption.
  - apply (Rmult_eq_reg_l n1); [|lra]. lra.
  - apply (Rmult_eq_reg_l n1); [|lra]. lra.
  - unfold c, chord. rewrite vnorm_sq. rewrite D. unfold n1, n2. rewrite !vnorm_sq.
    unfold vdot, vminus. cbn [vx vy vz]. ring.
Qed.

Section OneConic.
Variable eT : R.
Let X := eF * cos wc - eT * sin wc.
Let Y := eF * sin wc + eT * cos wc.
Let e := sqrt (eT * eT + eF * eF).
Let w := Ratan2 Y X.
Let q := pF - eT * n1 * n2 * sin th / c.

Lemma family_e : e * cos w = X /\ e * sin w = Y.
Proof.
  assert (E : e = sqrt (X * X + Y * Y)).
  { unfold e. f_equal. pose proof (sc wc) as S. unfold X, Y.
    transitivity ((eT * eT + eF * eF) * (sin wc * sin wc + cos wc * cos wc)); [rewrite S; ring|ring]. }
  rewrite E. apply atan2_polar.
Qed.

Lemma family_r1 : q = n1 * (1 + e * cos (- w)).
Proof.
  destruct chord_frame as (N1 & N2 & Hc & C & S & CC). destruct family_e as [E _].
  rewrite cos_neg, E. unfold q, X.
  replace (eT * n1 * n2 * sin th / c) with (eT * n1 * (n2 * sin th / c)) by (field; lra).
  assert (SW : n2 * sin th / c = sin wc) by (rewrite <- S; field; lra). rewrite SW.
  assert (CW : cos wc = (n2 * cos th - n1) / c) by (rewrite <- C; field; lra).
  assert (PF : pF = n1 * (1 + eF * cos wc)).
  { rewrite CW. unfold pF, eF.
    assert (T : n1 * n2 * cos th = (n1 * n1 + n2 * n2 - c * c) / 2) by lra.
    transitivity (n1 + (n1 - n2) / (c * c) * (n1 * n2 * cos th - n1 * n1)); [|field; lra].
    rewrite T. field. lra. }
  rewrite PF. ring.
Qed.

Lemma family_r2 : q = n2 * (1 + e * cos (- w + th)).
Proof.
  destruct chord_frame as (N1 & N2 & Hc & C & S & CC). destruct family_e as [E1 E2].
  assert (A : e * cos (- w + th) = X * cos th + Y * sin th).
  { rewrite cos_plus, cos_neg, sin_neg. rewrite <- E1, <- E2. ring. }
  rewrite A. rewrite family_r1, cos_neg, E1.
  assert (Z : X * (n2 * cos th - n1) + Y * (n2 * sin th) = n1 - n2).
  { rewrite <- C, <- S. transitivity (c * eF).
    - unfold X, Y. pose proof (sc wc) as Q.
      transitivity (c * eF * (sin wc * sin wc + cos wc * cos wc)); [ring|rewrite Q; ring].
    - unfold eF. field. lra. }
  lra.
Qed.
End OneConic.
End Family.

(** ** Directions in the orbital plane *)
Lemma frame_P_plus i o w nu :
  vplus (vmult (cos nu) (frame_P i o w)) (vmult (sin nu) (frame_Q i o w)) = frame_P i o (w + nu).
Proof.
  unfold frame_P, frame_Q, vplus, vmult. rewrite cos_plus, sin_plus. apply vec_eq; cbn [vx vy vz]; ring.
Qed.

Lemma frame_P_dot_0 i o w : vdot (frame_P i o 0) (frame_P i o w) = cos w /\ vdot (frame_Q i o 0) (frame_P i o w) = sin w.
Proof.
  pose proof (frame_P_plus i o 0 w) as E. rewrite Rplus_0_l in E. rewrite <- E.
  pose proof (frame_PP i o 0) as PP. pose proof (frame_QQ i o 0) as QQ. pose proof (frame_PQ i o 0) as PQ.
  set (P := frame_P i o 0) in *. set (Q := frame_Q i o 0) in *. clearbody P Q. split.
  - transitivity (cos w * vdot P P + sin w * vdot P Q); [unfold vdot, vplus, vmult; cbn [vx vy vz]; ring|].
    rewrite PP, PQ. ring.
  - transitivity (cos w * vdot P Q + sin w * vdot Q Q); [unfold vdot, vplus, vmult; cbn [vx vy vz]; ring|].
    rewrite QQ, PQ. ring.
Qed.

(** A vector of the plane from its components. *)
Lemma plane_vector P Q v : vdot P P = 1 -> vdot Q Q = 1 -> vdot P Q = 0 -> vdot (vcross P Q) v = 0 ->
  v = vplus (vmult (vdot P v) P) (vmult (vdot Q v) Q).
Proof.
  intros PP QQ PQ Z. set (W := vcross P Q) in *.
  assert (WP : vcross W P = Q) by (apply vcross_PQ_P; assumption).
  (* v x W is orthogonal to W ... use W x (v x W) = v - (W.v) W *)
  assert (WW : vdot W W = 1).
  { pose proof (lagrange P Q) as L. fold W in L. rewrite PP, QQ, PQ in L. lra. }
  assert (A : v = vplus (vcross W (vcross v W)) (vmult (vdot W v) W)).
  { transitivity (vmult (vdot W W) v); [rewrite WW; now rewrite vmult_1|].
    unfold vcross, vplus, vmult, vdot. clearbody W. apply vec_eq; cbn [vx vy vz]; ring. }
  assert (B : vcross v W = vminus (vmult (vdot Q v) P) (vmult (vdot P v) Q)).
  { unfold W. unfold vcross, vminus, vmult, vdot. apply vec_eq; cbn [vx vy vz]; ring. }
  assert (C : vcross W (vminus (vmult (vdot Q v) P) (vmult (vdot P v) Q)) =
     vplus (vmult (vdot P v) P) (vmult (vdot Q v) Q)).
  { assert (WQ : vcross W Q = vmult (-1) P).
    { rewrite <- (vcross_Q_PQ P Q QQ PQ). fold W. unfold vcross, vmult. clearbody W. apply vec_eq; cbn [vx vy vz]; ring. }
    transitivity (vminus (vmult (vdot Q v) (vcross W P)) (vmult (vdot P v) (vcross W Q))).
    - set (a := vdot Q v). set (b := vdot P v). clearbody a b W. unfold vcross, vminus, vmult. apply vec_eq; cbn [vx vy vz]; ring.
    - rewrite WP, WQ. unfold vminus, vplus, vmult. apply vec_eq; cbn [vx vy vz]; ring. }
  rewrite B, C, Z in A. rewrite vmult_0 in A. rewrite A at 1.
  unfold vplus, vzero. apply vec_eq; cbn [vx vy vz]; ring.
Qed.

Lemma frame_P_ext i o w w' : cos w = cos w' -> sin w = sin w' -> frame_P i o w = frame_P i o w'.
Proof. intros C S. unfold frame_P. now rewrite C, S. Qed.

(** Position from its argument of latitude. *)
Lemma latitude i o r : 0 < sin i -> vdot (frame_W i o) r = 0 ->
  let u := Ratan2 (sin i * vdot (frame_Q i o 0) r) (sin i * vdot (frame_P i o 0) r) in
  r = vmult (vnorm r) (frame_P i o u).
Proof.
  intros Hi Z u. set (P := frame_P i o 0) in *. set (Q := frame_Q i o 0) in *.
  assert (PP : vdot P P = 1) by apply frame_PP. assert (QQ : vdot Q Q = 1) by apply frame_QQ.
  assert (PQ : vdot P Q = 0) by apply frame_PQ. assert (W : vcross P Q = frame_W i o) by apply frame_cross.
  assert (A : r = vplus (vmult (vdot P r) P) (vmult (vdot Q r) Q)) by (apply plane_vector; try assumption; now rewrite W).
  assert (N : vdot P r * vdot P r + vdot Q r * vdot Q r = vnorm r * vnorm r).
  { rewrite vnorm_sq. set (a := vdot P r) in *. set (b := vdot Q r) in *.
    transitivity (a * a * vdot P P + b * b * vdot Q Q + 2 * (a * b) * vdot P Q).
    - rewrite PP, QQ, PQ. ring.
    - rewrite A. clearbody a b. unfold vdot, vplus, vmult. cbn [vx vy vz]. ring. }
  destruct (atan2_polar (sin i * vdot P r) (sin i * vdot Q r)) as [C S]. fold u in C, S.
  assert (E : sqrt (sin i * vdot P r * (sin i * vdot P r) + sin i * vdot Q r * (sin i * vdot Q r)) = sin i * vnorm r).
  { replace (sin i * vdot P r * (sin i * vdot P r) + sin i * vdot Q r * (sin i * vdot Q r))
      with ((sin i * vnorm r) * (sin i * vnorm r)).
    - apply sqrt_square. apply Rmult_le_pos; [lra|apply vnorm_nonneg].
    - transitivity (sin i * sin i * (vnorm r * vnorm r)); [ring|]. rewrite <- N. ring. }
  rewrite E in C, S.
  assert (C' : vdot P r = vnorm r * cos u) by (apply (Rmult_eq_reg_l (sin i)); lra).
  assert (S' : vdot Q r = vnorm r * sin u) by (apply (Rmult_eq_reg_l (sin i)); lra).
  rewrite A at 1. rewrite C', S'. replace u with (0 + u) at 3 by ring. rewrite <- frame_P_plus. fold P Q.
  unfold vplus, vmult. apply vec_eq; cbn [vx vy vz]; ring.
Qed.

(** The second position is a turn by the transfer angle further on. *)
Lemma turn p r1 r2 th i o u : non_collinear r1 r2 -> angle_facts p r1 r2 th ->
  frame_W i o = vmult (sense p r1 r2 / vnorm (vcross r1 r2)) (vcross r1 r2) ->
  r1 = vmult (vnorm r1) (frame_P i o u) ->
  r2 = vmult (vnorm r2) (frame_P i o (u + th)).
Proof.
  intros Hn F EW E1. destruct (norms_pos _ _ Hn) as [N1 N2].
  pose proof (af_dot _ _ _ _ F) as D. pose proof (af_sin_val _ _ _ _ Hn F) as S. pose proof (vnorm_pos _ Hn) as NC.
  rewrite <- frame_P_plus. set (P := frame_P i o u) in *. set (Q := frame_Q i o u) in *.
  assert (PP : vdot P P = 1) by apply frame_PP. assert (QQ : vdot Q Q = 1) by apply frame_QQ.
  assert (PQ : vdot P Q = 0) by apply frame_PQ. assert (W : vcross P Q = frame_W i o) by apply frame_cross.
  assert (A : r2 = vplus (vmult (vdot P r2) P) (vmult (vdot Q r2) Q)).
  { apply plane_vector; try assumption. rewrite W, EW, vdot_comm, vdot_mult_r, vdot_cross_r. ring. }
  assert (C : vdot P r2 = vnorm r2 * cos th).
  { apply (Rmult_eq_reg_l (vnorm r1)); [|lra]. rewrite <- vdot_mult_l, <- E1. lra. }
  assert (B : vdot Q r2 = vnorm r2 * sin th).
  { apply (Rmult_eq_reg_l (vnorm r1)); [|lra].
    transitivity (vdot (vcross (frame_W i o) r1) r2).
    - rewrite E1 at 2. rewrite <- W. rewrite <- (vcross_PQ_P P Q PP PQ) at 1.
      clear. set (n := vnorm r1). clearbody n P Q. unfold vdot, vcross, vmult. cbn [vx vy vz]. ring.
    - transitivity (vdot (frame_W i o) (vcross r1 r2)).
      + clear. set (W := frame_W i o). clearbody W. unfold vdot, vcross. cbn [vx vy vz]. ring.
      + rewrite EW, vdot_mult_l, <- vnorm_sq.
        transitivity (sense p r1 r2 * vnorm (vcross r1 r2)); [field; lra|]. lra. }
  rewrite A at 1. rewrite C, B. unfold vplus, vmult. apply vec_eq; cbn [vx vy vz]; ring.
Qed.

(** ** The model *)
Lemma geometry_F p r1 r2 : non_collinear r1 r2 -> exists th wc,
  @get_geometry XR (vfin r1) (vfin r2) p =
    Ok (@EccGeometry XR (Fin (vnorm r1)) (Fin (vnorm r2)) (Fin (chord r1 r2)) (Fin th) (Fin wc)) /\
  angle_facts p r1 r2 th /\ angle_facts p r1 (vminus r2 r1) wc.
Proof.
  intros Hn. destruct (transfer_angle r1 r2 p Hn) as (th & ET & F).
  assert (Hnc : non_collinear r1 (vminus r2 r1)) by (unfold non_collinear; rewrite chord_cross; exact Hn).
  destruct (transfer_angle r1 (vminus r2 r1) p Hnc) as (wc & EC & Fc).
  exists th, wc. split; [|auto]. unfold get_geometry. rewrite vsub_F, !norm_F, ET, EC.
  unfold assert_transfer_angle_not_zero.
  replace (@neqb XR (Fin th) (nofZ 0)) with false; [reflexivity|].
  symmetry. apply xeqb_Ff. pose proof (af_range _ _ _ _ F). lra.
Qed.

(** The conic of transverse eccentricity [eT]. *)
Definition fam_e (r1 r2 : rvec) (eT : R) : R :=
  let eF := (vnorm r1 - vnorm r2) / chord r1 r2 in sqrt (eT * eT + eF * eF).
Definition fam_p (r1 r2 : rvec) (th eT : R) : R :=
  let eF := (vnorm r1 - vnorm r2) / chord r1 r2 in
  (vnorm r1 + vnorm r2) / 2 * (1 - eF * eF) - eT * vnorm r1 * vnorm r2 * sin th / chord r1 r2.
Definition fam_w (r1 r2 : rvec) (wc eT : R) : R :=
  let eF := (vnorm r1 - vnorm r2) / chord r1 r2 in
  Ratan2 (eF * sin wc + eT * cos wc) (eF * cos wc - eT * sin wc).

Lemma eap_F r1 r2 th wc eT : 0 < chord r1 r2 -> exists a,
  @eap_from_eccT XR (Fin eT) (@EccGeometry XR (Fin (vnorm r1)) (Fin (vnorm r2)) (Fin (chord r1 r2)) (Fin th) (Fin wc))
  = (Fin (fam_e r1 r2 eT), a, Fin (fam_p r1 r2 th eT)).
Proof.
  intros Hc. eexists. unfold eap_from_eccT. cbn [eg_r1 eg_r2 eg_c eg_dtheta eg_wc].
  unfold get_eccF, get_aF, get_pF, ecc_at_eccT, p_at_eccT, sq. xunf. cbn [xadd xsub xmul xlift1 xlift2].
  rewrite !(xdiv_F _ (chord r1 r2)) by lra. rewrite (xdiv_F _ 2) by lra. cbn [xadd xsub xmul xlift1 xlift2].
  assert (S : forall a b, 0 <= a * a + b * b) by (intros; nra).
  rewrite xsqrt_F by apply S. reflexivity.
Qed.

Lemma w_F r1 r2 wc eT : 0 < chord r1 r2 ->
  @w_at_eccT XR (Fin eT) (@get_eccF XR (Fin (vnorm r1)) (Fin (vnorm r2)) (Fin (chord r1 r2))) (Fin wc)
  = Fin (fam_w r1 r2 wc eT).
Proof.
  intros Hc. unfold w_at_eccT, get_eccF. xunf. cbn [xadd xsub xmul xlift1 xlift2].
  rewrite !xdiv_F by lra. reflexivity.
Qed.

(** Elements at both ends; the argument of periapsis puts the first position at
    the latitude argument [u]. *)
Lemma coe_F p r1 r2 eT W : non_collinear r1 r2 ->
  @get_orbit_normal_vector XR (vfin r1) (vfin r2) p = vfin W ->
  exists th wc i o w,
    @get_geometry XR (vfin r1) (vfin r2) p =
      Ok (@EccGeometry XR (Fin (vnorm r1)) (Fin (vnorm r2)) (Fin (chord r1 r2)) (Fin th) (Fin wc)) /\
    angle_facts p r1 r2 th /\ angle_facts p r1 (vminus r2 r1) wc /\
    @get_orbit_inc_and_raan_from_position_vectors XR (vfin r1) (vfin r2) p = (Fin i, Fin o) /\
    let nu := - fam_w r1 r2 wc eT in
    @coe_at_eccT XR (Fin eT) (vfin r1) (vfin r2) p =
      Ok (Fin (fam_p r1 r2 th eT), Fin (fam_e r1 r2 eT), Fin i, Fin o, Fin w, Fin nu, Fin (nu + th)) /\
    let n := vcross (V3 0 0 1) W in
    let u := Ratan2 (vdot r1 (vcross W n)) (vdot r1 n) in
    cos (w + nu) = cos u /\ sin (w + nu) = sin u.
Proof.
  intros Hn EW. destruct (geometry_F p r1 r2 Hn) as (th & wc & EG & F & Fc).
  destruct (inc_raan_F r1 r2 p W Hn EW) as (i & o & EI & _).
  destruct (orbit_normal_unit r1 r2 p Hn) as (W' & EW' & NW & _). rewrite EW in EW'. apply vfin_inj in EW'. subst W'.
  pose proof (chord_pos _ _ Hn) as Hc. destruct (eap_F r1 r2 th wc eT Hc) as (a & EA).
  set (nu := - fam_w r1 r2 wc eT). set (n := vcross (V3 0 0 1) W). set (u := Ratan2 (vdot r1 (vcross W n)) (vdot r1 n)).
  exists th, wc, i, o, (u - nu - 2 * PI * Rfloor ((u - nu) / (2 * PI))).
  split; [assumption|]. split; [assumption|]. split; [assumption|]. split; [assumption|]. split.
  - unfold coe_at_eccT. rewrite EG. cbn [bind]. rewrite EA. cbn [eg_r1 eg_r2 eg_c eg_dtheta eg_wc].
    rewrite w_F by assumption. unfold get_true_anomalies. rewrite EW, EI.
    change (@V3 (@num XR) (@nofZ XR 0) (@nofZ XR 0) (@nofZ XR 1)) with (vfin (V3 0 0 1)).
    rewrite !cross_F, !dot_F, norm_F, NW. fold n. xunf. rewrite xdiv_F by lra.
    replace (vdot r1 (vcross W n) / 1) with (vdot r1 (vcross W n)) by field.
    cbn [xopp xadd xsub xlift1 xlift2]. fold u. fold nu.
    change (xmul (Fin 2) (Fin PI)) with (Fin (2 * PI)). pose proof PI_RGT_0. rewrite xmod_F by lra. reflexivity.
  - cbv zeta. destruct (mod_2pi_facts (u - nu)) as (C & S & _). cbv zeta in C, S.
    set (k := u - nu - _) in *.
    rewrite cos_plus, sin_plus, C, S, <- cos_plus, <- sin_plus.
    fold u nu. replace (u - nu + nu) with u by ring. auto.
Qed.

Lemma coe2rv_ok (k p ecc inc raan argp nu : xr) : exists r v, @coe2rv XR k p ecc inc raan argp nu = Ok (r, v).
Proof.
  unfold coe2rv. destruct (@rv_pqw XR k p ecc nu) as [r v]. unfold coe_rotation_matrix, rotation_matrix.
  cbn [Z.eqb Pos.eqb bind]. eexists _, _. reflexivity.
Qed.

Lemma coe2rv_nan_p (k ecc inc raan argp nu : xr) r v : @coe2rv XR k NaN ecc inc raan argp nu <> Ok (r, vfin v).
Proof.
  intros H. unfold coe2rv in H. unfold rv_pqw in H. unfold coe_rotation_matrix, rotation_matrix in H.
  cbn [Z.eqb Pos.eqb bind] in H.
  apply (f_equal (fun x => match x with Ok (_, b) => vx b | Err _ => NaN end)) in H. cbv beta iota in H.
  set (m := mmul _ _) in H. clearbody m. destruct m as [row b c]. destruct row as [a1 a2 a3].
  unfold mvmul, vmap, dot in H. cbn [vx vy vz] in H. xunf.
  destruct k as [k|], nu as [nu|], ecc as [ecc|], a1, a2, a3; cbn in H; discriminate.
Qed.

(** What the solver hands back, in terms of the conic. *)
Lemma ava_velocities_inv mu p r1 r2 (ecc_T : xr) v1 v2 W : 0 < mu -> non_collinear r1 r2 ->
  @get_orbit_normal_vector XR (vfin r1) (vfin r2) p = vfin W ->
  @ava_velocities XR (Fin mu) ecc_T (vfin r1) (vfin r2) p = Ok (vfin v1, vfin v2) ->
  exists eT th wc i o w, ecc_T = Fin eT /\
    @get_geometry XR (vfin r1) (vfin r2) p =
      Ok (@EccGeometry XR (Fin (vnorm r1)) (Fin (vnorm r2)) (Fin (chord r1 r2)) (Fin th) (Fin wc)) /\
    angle_facts p r1 r2 th /\ angle_facts p r1 (vminus r2 r1) wc /\
    @get_orbit_inc_and_raan_from_position_vectors XR (vfin r1) (vfin r2) p = (Fin i, Fin o) /\
    let q := fam_p r1 r2 th eT in let e := fam_e r1 r2 eT in let nu := - fam_w r1 r2 wc eT in
    0 < q /\ 0 < 1 + e * cos nu /\ 0 < 1 + e * cos (nu + th) /\
    vnorm r1 = q / (1 + e * cos nu) /\ vnorm r2 = q / (1 + e * cos (nu + th)) /\
    v1 = conic_velocity mu q e i o w nu /\ v2 = conic_velocity mu q e i o w (nu + th) /\
    let n := vcross (V3 0 0 1) W in
    let u := Ratan2 (vdot r1 (vcross W n)) (vdot r1 n) in
    cos (w + nu) = cos u /\ sin (w + nu) = sin u.
Proof.
  intros Hmu Hn EW H. unfold ava_velocities in H.
  destruct ecc_T as [eT|].
  2:{ exfalso. apply bind_ok in H. destruct H as ([[[[[[pp e] i] o] w] nu] nu2] & EC & H).
      apply bind_ok in H. destruct H as ([x1 y1] & E1 & H). apply bind_ok in H. destruct H as ([x2 y2] & E2 & H).
      apply Ok_inj in H. apply pair_equal_spec in H. destruct H as [-> ->].
      assert (pp = NaN).
      { unfold coe_at_eccT in EC. apply bind_ok in EC. destruct EC as (g & _ & EC).
        assert (EN : snd (@eap_from_eccT XR NaN g) = NaN).
        { unfold eap_from_eccT, p_at_eccT. cbn [snd]. xunf. clear. set (z := get_pF _ _). clearbody z. destruct z as [zz|]; [|reflexivity].
          destruct g as [[a|] [b|] [c|] [d|] f]; cbn; reflexivity. }
        destruct (@eap_from_eccT XR NaN g) as [[aa bb] cc]. cbn [snd] in EN. subst cc.
        destruct (get_true_anomalies _ _) as [a1 a2]. destruct (get_orbit_inc_and_raan_from_position_vectors _ _ _) as [b1 b2].
        apply Ok_inj in EC. congruence. }
      subst pp. eapply coe2rv_nan_p. exact E1. }
  destruct (coe_F p r1 r2 eT W Hn EW) as (th & wc & i & o & w & EG & F & Fc & EI & EC & U).
  cbv zeta in EC, U. rewrite EC in H. cbn [bind] in H.
  apply bind_ok in H. destruct H as ([x1 y1] & E1 & H). apply bind_ok in H. destruct H as ([x2 y2] & E2 & H).
  apply Ok_inj in H. apply pair_equal_spec in H. destruct H as [-> ->].
  apply coe2rv_velocity_inv in E1; [|assumption]. destruct E1 as (q & Eq & Hq & E1). injection Eq as <-.
  apply coe2rv_velocity_inv in E2; [|assumption]. destruct E2 as (q & Eq & _ & E2). injection Eq as <-.
  exists eT, th, wc, i, o, w. split; [reflexivity|]. split; [assumption|]. split; [assumption|]. split; [assumption|]. split; [assumption|]. cbv zeta.
  destruct (norms_pos _ _ Hn) as [N1 N2].
  pose proof (family_r1 p r1 r2 th wc Hn F Fc eT) as A1. pose proof (family_r2 p r1 r2 th wc Hn F Fc eT) as A2.
  fold (fam_e r1 r2 eT) in A1, A2. fold (fam_w r1 r2 wc eT) in A1, A2. cbv zeta in A1, A2.
  change (fam_p r1 r2 th eT = vnorm r1 * (1 + fam_e r1 r2 eT * cos (- fam_w r1 r2 wc eT))) in A1.
  change (fam_p r1 r2 th eT = vnorm r2 * (1 + fam_e r1 r2 eT * cos (- fam_w r1 r2 wc eT + th))) in A2.
  assert (P1 : 0 < 1 + fam_e r1 r2 eT * cos (- fam_w r1 r2 wc eT)) by (rewrite A1 in Hq; nra).
  assert (P2 : 0 < 1 + fam_e r1 r2 eT * cos (- fam_w r1 r2 wc eT + th)) by (rewrite A2 in Hq; nra).
  repeat split; try assumption; try tauto.
  - rewrite A1. field. lra.
  - rewrite A2. field. lra.
Qed.
