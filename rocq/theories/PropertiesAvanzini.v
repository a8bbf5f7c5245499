(** * avanzini2008: C33, C11, C12 and C32. *)
From Coq Require Import Reals ZArith String List Bool Lra Lia Psatz.
Import ListNotations.
From Verif Require Import Num XReal XRealLemmas MApi ApiFacts MScipy MLinalg MAssertions MAngles MKepler MElements MAvanzini MInit
  Loops Spec SpecElements VecFacts VecXR AnglesXR CallXR ElementsXR KeplerXR PropertiesAngles PropertiesMotion
  Godal GodalXR GodalPan OrbitXR PropertiesOrbit AvanziniXR PropertiesKepler.
Local Open Scope R_scope.

(** ** C33 *)

(** For every transverse eccentricity, the conic with the computed parameter,
    eccentricity and true anomalies has the right radius at both ends. *)
Theorem C33_conics_pass_through_both : forall r1 r2 prograde eT,
  non_collinear r1 r2 ->
  exists g p e a w nu1 nu2,
    @get_geometry XR (vfin r1) (vfin r2) prograde = Ok g /\
    @eap_from_eccT XR (Fin eT) g = (Fin e, a, Fin p) /\
    @w_at_eccT XR (Fin eT) (get_eccF (eg_r1 g) (eg_r2 g) (eg_c g)) (eg_wc g) = Fin w /\
    @get_true_anomalies XR (Fin w) (eg_dtheta g) = (Fin nu1, Fin nu2) /\
    p = vnorm r1 * (1 + e * cos nu1) /\ p = vnorm r2 * (1 + e * cos nu2) /\
    Fin (nu2 - nu1) = @get_transfer_angle XR (vfin r1) (vfin r2) prograde.
Proof.
  intros r1 r2 pr eT Hn. destruct (geometry_F pr r1 r2 Hn) as (th & wc & EG & F & Fc).
  pose proof (chord_pos _ _ Hn) as Hc. destruct (eap_F r1 r2 th wc eT Hc) as (a & EA).
  eexists _, (fam_p r1 r2 th eT), (fam_e r1 r2 eT), a, (fam_w r1 r2 wc eT), (- fam_w r1 r2 wc eT), (- fam_w r1 r2 wc eT + th).
  split; [exact EG|]. split; [exact EA|]. cbn [eg_r1 eg_r2 eg_c eg_dtheta eg_wc].
  split; [now apply w_F|]. split; [reflexivity|].
  split; [exact (family_r1 pr r1 r2 th wc Hn F Fc eT)|].
  split; [exact (family_r2 pr r1 r2 th wc Hn F Fc eT)|].
  unfold get_geometry in EG. destruct (assert_transfer_angle_not_zero _); [|discriminate]. cbn [bind] in EG.
  apply Ok_inj in EG. apply (f_equal (@eg_dtheta XR)) in EG. cbn [eg_dtheta] in EG. rewrite EG. f_equal. ring.
Qed.
Print Assumptions C33_conics_pass_through_both.

(** The half angle and the chord. *)
Section Limits.
Variables (p : bool) (r1 r2 : rvec) (th wc : R).
Hypotheses (Hn : non_collinear r1 r2) (F : angle_facts p r1 r2 th) (Fc : angle_facts p r1 (vminus r2 r1) wc).
Let n1 := vnorm r1. Let n2 := vnorm r2. Let c := chord r1 r2.
Let eF := (n1 - n2) / c.
Let S := sin (th / 2). Let C := cos (th / 2).

Lemma limits : 0 < n1 /\ 0 < n2 /\ 0 < c /\ 0 < S /\ S * S + C * C = 1 /\ C <> 0 /\
  c * c = (n1 - n2) * (n1 - n2) + 4 * (n1 * n2) * (S * S) /\ sin th = 2 * S * C /\
  c * c = (n1 + n2) * (n1 + n2) * (S * S) + (n1 - n2) * (n1 - n2) * (C * C).
Proof.
  destruct (chord_frame p r1 r2 th wc Hn F Fc) as (N1 & N2 & Hc & _ & _ & CC).
  fold n1 n2 c in N1, N2, Hc, CC.
  assert (E1 : S * S + C * C = 1) by (pose proof (sin2_cos2 (th / 2)) as Q; exact Q).
  assert (E2 : cos th = C * C - S * S) by (replace th with (2 * (th / 2)) by field; rewrite cos_2a; reflexivity).
  assert (E3 : sin th = 2 * S * C) by (replace th with (2 * (th / 2)) by field; rewrite sin_2a; reflexivity).
  pose proof (af_range _ _ _ _ F) as B. pose proof (af_half_sq _ _ _ _ F) as H2. pose proof (af_cos _ _ _ _ F) as H3.
  assert (HS : 0 < S) by (apply sin_gt_0; lra).
  split; [assumption|]. split; [assumption|]. split; [assumption|]. split; [assumption|]. split; [assumption|].
  split. { intros Z. fold C in H2. rewrite Z in H2. lra. }
  split. { rewrite CC, E2. replace (C * C) with (1 - S * S) by lra. ring. }
  split; [assumption|].
  rewrite CC, E2. transitivity (n1 * n1 * (S * S + C * C) + n2 * n2 * (S * S + C * C) - 2 * (n1 * n2) * (C * C - S * S)).
  - rewrite E1. ring.
  - ring.
Qed.

Let eP := 2 * sqrt (n1 * n2) * S / c.
Let B := (n1 + n2) * S / (c * C).

Lemma eP_facts : 0 < eP /\ 1 - eF * eF = eP * eP /\ sqrt (1 - eF * eF) = eP /\ eP < Rabs B.
Proof.
  destruct limits as (N1 & N2 & Hc & HS & E1 & HC & CC & _).
  assert (N : 0 < n1 * n2) by now apply Rmult_lt_0_compat. pose proof (sqrt_lt_R0 _ N) as Q.
  pose proof (sqrt_sqrt _ (Rlt_le _ _ N)) as QQ. set (q := sqrt (n1 * n2)) in *.
  assert (P : 0 < eP) by (unfold eP; apply Rdiv_lt_0_compat; [nra|assumption]).
  assert (E : 1 - eF * eF = eP * eP).
  { unfold eF, eP. transitivity ((c * c - (n1 - n2) * (n1 - n2)) / (c * c)); [field; lra|].
    rewrite CC at 1. replace (4 * (n1 * n2)) with (4 * (q * q)) by (rewrite QQ; ring). field. lra. }
  split; [assumption|]. split; [assumption|]. split. { rewrite E. apply sqrt_square. lra. }
  assert (A : 2 * q <= n1 + n2).
  { pose proof (sqrt_sqrt n1 (Rlt_le _ _ N1)) as S1. pose proof (sqrt_sqrt n2 (Rlt_le _ _ N2)) as S2.
    unfold q. rewrite sqrt_mult by lra. pose proof (Rle_0_sqr (sqrt n1 - sqrt n2)) as Z. unfold Rsqr in Z. lra. }
  assert (AC : 0 < Rabs C < 1).
  { split; [now apply Rabs_pos_lt|]. unfold Rabs. destruct (Rcase_abs C); nra. }
  unfold B. replace (Rabs ((n1 + n2) * S / (c * C))) with ((n1 + n2) * S / (c * Rabs C)).
  2:{ unfold Rdiv. rewrite !Rabs_mult, Rabs_inv, Rabs_mult. rewrite (Rabs_pos_eq (n1 + n2)), (Rabs_pos_eq S), (Rabs_pos_eq c) by lra. reflexivity. }
  unfold eP. apply (Rmult_lt_reg_r (c * Rabs C)); [nra|].
  replace (2 * q * S / c * (c * Rabs C)) with (2 * q * S * Rabs C) by (field; lra).
  replace ((n1 + n2) * S / (c * Rabs C) * (c * Rabs C)) with ((n1 + n2) * S) by (field; lra).
  assert (0 < 2 * q * S) by nra. nra.
Qed.

(** The parameter vanishes exactly at the transverse eccentricity [B]. *)
Lemma fam_p_B eT : fam_p r1 r2 th eT = 2 * n1 * n2 * S * C / c * (B - eT).
Proof.
  destruct limits as (N1 & N2 & Hc & HS & E1 & HC & CC & E3 & _).
  unfold fam_p. fold n1 n2 c. fold eF. destruct eP_facts as (_ & -> & _). rewrite E3.
  unfold B, eP. assert (N : 0 < n1 * n2) by now apply Rmult_lt_0_compat.
  pose proof (sqrt_sqrt _ (Rlt_le _ _ N)) as QQ. set (q := sqrt (n1 * n2)) in *.
  transitivity ((n1 + n2) / 2 * (4 * (q * q) * (S * S) / (c * c)) - eT * n1 * n2 * (2 * S * C) / c); [field; lra|].
  rewrite QQ. field. split; lra.
Qed.

(** The image of the change of variable. *)
Lemma eccT_range x : exists eT,
  @ava_eccT_at_x XR (@EccGeometry XR (Fin n1) (Fin n2) (Fin c) (Fin th) (Fin wc)) (Fin x) = Fin eT /\
  0 < fam_p r1 r2 th eT /\ eT < eP.
Proof.
  destruct limits as (N1 & N2 & Hc & HS & E1 & HC & CC & E3 & CC2).
  destruct eP_facts as (PP & PE & SE & PB).
  assert (N : 0 < n1 * n2) by now apply Rmult_lt_0_compat.
  pose proof (af_npi _ _ _ _ F) as Np. pose proof (af_range _ _ _ _ F) as Rg.
  assert (EFx : @get_eccF XR (Fin n1) (Fin n2) (Fin c) = Fin eF).
  { unfold get_eccF. xunf. cbn [xsub xlift2]. apply xdiv_F. lra. }
  unfold ava_eccT_at_x, ava_eccT_limits. cbn [eg_r1 eg_r2 eg_c eg_dtheta eg_wc]. rewrite EFx.
  assert (EPx : @nsqrt XR (@nsub XR (nofZ 1) (@sq XR (Fin eF))) = Fin eP).
  { unfold sq. xunf. cbn [xmul xsub xlift2]. rewrite PE. rewrite xsqrt_F by nra. f_equal. apply sqrt_square. lra. }
  rewrite EPx.
  assert (K : 0 < 2 * n1 * n2 * S / c).
  { apply Rdiv_lt_0_compat; [|assumption]. apply Rmult_lt_0_compat; [|assumption]. nra. }
  destruct (Rlt_dec PI th) as [L|L].
  - (* long way *)
    replace (@nltb XR npi (Fin th)) with true by (symmetry; apply xltb_F; exact L).
    assert (Cn : C < 0) by (apply cos_lt_0; lra).
    assert (BB : B < 0).
    { unfold B. replace ((n1 + n2) * S / (c * C)) with (- ((n1 + n2) * S / (c * - C))) by (field; lra).
      assert (0 < (n1 + n2) * S / (c * - C)) by (apply Rdiv_lt_0_compat; nra). lra. }
    rewrite Rabs_left in PB by assumption.
    assert (EH : @nsqrt XR (@nsub XR (@sq XR (@ndiv XR (@nopp XR (nofZ 1)) (@ncos XR (@ndiv XR (Fin th) (nofZ 2))))) (@sq XR (Fin eF))) = Fin (- B)).
    { unfold sq. xunf. rewrite (xdiv_F th 2) by lra. cbn [xopp xlift1]. rewrite xdiv_F by exact HC.
      cbn [xmul xsub xlift2]. fold C.
      assert (Z : - (1) / C * (- (1) / C) - eF * eF = B * B).
      { unfold eF, B. transitivity ((c * c - (n1 - n2) * (n1 - n2) * (C * C)) / (c * c * (C * C))); [field; split; lra|].
        rewrite CC2 at 1. field. split; lra. }
      rewrite Z, xsqrt_F by nra. f_equal. replace (B * B) with (- B * - B) by ring. apply sqrt_square. lra. }
    rewrite EH. set (H := - B) in *. assert (HH : 0 < H) by (unfold H; lra).
    xunf. rewrite !(xdiv_F 1) by lra. cbn [xmul xadd xlift2 xlift1 xsub].
    set (X := exp _). assert (HX : 0 < X) by apply exp_pos. clearbody X.
    assert (D : 0 < eP + H * X) by nra. rewrite xdiv_F by lra.
    eexists. split; [reflexivity|].
    assert (L1 : - H < eP * H * (X - 1) / (eP + H * X)).
    { apply (Rmult_lt_reg_r (eP + H * X)); [assumption|].
      replace (eP * H * (X - 1) / (eP + H * X) * (eP + H * X)) with (eP * H * (X - 1)) by (field; lra).
      assert (0 < H * X) by nra. assert (0 < H * H * X) by nra. assert (0 < eP * H * X) by nra. nra. }
    split.
    + rewrite fam_p_B. set (e := eP * H * (X - 1) / (eP + H * X)) in *. clearbody e.
      assert (L2 : B < e) by (unfold H in L1; lra).
      replace (2 * n1 * n2 * S * C / c) with (- (2 * n1 * n2 * S / c * - C)) by (field; lra).
      assert (0 < 2 * n1 * n2 * S / c * - C) by (apply Rmult_lt_0_compat; lra).
      replace (- (2 * n1 * n2 * S / c * - C) * (B - e)) with ((2 * n1 * n2 * S / c * - C) * (e - B)) by ring. apply Rmult_lt_0_compat; lra.
    + apply (Rmult_lt_reg_r (eP + H * X)); [assumption|].
      replace (eP * H * (X - 1) / (eP + H * X) * (eP + H * X)) with (eP * H * (X - 1)) by (field; lra).
      assert (0 < eP * H) by nra. assert (0 < eP * eP) by nra. clearbody eP H. nra.
  - (* short way *)
    replace (@nltb XR npi (Fin th)) with false by (symmetry; apply xltb_Ff; lra).
    assert (Cp : 0 < C) by (apply cos_gt_0; lra).
    assert (BB : 0 < B) by (unfold B; apply Rdiv_lt_0_compat; nra).
    rewrite Rabs_pos_eq in PB by lra.
    xunf. cbn [xopp xlift1]. rewrite xdiv_F by lra. cbn [xopp xsub xmul xlift1 xlift2].
    set (X := exp _). assert (HX : 0 < X) by apply exp_pos. clearbody X.
    eexists. split; [reflexivity|].
    assert (L1 : eP * (1 - X) < eP) by nra. split; [|assumption].
    rewrite fam_p_B. apply Rmult_lt_0_compat; [|lra].
    replace (2 * n1 * n2 * S * C / c) with (2 * n1 * n2 * S / c * C) by (field; lra). now apply Rmult_lt_0_compat.
Qed.
End Limits.

(** Every real value of the iteration variable stands for a genuine conic with
    both positions on the branch around the centre. *)
Theorem C33_change_of_variable : forall r1 r2 prograde x,
  non_collinear r1 r2 ->
  exists g eT e a p w nu1 nu2,
    @get_geometry XR (vfin r1) (vfin r2) prograde = Ok g /\
    @ava_eccT_at_x XR g (Fin x) = Fin eT /\
    @eap_from_eccT XR (Fin eT) g = (Fin e, a, Fin p) /\
    @w_at_eccT XR (Fin eT) (get_eccF (eg_r1 g) (eg_r2 g) (eg_c g)) (eg_wc g) = Fin w /\
    @get_true_anomalies XR (Fin w) (eg_dtheta g) = (Fin nu1, Fin nu2) /\
    0 < p /\ 0 < 1 + e * cos nu1 /\ 0 < 1 + e * cos nu2 /\
    vnorm r1 = p / (1 + e * cos nu1) /\ vnorm r2 = p / (1 + e * cos nu2).
Proof.
  intros r1 r2 pr x Hn. destruct (geometry_F pr r1 r2 Hn) as (th & wc & EG & F & Fc).
  destruct (eccT_range pr r1 r2 th wc Hn F Fc x) as (eT & ET & HP & _).
  pose proof (chord_pos _ _ Hn) as Hc. destruct (eap_F r1 r2 th wc eT Hc) as (a & EA).
  destruct (norms_pos _ _ Hn) as [N1 N2].
  eexists _, eT, (fam_e r1 r2 eT), a, (fam_p r1 r2 th eT), (fam_w r1 r2 wc eT), (- fam_w r1 r2 wc eT), (- fam_w r1 r2 wc eT + th).
  split; [exact EG|]. split; [exact ET|]. split; [exact EA|]. cbn [eg_r1 eg_r2 eg_c eg_dtheta eg_wc].
  split; [now apply w_F|]. split; [reflexivity|]. split; [assumption|].
  assert (A1 : fam_p r1 r2 th eT = vnorm r1 * (1 + fam_e r1 r2 eT * cos (- fam_w r1 r2 wc eT)))
    by exact (family_r1 pr r1 r2 th wc Hn F Fc eT).
  assert (A2 : fam_p r1 r2 th eT = vnorm r2 * (1 + fam_e r1 r2 eT * cos (- fam_w r1 r2 wc eT + th)))
    by exact (family_r2 pr r1 r2 th wc Hn F Fc eT).
  assert (P1 : 0 < 1 + fam_e r1 r2 eT * cos (- fam_w r1 r2 wc eT)) by (rewrite A1 in HP; nra).
  assert (P2 : 0 < 1 + fam_e r1 r2 eT * cos (- fam_w r1 r2 wc eT + th)) by (rewrite A2 in HP; nra).
  split; [assumption|]. split; [assumption|]. split.
  - rewrite A1. field. lra.
  - rewrite A2. field. lra.
Qed.
Print Assumptions C33_change_of_variable.

Example C33_case : non_collinear ex_r1 ex_r2i.
Proof. exact ex_non_collinear_i. Qed.

(** ** C11 and C12 outside the equatorial plane *)

Lemma avanzini_returns ev mu r1 r2 tof M p l mi a r f o v1 v2 :
  @avanzini2008 XR ev (call mu r1 r2 tof M p l mi a r f) = Ok o -> delivers o v1 v2 ->
  0 < mu /\ exists ecc_T, @ava_velocities XR (Fin mu) ecc_T (vfin r1) (vfin r2) p = Ok (vfin v1, vfin v2).
Proof.
  intros H D. unfold avanzini2008 in H. skip_check H. enter H. split; [assumption|].
  apply bind_ok in H. destruct H as (g & _ & H). apply bind_ok in H. destruct H as ([x n] & _ & H).
  apply tpi_inv in H. destruct H as (tpi & H & _).
  apply bind_ok in H. destruct H as ([w1 w2] & EV & H).
  assert (X : out_v1 o = w1 /\ out_v2 o = w2).
  { apply Ok_inj in H. subst o. destruct f; split; reflexivity. }
  destruct X as [X1 X2], D as [D1 D2]. rewrite X1 in D1. rewrite X2 in D2. subst w1 w2.
  eexists. exact EV.
Qed.

Definition equatorial (r1 r2 : rvec) : Prop := vx (vcross r1 r2) = 0 /\ vy (vcross r1 r2) = 0.

(** Outside the equatorial plane the velocities are those of the conic. *)
Lemma avanzini_conic mu p r1 r2 ecc_T v1 v2 : 0 < mu -> non_collinear r1 r2 -> ~ equatorial r1 r2 ->
  @ava_velocities XR (Fin mu) ecc_T (vfin r1) (vfin r2) p = Ok (vfin v1, vfin v2) ->
  exists eT th wc i o w, ecc_T = Fin eT /\
    @get_geometry XR (vfin r1) (vfin r2) p =
      Ok (@EccGeometry XR (Fin (vnorm r1)) (Fin (vnorm r2)) (Fin (chord r1 r2)) (Fin th) (Fin wc)) /\
    let q := fam_p r1 r2 th eT in let e := fam_e r1 r2 eT in let nu := - fam_w r1 r2 wc eT in
    0 < q /\ 0 < 1 + e * cos nu /\ 0 < 1 + e * cos (nu + th) /\
    r1 = conic_position q e i o w nu /\ r2 = conic_position q e i o w (nu + th) /\
    v1 = conic_velocity mu q e i o w nu /\ v2 = conic_velocity mu q e i o w (nu + th) /\
    frame_W i o = vmult (sense p r1 r2 / vnorm (vcross r1 r2)) (vcross r1 r2).
Proof.
  intros Hmu Hn Hne H. pose proof (orbit_normal_F r1 r2 p Hn) as EW. fold (sense p r1 r2) in EW.
  set (W := vmult _ _) in EW.
  destruct (ava_velocities_inv mu p r1 r2 ecc_T v1 v2 W Hmu Hn EW H)
    as (eT & th & wc & i & o & w & ET & EG & F & Fc & EI & Hq & P1 & P2 & R1 & R2 & E1 & E2 & U1 & U2).
  pose proof (vnorm_pos _ Hn) as NC.
  assert (SW : sense p r1 r2 / vnorm (vcross r1 r2) <> 0).
  { unfold Rdiv. apply Rmult_integral_contrapositive_currified; [|apply Rinv_neq_0_compat; lra].
    intros Z. pose proof (sense_sq p r1 r2) as Q. rewrite Z in Q. lra. }
  destruct (inc_raan_F r1 r2 p W Hn EW) as (i' & o' & EI' & Bi & _ & EN & _).
  rewrite EI in EI'. apply pair_equal_spec in EI'. destruct EI' as [Z1 Z2]. injection Z1 as <-. injection Z2 as <-.
  assert (NE : vx W <> 0 \/ vy W <> 0).
  { unfold W, vmult. cbn [vx vy]. unfold equatorial in Hne.
    destruct (Req_EM_T (vx (vcross r1 r2)) 0) as [X|X].
    - right. apply Rmult_integral_contrapositive_currified; [assumption|tauto].
    - left. now apply Rmult_integral_contrapositive_currified. }
  assert (EW2 : W = frame_W i o) by (apply EN; tauto).
  assert (Si : 0 < sin i).
  { assert (0 <= sin i) by (apply sin_ge_0; lra). destruct (Req_EM_T (sin i) 0) as [Z|Z]; [exfalso|lra].
    rewrite EW2 in NE. unfold frame_W in NE. cbn [vx vy] in NE. rewrite Z in NE. lra. }
  assert (WR : vdot (frame_W i o) r1 = 0).
  { rewrite <- EW2. unfold W. rewrite vdot_comm, vdot_mult_r, vdot_cross_l. ring. }
  pose proof (latitude i o r1 Si WR) as LA. cbv zeta in LA.
  set (n := vcross (V3 0 0 1) W) in *.
  assert (En : n = vmult (sin i) (frame_P i o 0)).
  { unfold n. rewrite EW2. unfold frame_W, frame_P, vcross, vmult. rewrite sin_0, cos_0. apply vec_eq; cbn [vx vy vz]; ring. }
  assert (EWn : vcross W n = vmult (sin i) (frame_Q i o 0)).
  { rewrite En, EW2. rewrite <- (vcross_PQ_P (frame_P i o 0) (frame_Q i o 0)) by (apply frame_PP || apply frame_PQ).
    rewrite frame_cross. set (a := frame_W i o). set (b := frame_P i o 0). clearbody a b.
    unfold vcross, vmult. apply vec_eq; cbn [vx vy vz]; ring. }
  rewrite EWn, En, !vdot_mult_r in U1, U2. rewrite (vdot_comm r1 (frame_Q i o 0)), (vdot_comm r1 (frame_P i o 0)) in U1, U2.
  set (u := Ratan2 _ _) in *.
  set (nu := - fam_w r1 r2 wc eT) in *. set (q := fam_p r1 r2 th eT) in *. set (e := fam_e r1 r2 eT) in *.
  assert (EP : frame_P i o u = frame_P i o (w + nu)) by (apply frame_P_ext; auto).
  rewrite EP in LA.
  pose proof (turn p r1 r2 th i o (w + nu) Hn F (eq_trans (eq_sym EW2) eq_refl) LA) as LB.
  exists eT, th, wc, i, o, w. split; [exact ET|]. split; [exact EG|]. cbv zeta. fold q e nu. repeat split; try assumption.
  - unfold conic_position. rewrite frame_P_plus, <- R1. exact LA.
  - unfold conic_position. rewrite frame_P_plus, <- R2. rewrite <- Rplus_assoc. exact LB.
  - rewrite <- EW2. reflexivity.
Qed.

Lemma avanzini_inclined mu p r1 r2 ecc_T v1 v2 : 0 < mu -> non_collinear r1 r2 -> ~ equatorial r1 r2 ->
  @ava_velocities XR (Fin mu) ecc_T (vfin r1) (vfin r2) p = Ok (vfin v1, vfin v2) ->
  exists q e i o w nu th, 0 < q /\ 0 < 1 + e * cos nu /\ 0 < 1 + e * cos (nu + th) /\
    r1 = conic_position q e i o w nu /\ r2 = conic_position q e i o w (nu + th) /\
    v1 = conic_velocity mu q e i o w nu /\ v2 = conic_velocity mu q e i o w (nu + th) /\
    frame_W i o = vmult (sense p r1 r2 / vnorm (vcross r1 r2)) (vcross r1 r2).
Proof.
  intros Hmu Hn Hne H. destruct (avanzini_conic _ _ _ _ _ _ _ Hmu Hn Hne H) as (eT & th & wc & i & o & w & _ & _ & A).
  exists (fam_p r1 r2 th eT), (fam_e r1 r2 eT), i, o, w, (- fam_w r1 r2 wc eT), th. exact A.
Qed.

Theorem C11_avanzini : forall ev mu r1 r2 tof M prograde low_path maxiter atol rtol full_output o v1 v2,
  non_collinear r1 r2 -> ~ equatorial r1 r2 ->
  @run XR Avanzini ev (call mu r1 r2 tof M prograde low_path maxiter atol rtol full_output) = Ok o ->
  delivers o v1 v2 ->
  same_orbit mu r1 v1 r2 v2.
Proof.
  intros ev mu r1 r2 tof M p l mi a r f o v1 v2 Hn Hne H D. cbn [run] in H.
  destruct (avanzini_returns _ _ _ _ _ _ _ _ _ _ _ _ _ _ _ H D) as (Hmu & ecc_T & EV).
  destruct (avanzini_inclined mu p r1 r2 ecc_T v1 v2 Hmu Hn Hne EV)
    as (q & e & i & om & w & nu & th & Hq & P1 & P2 & E1 & E2 & E3 & E4 & _).
  pose proof (frame_PP i om w) as PP. pose proof (frame_QQ i om w) as QQ. pose proof (frame_PQ i om w) as PQ.
  rewrite E1, E2, E3, E4. unfold same_orbit, conic_position, conic_velocity. split; [|split].
  - rewrite !conic_momentum; auto.
  - rewrite !conic_energy; auto.
  - rewrite !conic_ecc; auto.
Qed.
Print Assumptions C11_avanzini.

Theorem C12_avanzini : forall ev mu r1 r2 tof M prograde low_path maxiter atol rtol full_output o v1 v2,
  vz (vcross r1 r2) <> 0 -> ~ equatorial r1 r2 ->
  @run XR Avanzini ev (call mu r1 r2 tof M prograde low_path maxiter atol rtol full_output) = Ok o ->
  delivers o v1 v2 ->
  direction_honoured prograde r1 r2 v1.
Proof.
  intros ev mu r1 r2 tof M p l mi a r f o v1 v2 Hz Hne H D. cbn [run] in H.
  pose proof (vz_non_collinear _ _ Hz) as Hn.
  destruct (avanzini_returns _ _ _ _ _ _ _ _ _ _ _ _ _ _ _ H D) as (Hmu & ecc_T & EV).
  destruct (avanzini_inclined mu p r1 r2 ecc_T v1 v2 Hmu Hn Hne EV)
    as (q & e & i & om & w & nu & th & Hq & P1 & P2 & E1 & E2 & E3 & E4 & EW).
  pose proof (vnorm_pos _ Hn) as NC.
  assert (EM : momentum r1 v1 = vmult (sqrt (mu * q) * (sense p r1 r2 / vnorm (vcross r1 r2))) (vcross r1 r2)).
  { rewrite <- vmult_mult, <- EW. transitivity (momentum (conic_position q e i om w nu) (conic_velocity mu q e i om w nu)).
    - now rewrite <- E1, <- E3.
    - unfold conic_position, conic_velocity.
      rewrite conic_momentum by (assumption || apply frame_PP || apply frame_QQ || apply frame_PQ).
      now rewrite frame_cross. }
  assert (Hs : 0 < sqrt (mu * q)) by (apply sqrt_lt_R0; now apply Rmult_lt_0_compat).
  unfold direction_honoured, moves_as_requested. rewrite EM. split; [|split].
  - rewrite vdot_comm, vdot_mult_r, vdot_cross_l. ring.
  - rewrite vdot_comm, vdot_mult_r, vdot_cross_r. ring.
  - unfold vmult. cbn [vz]. unfold sense. destruct (short_way_dec p r1 r2) as [L|L]; unfold short_way in L.
    + assert (K : 0 < sqrt (mu * q) * (1 / vnorm (vcross r1 r2))) by (apply Rmult_lt_0_compat; [assumption|apply Rdiv_lt_0_compat; lra]).
      set (k := sqrt _ * _) in *. clearbody k. destruct p; nra.
    + assert (K : 0 < sqrt (mu * q) * (1 / vnorm (vcross r1 r2))) by (apply Rmult_lt_0_compat; [assumption|apply Rdiv_lt_0_compat; lra]).
      replace (-1 / vnorm (vcross r1 r2)) with (- (1 / vnorm (vcross r1 r2))) by (field; lra).
      set (k := 1 / _) in *. rewrite Ropp_mult_distr_r_reverse. set (k' := sqrt _ * _) in *. clearbody k'. destruct p; nra.
Qed.
Print Assumptions C12_avanzini.

(** ** A case in which the solver returns *)

Section QuarterTurn.
Variables (p : bool) (r1 r2 : rvec) (th wc : R).
Hypotheses (Hn : non_collinear r1 r2) (F : angle_facts p r1 r2 th) (Fc : angle_facts p r1 (vminus r2 r1) wc)
  (U1 : vnorm r1 = 1) (U2 : vnorm r2 = 1) (O : vdot r1 r2 = 0) (Hs : short_way p r1 r2).

Lemma quarter_angles : th = PI / 2 /\ 0 < wc < PI /\ cos wc < 0 /\ chord r1 r2 = sqrt 2.
Proof.
  pose proof PI_RGT_0 as HP.
  assert (Ec : chord r1 r2 = sqrt 2).
  { unfold chord, vnorm. f_equal. transitivity (vdot r2 r2 + vdot r1 r1 - 2 * vdot r1 r2).
    - unfold vdot, vminus. cbn [vx vy vz]. ring.
    - rewrite O, <- !vnorm_sq, U1, U2. ring. }
  pose proof (af_dot _ _ _ _ F) as D. rewrite O, U1, U2 in D.
  pose proof (af_range _ _ _ _ F) as B. pose proof (proj2 (af_pi _ _ _ _ F) Hs) as L.
  split. { destruct (Rtotal_order th (PI / 2)) as [Q|[Q|Q]]; [|assumption|].
    - assert (0 < cos th) by (apply cos_gt_0; lra). lra.
    - assert (cos th < 0) by (apply cos_lt_0; lra). lra. }
  assert (Hsc : short_way p r1 (vminus r2 r1)) by (unfold short_way in *; now rewrite chord_cross).
  pose proof (af_range _ _ _ _ Fc) as Bc. pose proof (proj2 (af_pi _ _ _ _ Fc) Hsc) as Lc.
  split; [lra|]. split; [|assumption].
  pose proof (af_dot _ _ _ _ Fc) as Dc. fold (chord r1 r2) in Dc. rewrite Ec, U1 in Dc.
  assert (E : vdot r1 (vminus r2 r1) = vdot r1 r2 - vdot r1 r1) by (unfold vdot, vminus; cbn [vx vy vz]; ring).
  rewrite E, O, <- vnorm_sq, U1 in Dc. assert (0 < sqrt 2) by (apply sqrt_lt_R0; lra). nra.
Qed.

Let G : ecc_geometry := @EccGeometry XR (Fin (vnorm r1)) (Fin (vnorm r2)) (Fin (chord r1 r2)) (Fin th) (Fin wc).

Lemma quarter_family eT : fam_e r1 r2 eT = Rabs eT /\ fam_p r1 r2 th eT = 1 - eT / sqrt 2 /\
  fam_w r1 r2 wc eT = Ratan2 (eT * cos wc) (- (eT * sin wc)) /\
  (-1 < eT < 1 -> @eap_from_eccT XR (Fin eT) G =
     (Fin (Rabs eT), Fin ((1 - eT / sqrt 2) / (1 - eT * eT)), Fin (1 - eT / sqrt 2))).
Proof.
  destruct quarter_angles as (-> & _ & _ & Ec). assert (0 < sqrt 2) by (apply sqrt_lt_R0; lra).
  assert (A : fam_e r1 r2 eT = Rabs eT).
  { unfold fam_e. rewrite U1, U2. replace ((1 - 1) / chord r1 r2) with 0 by (rewrite Ec; field; lra).
    replace (eT * eT + 0 * 0) with (eT ^ 2) by ring. rewrite <- Rsqr_pow2. apply sqrt_Rsqr_abs. }
  assert (B : fam_p r1 r2 (PI / 2) eT = 1 - eT / sqrt 2).
  { unfold fam_p. rewrite U1, U2, sin_PI2, Ec. field. lra. }
  split; [assumption|]. split; [assumption|]. split.
  - unfold fam_w. rewrite U1, U2. replace ((1 - 1) / chord r1 r2) with 0 by (rewrite Ec; field; lra).
    f_equal; ring.
  - intros HT. destruct (eap_F r1 r2 (PI / 2) wc eT) as (a & EA); [rewrite Ec; lra|]. unfold G. rewrite EA, A, B.
    f_equal. f_equal. unfold eap_from_eccT in EA. apply pair_equal_spec in EA. destruct EA as [EA EP].
    apply pair_equal_spec in EA. destruct EA as [_ EA]. rewrite EP, B in EA. rewrite <- EA.
    cbn [eg_r1 eg_r2 eg_c]. unfold a_at_eccT, get_eccF, sq. xunf. cbn [xsub xlift2].
    rewrite (xdiv_F _ (chord r1 r2)) by (rewrite Ec; lra). cbn [xmul xsub xlift2]. rewrite U1, U2.
    replace ((1 - 1) / chord r1 r2) with 0 by (rewrite Ec; field; lra).
    rewrite xdiv_F by nra. f_equal. f_equal. ring.
Qed.

Lemma quarter_time_circle : @kepler_tof_at_eccT XR (Fin 0) (Fin 1) G = Ok (Fin (PI / 2)).
Proof.
  destruct quarter_angles as (Et & _ & _ & Ec). destruct (quarter_family 0) as (_ & _ & EW & EA).
  assert (0 < sqrt 2) by (apply sqrt_lt_R0; lra). pose proof PI_RGT_0 as HP.
  unfold kepler_tof_at_eccT. rewrite EA by lra. unfold G at 1 2 3 4 5. cbn [eg_r1 eg_r2 eg_c eg_wc eg_dtheta].
  rewrite w_F by (rewrite Ec; lra). rewrite EW, Rabs_R0, Et.
  replace (Ratan2 (0 * cos wc) (- (0 * sin wc))) with 0.
  2:{ rewrite !Rmult_0_l, Ropp_0. unfold Ratan2. destruct (Rlt_dec 0 0); lra. }
  replace ((1 - 0 / sqrt 2) / (1 - 0 * 0)) with 1 by (field; lra).
  unfold get_true_anomalies. xunf. cbn [xopp xadd xlift1 xlift2].
  replace (- 0 + PI / 2) with (PI / 2) by ring. rewrite Ropp_0.
  assert (K1 : kE 0 = 1) by (unfold kE; replace ((1 - 0) / (1 + 0)) with 1 by field; apply sqrt_1).
  rewrite mean_F by (lra || (split; [lra|rewrite cos_0; lra])). cbn [bind].
  rewrite mean_F by (lra || (split; [lra|rewrite cos_PI2; lra])). cbn [bind].
  unfold meanF. destruct (Rlt_dec 0 1) as [X|X]; [clear X|exfalso; lra]. cbv zeta. rewrite K1, !Rmult_1_l.
  rewrite two_atan_tan by lra. rewrite two_atan_tan by lra. rewrite sin_0, sin_PI2.
  replace (xleb (Fin 0) (Fin 0)) with true by (symmetry; apply xleb_F; lra).
  replace (xltb (Fin 0) (Fin 1)) with true by (symmetry; apply xltb_F; lra). cbn [andb].
  unfold cube. xunf. cbn [xmul xlift2]. rewrite (xdiv_F (1 * 1 * 1) 1) by lra.
  replace (1 * 1 * 1 / 1) with 1 by field. rewrite xsqrt_F by lra. rewrite sqrt_1. cbn [xmul xsub xlift2].
  replace (xltb _ _) with false by (symmetry; apply xltb_Ff; lra). do 2 f_equal. lra.
Qed.

Lemma quarter_time_near eT : 0 < eT < 1 -> exists T, 0 < T /\ @kepler_tof_at_eccT XR (Fin eT) (Fin 1) G = Ok (Fin T).
Proof.
  intros HT. destruct quarter_angles as (Et & Bw & Cw & Ec). destruct (quarter_family eT) as (_ & _ & EW & EA).
  assert (S2 : 1 < sqrt 2) by (rewrite <- sqrt_1 at 1; apply sqrt_lt_1; lra). pose proof PI_RGT_0 as HP.
  unfold kepler_tof_at_eccT. rewrite EA by lra. unfold G at 1 2 3 4 5. cbn [eg_r1 eg_r2 eg_c eg_wc eg_dtheta].
  rewrite w_F by (rewrite Ec; lra). rewrite EW, (Rabs_pos_eq eT), Et by lra.
  set (a := (1 - eT / sqrt 2) / (1 - eT * eT)).
  assert (Pa : 0 < a).
  { unfold a. apply Rdiv_lt_0_compat; [|nra].
    assert (eT / sqrt 2 < 1); [|lra]. apply (Rmult_lt_reg_r (sqrt 2)); [lra|].
    replace (eT / sqrt 2 * sqrt 2) with eT by (field; lra). lra. }
  clearbody a.
  set (w := Ratan2 _ _).
  assert (Bn : - PI < w < - (PI / 2)).
  { assert (Sw : 0 < sin wc) by (apply sin_gt_0; lra). unfold w, Ratan2.
    destruct (Rlt_dec 0 (- (eT * sin wc))) as [X|X]; [nra|]. destruct (Rlt_dec (- (eT * sin wc)) 0) as [Y|Y]; [|nra].
    destruct (Rle_dec 0 (eT * cos wc)) as [Z|Z]; [nra|].
    assert (Q : 0 < eT * cos wc / - (eT * sin wc)).
    { replace (eT * cos wc / - (eT * sin wc)) with ((eT * - cos wc) / (eT * sin wc)) by (field; nra). apply Rdiv_lt_0_compat; nra. }
    pose proof (atan_increasing _ _ Q) as I. rewrite atan_0 in I. pose proof (atan_bound (eT * cos wc / - (eT * sin wc))). lra. }
  clearbody w. unfold get_true_anomalies. xunf. cbn [xopp xadd xlift1 xlift2].
  assert (K : forall nu, cos (nu / 2) <> 0 -> @kepler_from_nu XR (Fin nu) (Fin eT) =
     Ok (Fin (2 * atan (kE eT * tan (nu / 2)) - eT * sin (2 * atan (kE eT * tan (nu / 2)))))).
  { intros nu Hc. unfold kepler_from_nu.
    replace (@nltb XR (Fin eT) (nofZ 0)) with false by (symmetry; apply xltb_Ff; lra).
    replace (@nleb XR (nofZ 0) (Fin eT)) with true by (symmetry; apply xleb_F; lra).
    replace (@nltb XR (Fin eT) (nofZ 1)) with true by (symmetry; apply xltb_F; lra). cbn [andb].
    rewrite nu_to_E_F by (assumption || lra). unfold kepler_elliptic. reflexivity. }
  destruct (kE_pos eT) as (KP & _ & _); [lra|].
  set (nu1 := - w). set (nu2 := nu1 + PI / 2). assert (B1 : PI / 2 < nu1 < PI) by (unfold nu1; lra).
  assert (C1 : 0 < cos (nu1 / 2)) by (apply cos_gt_0; lra).
  assert (C2 : cos (nu2 / 2) < 0) by (apply cos_lt_0; unfold nu2; lra).
  rewrite (K nu1) by lra. cbn [bind]. rewrite (K nu2) by lra. cbn [bind].
  assert (T1 : 0 < tan (nu1 / 2)) by (apply tan_gt_0; lra).
  assert (T2 : tan (nu2 / 2) < 0).
  { unfold tan. assert (0 < sin (nu2 / 2)) by (apply sin_gt_0; unfold nu2; lra).
    apply Ropp_lt_cancel. rewrite Ropp_0. replace (- (sin (nu2 / 2) / cos (nu2 / 2))) with (sin (nu2 / 2) / - cos (nu2 / 2)) by (field; lra).
    apply Rdiv_lt_0_compat; lra. }
  set (E1 := 2 * atan (kE eT * tan (nu1 / 2))). set (E2 := 2 * atan (kE eT * tan (nu2 / 2))).
  assert (X1 : 0 < E1 < PI).
  { unfold E1. pose proof (atan_bounds (kE eT * tan (nu1 / 2))). assert (Q : 0 < kE eT * tan (nu1 / 2)) by nra.
    pose proof (atan_increasing _ _ Q) as I. rewrite atan_0 in I. lra. }
  assert (X2 : - PI < E2 < 0).
  { unfold E2. pose proof (atan_bounds (kE eT * tan (nu2 / 2))). assert (Q : kE eT * tan (nu2 / 2) < 0) by nra.
    pose proof (atan_increasing _ _ Q) as I. rewrite atan_0 in I. lra. }
  pose proof (ell_incr eT 0 E1 ltac:(lra) ltac:(lra)) as M1. pose proof (ell_incr eT E1 PI ltac:(lra) ltac:(lra)) as M1'.
  pose proof (ell_incr eT E2 0 ltac:(lra) ltac:(lra)) as M2. pose proof (ell_incr eT (- PI) E2 ltac:(lra) ltac:(lra)) as M2'.
  rewrite sin_0 in M1, M2. rewrite sin_PI in M1'. rewrite sin_neg, sin_PI in M2'.
  set (m1 := E1 - eT * sin E1) in *. set (m2 := E2 - eT * sin E2) in *. clearbody m1 m2.
  replace (xleb (Fin 0) (Fin eT)) with true by (symmetry; apply xleb_F; lra).
  replace (xltb (Fin eT) (Fin 1)) with true by (symmetry; apply xltb_F; lra). cbn [andb].
  assert (A3 : 0 < a * a * a) by (apply Rmult_lt_0_compat; nra).
  unfold cube. xunf. cbn [xmul xlift2]. rewrite (xdiv_F (a * a * a) 1) by lra.
  replace (a * a * a / 1) with (a * a * a) by field. rewrite xsqrt_F by lra.
  pose proof (sqrt_lt_R0 _ A3) as Sa. set (s := sqrt _) in *. clearbody s. cbn [xmul xsub xadd xlift2].
  replace (xltb _ _) with true by (symmetry; apply xltb_F; nra).
  eexists. split; [|reflexivity]. nra.
Qed.
End QuarterTurn.

(** The secant search when the first of its starting points is a root. *)
Lemma secant_root f atol rtol y n :
  f (Fin 0) = Ok (Fin 0) -> f (Fin (/ 10000)) = Ok (Fin y) -> 0 < atol -> 0 < rtol -> (2 <= n)%Z ->
  exists x i, (1 <= i)%Z /\ 0 <= x <= / 10000 /\ @ava_secant XR f (Fin 0) n (Fin atol) (Fin rtol) = Ok (Fin x, i).
Proof.
  intros F0 F1 Ha Hr Hn'. unfold ava_secant. rewrite F0. cbn [bind].
  replace (@nleb XR (nofZ 0) (Fin 0)) with true by (symmetry; apply xleb_F; lra).
  assert (E1 : @nadd XR (Fin 0) (nlit 1 10000) = Fin (/ 10000)) by (cbn; f_equal; lra).
  rewrite E1, F1. cbn [bind].
  assert (EN : exists k, Z.to_nat n = S (S k)). { exists (Z.to_nat (n - 2)). lia. } destruct EN as (k & ->).
  cbn [for_range]. unfold ava_secant_body at 1.
  destruct (Req_EM_T y 0) as [->|Hy].
  - replace (@neqb XR (Fin 0) (Fin 0)) with true by (symmetry; now apply xeqb_F).
    eexists _, 1%Z. split; [lia|]. split; [|reflexivity]. lra.
  - replace (@neqb XR (Fin y) (Fin 0)) with false by (symmetry; now apply xeqb_Ff).
    xunf. cbn [xmul xsub xlift2]. rewrite xdiv_F by lra. cbn [xsub xlift2].
    replace (/ 10000 - y * (/ 10000 - 0) / (y - 0)) with 0 by (field; lra).
    destruct (xleb _ _).
    + eexists _, 1%Z. split; [lia|]. split; [|reflexivity]. lra.
    + rewrite F0. unfold ava_secant_body.
      replace (@neqb XR (Fin 0) (Fin y)) with false by (symmetry; apply xeqb_Ff; lra).
      xunf. cbn [xmul xsub xlift2]. rewrite xdiv_F by lra. cbn [xsub xlift2].
      replace (0 - 0 * (0 - / 10000) / (0 - y)) with 0 by (field; lra).
      replace (xleb _ _) with true.
      2:{ symmetry. cbn [xlift1 xsub xmul xadd xlift2]. apply xleb_F. rewrite Rminus_0_r, Rabs_R0. lra. }
      eexists _, 2%Z. split; [lia|]. split; [|reflexivity]. lra.
Qed.

(** Any unit quarter turn flown the short way in the time of the circular orbit. *)
Lemma avanzini_quarter ev p r1 r2 l n atol rtol : vnorm r1 = 1 -> vnorm r2 = 1 -> vdot r1 r2 = 0 ->
  short_way p r1 r2 -> vz (vcross r1 r2) <> 0 -> 0 < atol -> 0 < rtol -> (2 <= n)%Z ->
  exists v1 v2, @run XR Avanzini ev (call 1 r1 r2 (PI / 2) 0 p l n atol rtol false) = Ok (Pair (vfin v1) (vfin v2)) /\
    energy 1 r1 v1 < 0.
Proof.
  intros U1 U2 O Hs Hz Ha Hr Hn'. pose proof (vz_non_collinear _ _ Hz) as Hn.
  destruct (geometry_F p r1 r2 Hn) as (th & wc & EG & F & Fc).
  pose proof (quarter_time_circle p r1 r2 th wc F Fc U1 U2 O Hs) as T0.
  assert (HV : valid_input 1 r1 r2 (PI / 2) 0).
  { pose proof PI_RGT_0. destruct (norms_pos _ _ Hn). unfold valid_input. repeat split; try lra; try lia.
    - intros ->. apply Hz. unfold vcross, vzero. cbn [vx vy vz]. ring.
    - intros ->. apply Hz. unfold vcross. cbn [vx vy vz]. ring. }
  cbn [run]. unfold avanzini2008. cbn [call a_M Z.ltb Z.compare raise_if bind].
  rewrite validated_call_ok by assumption. cbn [call a_is_prograde a_mu a_tof a_maxiter a_atol a_rtol a_full_output].
  rewrite EG. cbn [bind]. set (G := @EccGeometry XR _ _ _ _ _) in *.
  assert (Es : forall x, 0 < x -> @nsqrt XR (Fin x) = Fin (sqrt x)) by (intros; apply xsqrt_F; lra).
  assert (Hf : forall x eT T, @ava_eccT_at_x XR G (Fin x) = Fin eT -> 0 < T ->
     @kepler_tof_at_eccT XR (Fin eT) (Fin 1) G = Ok (Fin T) ->
     @ava_f XR (Fin x) (@ava_eccT_at_x XR G) (Fin 1) G (Fin (PI / 2)) = Ok (Fin (ln T - ln (PI / 2)))).
  { intros x eT T EE HT EK. unfold ava_f. rewrite EE, EK. cbn [bind]. unfold G. cbn [eg_r1]. rewrite U1.
    unfold cube. xunf. cbn [xmul xlift2]. rewrite (xdiv_F (1 * 1 * 1) 1) by lra.
    replace (1 * 1 * 1 / 1) with 1 by field. rewrite xsqrt_F by lra. rewrite sqrt_1, !xdiv_F by lra.
    unfold Rdiv at 1. rewrite Rinv_1, Rmult_1_r. replace (PI / 2 / 1) with (PI / 2) by field.
    pose proof PI_RGT_0. unfold xln, xpart1. cbv beta iota. destruct (Rlt_dec 0 T) as [X|X]; [clear X|contradiction].
    destruct (Rlt_dec 0 (PI / 2)) as [X|X]; [reflexivity|exfalso; lra]. }
  assert (EX : forall x, @ava_eccT_at_x XR G (Fin x) = Fin (1 - exp (- x))).
  { intros x. destruct (quarter_angles p r1 r2 th wc F Fc U1 U2 O Hs) as (Et & _ & _ & Ec).
    assert (0 < sqrt 2) by (apply sqrt_lt_R0; lra). pose proof PI_RGT_0.
    unfold ava_eccT_at_x, ava_eccT_limits, G. cbn [eg_r1 eg_r2 eg_c eg_dtheta].
    replace (@nltb XR npi (Fin th)) with false by (symmetry; apply xltb_Ff; lra).
    unfold get_eccF, sq. xunf. rewrite U1, U2, Ec. cbn [xsub xlift2]. rewrite !(xdiv_F (1 - 1)) by lra.
    replace ((1 - 1) / sqrt 2) with 0 by (field; lra). cbn [xmul xsub xlift2]. rewrite xsqrt_F by lra.
    replace (1 - 0 * 0) with 1 by ring. rewrite sqrt_1. cbn [xopp xlift1]. rewrite xdiv_F by lra.
    cbn [xlift1 xsub xmul xlift2]. f_equal. replace (- x / 1) with (- x) by field. ring. }
  pose proof PI_RGT_0 as HP.
  destruct (quarter_time_near p r1 r2 th wc F Fc U1 U2 O Hs (1 - exp (- / 10000))) as (T1 & P1 & K1).
  { assert (exp (- / 10000) < 1) by (rewrite <- exp_0; apply exp_increasing; lra). pose proof (exp_pos (- / 10000)). lra. }
  destruct (secant_root (fun x => @ava_f XR x (@ava_eccT_at_x XR G) (Fin 1) G (Fin (PI / 2))) atol rtol (ln T1 - ln (PI / 2)) n) as (x & i & Hi & Hx & EQ); try assumption.
  { cbv beta. rewrite (Hf 0 0 (PI / 2)); [do 2 f_equal; ring| |lra|exact T0].
    rewrite EX, Ropp_0, exp_0. f_equal. ring. }
  { cbv beta. apply (Hf (/ 10000) (1 - exp (- / 10000)) T1); [apply EX|assumption|exact K1]. }
  match goal with |- context [@ava_secant XR ?g ?z ?k ?u ?v] =>
    assert (EQ' : @ava_secant XR g z k u v = Ok (Fin x, i)) by exact EQ end.
  rewrite EQ'. clear EQ'. cbn [bind].
  unfold time_per_iteration. cbn [bind]. 
  destruct (eccT_range p r1 r2 th wc Hn F Fc x) as (eT & ET & Pp & _).
  assert (E1 : fam_e r1 r2 eT * fam_e r1 r2 eT < 1).
  { pose proof (EX x) as XE. unfold G in XE. rewrite ET in XE. injection XE as XE.
    destruct (quarter_family p r1 r2 th wc F Fc U1 U2 O Hs eT) as (-> & _).
    assert (0 < exp (- x) <= 1) by (split; [apply exp_pos|rewrite <- exp_0; destruct (Req_dec x 0) as [->|Z]; [rewrite Ropp_0; lra|left; apply exp_increasing; lra]]).
    rewrite <- Rabs_mult, Rabs_pos_eq; nra. }
  unfold G. rewrite ET. clear EQ Hf EX K1 T0.
  pose proof (orbit_normal_F r1 r2 p Hn) as EW. set (W := vmult _ _) in EW.
  destruct (coe_F p r1 r2 eT W Hn EW) as (th' & wc' & ii & oo & w & _ & F' & Fc' & EI & EC & _). cbv zeta in EC.
  destruct (norms_pos _ _ Hn) as [N1 N2].
  assert (Pp' : 0 < fam_p r1 r2 th' eT).
  { assert (S : sin th' = sin th).
    { pose proof (af_sin_val _ _ _ _ Hn F) as S1. pose proof (af_sin_val _ _ _ _ Hn F') as S2. rewrite U1, U2 in S1, S2. lra. }
    unfold fam_p in *. now rewrite S. }
  assert (A1 : fam_p r1 r2 th' eT = vnorm r1 * (1 + fam_e r1 r2 eT * cos (- fam_w r1 r2 wc' eT)))
    by exact (family_r1 p r1 r2 th' wc' Hn F' Fc' eT).
  assert (A2 : fam_p r1 r2 th' eT = vnorm r2 * (1 + fam_e r1 r2 eT * cos (- fam_w r1 r2 wc' eT + th')))
    by exact (family_r2 p r1 r2 th' wc' Hn F' Fc' eT).
  unfold ava_velocities. rewrite EC. cbn [bind].
  rewrite coe2rv_F; [|lra|assumption|rewrite A1, U1 in Pp'; lra]. cbn [bind].
  rewrite coe2rv_F; [|lra|assumption|rewrite A2, U2 in Pp'; lra]. cbn [bind]. unfold mk_out. eexists _, _. split; [reflexivity|].
  unfold energy, conic_velocity. rewrite U1 in *. rewrite Rmult_1_l in A1.
  rewrite conic_vv by first [assumption|apply frame_PP|apply frame_QQ|apply frame_PQ|lra].
  set (q := fam_p r1 r2 th' eT) in *. set (e := fam_e r1 r2 eT) in *. set (cn := cos (- fam_w r1 r2 wc' eT)) in *. clearbody q e cn.
  replace (1 / q * (1 + 2 * e * cn + e * e) / 2 - 1 / 1) with (- ((1 - e * e) / (2 * q))) by (subst q; field; lra).
  apply Ropp_lt_gt_0_contravar, Rdiv_lt_0_compat; lra.
Qed.

Definition ex_r2c : rvec := V3 0 (3 / 5) (4 / 5).

Lemma ex_r2c_facts : vnorm ex_r1 = 1 /\ vnorm ex_r2c = 1 /\ vdot ex_r1 ex_r2c = 0 /\ 0 < vz (vcross ex_r1 ex_r2c) /\
  ~ equatorial ex_r1 ex_r2c.
Proof.
  unfold equatorial, ex_r1, ex_r2c, vnorm, vdot, vcross. cbn [vx vy vz].
  replace (1 * 1 + 0 * 0 + 0 * 0) with 1 by ring. replace (0 * 0 + 3 / 5 * (3 / 5) + 4 / 5 * (4 / 5)) with 1 by field.
  rewrite sqrt_1. repeat split; try lra.
Qed.

(** Hypotheses of [C11_avanzini] and [C12_avanzini] met by an actual return. *)
Example C11_avanzini_case : forall ev, non_collinear ex_r1 ex_r2c /\ vz (vcross ex_r1 ex_r2c) <> 0 /\
  ~ equatorial ex_r1 ex_r2c /\ exists o v1 v2,
  @run XR Avanzini ev (call 1 ex_r1 ex_r2c (PI / 2) 0 true true 35 (1 / 100000) (1 / 10000000) false) = Ok o /\ delivers o v1 v2.
Proof.
  intros ev. destruct ex_r2c_facts as (A & B & C & D & E).
  split; [apply vz_non_collinear; lra|]. split; [lra|]. split; [assumption|].
  destruct (avanzini_quarter ev true ex_r1 ex_r2c true 35 (1 / 100000) (1 / 10000000)) as (v1 & v2 & H & _); try assumption; try lra; try lia.
  eexists _, v1, v2. split; [exact H|]. split; reflexivity.
Qed.

(** ** C32 *)

(** In the equatorial plane the velocities returned are those of the transfer
    from [(|r1|, 0, 0)] counter-clockwise through the transfer angle, wherever
    [r1] points and whichever direction was requested. *)
Theorem C32_equatorial : forall ev mu r1 r2 tof M prograde low_path maxiter atol rtol full_output o v1 v2 theta,
  non_collinear r1 r2 -> vz r1 = 0 -> vz r2 = 0 ->
  @get_transfer_angle XR (vfin r1) (vfin r2) prograde = Fin theta ->
  @run XR Avanzini ev (call mu r1 r2 tof M prograde low_path maxiter atol rtol full_output) = Ok o ->
  delivers o v1 v2 ->
  same_orbit mu (V3 (vnorm r1) 0 0) v1 (V3 (vnorm r2 * cos theta) (vnorm r2 * sin theta) 0) v2 /\
  0 < vy v1 /\ vz v1 = 0.
Proof.
  intros ev mu r1 r2 tof M p l mi a r f o v1 v2 theta Hn Z1 Z2 HT H D. cbn [run] in H.
  destruct (avanzini_returns _ _ _ _ _ _ _ _ _ _ _ _ _ _ _ H D) as (Hmu & ecc_T & EV).
  pose proof (orbit_normal_F r1 r2 p Hn) as EW. fold (sense p r1 r2) in EW. set (W := vmult _ _) in EW.
  destruct (ava_velocities_inv mu p r1 r2 ecc_T v1 v2 W Hmu Hn EW EV)
    as (eT & th & wc & i & om & w & _ & _ & F & Fc & EI & Hq & P1 & P2 & R1 & R2 & E1 & E2 & U1 & U2).
  destruct (inc_raan_F r1 r2 p W Hn EW) as (i' & o' & EI' & _ & _ & _ & EQ).
  rewrite EI in EI'. apply pair_equal_spec in EI'. destruct EI' as [Y1 Y2]. injection Y1 as <-. injection Y2 as <-.
  assert (WX : vx W = 0) by (unfold W, vmult, vcross; cbn [vx vy vz]; rewrite Z1, Z2; ring).
  assert (WY : vy W = 0) by (unfold W, vmult, vcross; cbn [vx vy vz]; rewrite Z1, Z2; ring).
  destruct (EQ WX WY) as [-> ->].
  replace (vdot r1 (vcross W (vcross (V3 0 0 1) W))) with 0 in U1, U2
    by (unfold vdot, vcross; cbn [vx vy vz]; rewrite WX, WY, Z1; ring).
  replace (vdot r1 (vcross (V3 0 0 1) W)) with 0 in U1, U2
    by (unfold vdot, vcross; cbn [vx vy vz]; rewrite WX, WY, Z1; ring).
  assert (A0 : Ratan2 0 0 = 0) by (unfold Ratan2; destruct (Rlt_dec 0 0); lra).
  rewrite A0, cos_0 in U1. rewrite A0, sin_0 in U2.
  destruct (transfer_angle r1 r2 p Hn) as (th' & ET & F'). rewrite HT in ET. injection ET as <-.
  destruct (norms_pos _ _ Hn) as [N1 N2].
  assert (Sth : sin th = sin theta).
  { pose proof (af_sin_val _ _ _ _ Hn F) as S1. pose proof (af_sin_val _ _ _ _ Hn F') as S2. 
    apply (Rmult_eq_reg_l (vnorm r1 * vnorm r2)); [lra|nra]. }
  assert (Cth : cos th = cos theta).
  { pose proof (af_dot _ _ _ _ F) as S1. pose proof (af_dot _ _ _ _ F') as S2.
    apply (Rmult_eq_reg_l (vnorm r1 * vnorm r2)); [lra|nra]. }
  set (nu := - fam_w r1 r2 wc eT) in *. set (q := fam_p r1 r2 th eT) in *. set (e := fam_e r1 r2 eT) in *.
  assert (X1 : V3 (vnorm r1) 0 0 = conic_position q e 0 0 w nu).
  { unfold conic_position. rewrite frame_P_plus, <- R1. unfold frame_P. rewrite U1, U2, sin_0, cos_0.
    unfold vmult. apply vec_eq; cbn [vx vy vz]; ring. }
  assert (X2 : V3 (vnorm r2 * cos theta) (vnorm r2 * sin theta) 0 = conic_position q e 0 0 w (nu + th)).
  { unfold conic_position. rewrite frame_P_plus, <- R2, <- Rplus_assoc. unfold frame_P. rewrite (cos_plus (w + nu)), (sin_plus (w + nu)), U1, U2, sin_0, cos_0, <- Sth, <- Cth.
    unfold vmult. apply vec_eq; cbn [vx vy vz]; ring. }
  pose proof (frame_PP 0 0 w) as PP. pose proof (frame_QQ 0 0 w) as QQ. pose proof (frame_PQ 0 0 w) as PQ.
  split.
  - rewrite X1, X2, E1, E2. unfold same_orbit, conic_position, conic_velocity. split; [|split].
    + rewrite !conic_momentum; auto.
    + rewrite !conic_energy; auto.
    + rewrite !conic_ecc; auto.
  - rewrite E1. unfold conic_velocity, frame_P, frame_Q, vmult, vplus. cbn [vx vy vz]. rewrite sin_0, cos_0.
    rewrite cos_plus in U1. rewrite sin_plus in U2.
    assert (CW : cos w = cos nu).
    { transitivity (cos w * cos nu * cos nu - sin w * sin nu * cos nu + (sin w * cos nu + cos w * sin nu) * sin nu).
      - transitivity (cos w * (Rsqr (sin nu) + Rsqr (cos nu))); [rewrite sin2_cos2; ring|unfold Rsqr; ring].
      - rewrite U2. transitivity ((cos w * cos nu - sin w * sin nu) * cos nu); [ring|rewrite U1; ring]. }
    assert (HS : 0 < sqrt (mu / q)) by (apply sqrt_lt_R0; now apply Rdiv_lt_0_compat).
    split; [|ring].
    set (s := sqrt (mu / q)) in *. clearbody s.
    assert (HK : 0 < s * ((cos w * cos nu - sin w * sin nu) + e * cos w)) by (rewrite U1, CW; now apply Rmult_lt_0_compat).
    match goal with |- 0 < ?t => replace t with (s * ((cos w * cos nu - sin w * sin nu) + e * cos w)); [exact HK|] end. unfold Rdiv. ring.
Qed.
Print Assumptions C32_equatorial.

(** So the motion is flown backwards from the negative x axis, and in the
    wrong sense for every retrograde request from the positive x axis. *)
Theorem C32_wrong_sense : forall ev mu x r2 tof M (prograde : bool) low_path maxiter atol rtol full_output o v1 v2,
  let r1 := V3 x 0 0 in
  non_collinear r1 r2 -> vz r2 = 0 -> (if prograde then x < 0 else 0 < x) ->
  @run XR Avanzini ev (call mu r1 r2 tof M prograde low_path maxiter atol rtol full_output) = Ok o ->
  delivers o v1 v2 ->
  ~ direction_honoured prograde r1 r2 v1.
Proof.
  intros ev mu x r2 tof M p l mi a r f o v1 v2 r1 Hn Z2 Hx H D (_ & _ & M3).
  destruct (transfer_angle r1 r2 p Hn) as (th & ET & _).
  destruct (C32_equatorial _ _ _ _ _ _ _ _ _ _ _ _ _ _ _ _ Hn eq_refl Z2 ET H D) as (_ & Vy & _).
  unfold moves_as_requested, momentum, r1, vcross in M3. cbn [vx vy vz] in M3. destruct p; nra.
Qed.
Print Assumptions C32_wrong_sense.

Definition ex_west : rvec := V3 (-1) 0 0.
Definition ex_south : rvec := V3 0 (-1) 0.

Theorem C32_refuted : forall ev,
  exists o v1 v2,
    @run XR Avanzini ev (call 1 ex_west ex_south (PI / 2) 0 true true 35 (1 / 100000) (1 / 10000000) false) = Ok o /\
    delivers o v1 v2 /\ non_collinear ex_west ex_south /\
    ~ direction_honoured true ex_west ex_south v1.
Proof.
  intros ev.
  assert (Hz : vz (vcross ex_west ex_south) = 1) by (unfold ex_west, ex_south, vcross; cbn [vx vy vz]; ring).
  assert (A : vnorm ex_west = 1).
  { unfold ex_west, vnorm, vdot. cbn [vx vy vz]. replace (-1 * -1 + 0 * 0 + 0 * 0) with 1 by ring. apply sqrt_1. }
  assert (B : vnorm ex_south = 1).
  { unfold ex_south, vnorm, vdot. cbn [vx vy vz]. replace (0 * 0 + -1 * -1 + 0 * 0) with 1 by ring. apply sqrt_1. }
  assert (C : vdot ex_west ex_south = 0) by (unfold ex_west, ex_south, vdot; cbn [vx vy vz]; ring).
  assert (Hn : non_collinear ex_west ex_south) by (apply vz_non_collinear; lra).
  destruct (avanzini_quarter ev true ex_west ex_south true 35 (1 / 100000) (1 / 10000000)) as (v1 & v2 & H & _); try assumption; try lra; try lia.
  { unfold short_way. lra. }
  eexists _, v1, v2. split; [exact H|]. split; [split; reflexivity|]. split; [assumption|].
  eapply C32_wrong_sense; [exact Hn|reflexivity|cbn; lra|exact H|split; reflexivity].
Qed.
Print Assumptions C32_refuted.
