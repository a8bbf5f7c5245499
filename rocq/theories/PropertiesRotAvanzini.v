(** * C31 for avanzini2008 outside the equatorial plane. *)
From Coq Require Import Reals ZArith String List Bool Lra Lia Psatz.
From Verif Require Import Num XReal XRealLemmas MApi ApiFacts MScipy MLinalg MAssertions MAngles MKepler MElements MAvanzini MInit
  Loops Spec SpecElements VecFacts VecXR AnglesXR CallXR RotXR ElementsXR PropertiesAngles PropertiesMotion
  Godal GodalXR GodalPan GodalMore OrbitXR PropertiesOrbit AvanziniXR PropertiesAvanzini PropertiesRotation.
Local Open Scope R_scope.

(** ** Answers that are NaN throughout *)
Lemma xsub_nan d : xsub d NaN = NaN. Proof. destruct d; reflexivity. Qed.
Lemma xmul_nan d : xmul d NaN = NaN. Proof. destruct d; reflexivity. Qed.
Lemma xadd_nan d : xadd d NaN = NaN. Proof. destruct d; reflexivity. Qed.
Lemma xnan_mul d : xmul NaN d = NaN. Proof. reflexivity. Qed.
Lemma xnan_div d : xdiv NaN d = NaN. Proof. reflexivity. Qed.

Lemma mvmul_nan m : @mvmul XR m vnan = vnan.
Proof.
  destruct m as [a b c]. unfold mvmul, vmap, vnan, dot. cbn [vx vy vz]. xunf. now rewrite !xmul_nan, !xadd_nan.
Qed.

Lemma coe2rv_nan (k p ecc inc raan argp nu : xr) : @nsqrt XR (@ndiv XR k p) = NaN ->
  exists r, @coe2rv XR k p ecc inc raan argp nu = Ok (r, vnan).
Proof.
  intros E. unfold coe2rv, rv_pqw. rewrite E. unfold coe_rotation_matrix, rotation_matrix.
  cbn [Z.eqb Pos.eqb bind]. set (m := mmul _ _). clearbody m. eexists. do 2 f_equal.
  transitivity (@mvmul XR m vnan); [|apply mvmul_nan]. f_equal. unfold vnan. xunf. now rewrite !xmul_nan.
Qed.

Lemma sqrt_ratio_nan mu q : 0 < mu -> q <= 0 -> @nsqrt XR (@ndiv XR (Fin mu) (Fin q)) = NaN.
Proof.
  intros Hm Hq. xunf. destruct (Req_EM_T q 0) as [->|Z].
  - unfold xdiv. destruct (Req_EM_T 0 0) as [_|Z]; [reflexivity|exfalso; apply Z; reflexivity].
  - rewrite xdiv_F by assumption. assert (mu / q < 0).
    { replace (mu / q) with (- (mu / - q)) by (field; assumption). apply Ropp_lt_gt_0_contravar, Rdiv_lt_0_compat; lra. }
    unfold xsqrt, xpart1. destruct (Rle_dec 0 (mu / q)); [lra|reflexivity].
Qed.

(** Either both velocities are finite or both are NaN, depending on the scalar
    geometry only. *)
Lemma velocities_cases mu p r1 r2 th wc (ecc_T : xr) : 0 < mu -> non_collinear r1 r2 ->
  @get_geometry XR (vfin r1) (vfin r2) p =
    Ok (@EccGeometry XR (Fin (vnorm r1)) (Fin (vnorm r2)) (Fin (chord r1 r2)) (Fin th) (Fin wc)) ->
  (exists eT v1 v2, ecc_T = Fin eT /\ 0 < fam_p r1 r2 th eT /\
     @ava_velocities XR (Fin mu) ecc_T (vfin r1) (vfin r2) p = Ok (vfin v1, vfin v2)) \/
  ((forall eT, ecc_T = Fin eT -> fam_p r1 r2 th eT <= 0) /\
     @ava_velocities XR (Fin mu) ecc_T (vfin r1) (vfin r2) p = Ok (vnan, vnan)).
Proof.
  intros Hm Hn EG. destruct (norms_pos _ _ Hn) as [N1 N2]. pose proof (orbit_normal_F r1 r2 p Hn) as EW. set (W := vmult _ _) in EW.
  destruct ecc_T as [eT|].
  - destruct (coe_F p r1 r2 eT W Hn EW) as (th' & wc' & ii & oo & w & EG' & F' & Fc' & EI & EC & _). cbv zeta in EC.
    rewrite EG in EG'. apply Ok_inj in EG'. injection EG' as <- <-.
    unfold ava_velocities. rewrite EC. cbn [bind].
    destruct (Rlt_dec 0 (fam_p r1 r2 th eT)) as [Hq|Hq].
    + left. exists eT.
      assert (A1 : fam_p r1 r2 th eT = vnorm r1 * (1 + fam_e r1 r2 eT * cos (- fam_w r1 r2 wc eT)))
        by exact (family_r1 p r1 r2 th wc Hn F' Fc' eT).
      assert (A2 : fam_p r1 r2 th eT = vnorm r2 * (1 + fam_e r1 r2 eT * cos (- fam_w r1 r2 wc eT + th)))
        by exact (family_r2 p r1 r2 th wc Hn F' Fc' eT).
      rewrite coe2rv_F; [|lra|assumption|intros Z; rewrite A1, Z in Hq; lra]. cbn [bind].
      rewrite coe2rv_F; [|lra|assumption|intros Z; rewrite A2, Z in Hq; lra]. cbn [bind]. eexists _, _. auto.
    + right. split; [intros x E; injection E as <-; lra|].
      assert (S : @nsqrt XR (@ndiv XR (Fin mu) (Fin (fam_p r1 r2 th eT))) = NaN) by (apply sqrt_ratio_nan; lra).
      destruct (coe2rv_nan (Fin mu) (Fin (fam_p r1 r2 th eT)) (Fin (fam_e r1 r2 eT)) (Fin ii) (Fin oo) (Fin w) (Fin (- fam_w r1 r2 wc eT)) S) as (x & ->). cbn [bind].
      destruct (coe2rv_nan (Fin mu) (Fin (fam_p r1 r2 th eT)) (Fin (fam_e r1 r2 eT)) (Fin ii) (Fin oo) (Fin w) (Fin (- fam_w r1 r2 wc eT + th)) S) as (y & ->). reflexivity.
  - right. split; [discriminate|]. unfold ava_velocities, coe_at_eccT. rewrite EG. cbn [bind]. unfold eap_from_eccT.
    destruct (get_true_anomalies _ _) as [nu1 nu2]. destruct (get_orbit_inc_and_raan_from_position_vectors _ _ _) as [i o]. cbn [bind].
    set (pp := p_at_eccT _ _ _ _ _ _). assert (EP : pp = NaN).
    { unfold pp, p_at_eccT. xunf. rewrite !xnan_mul, xnan_div. apply xsub_nan. }
    rewrite EP. assert (S : @nsqrt XR (@ndiv XR (Fin mu) NaN) = NaN) by reflexivity.
    match goal with |- context [@coe2rv XR ?a ?b ?c ?d ?e ?f ?g] => destruct (coe2rv_nan a b c d e f g S) as (x & ->) end. cbn [bind].
    match goal with |- context [@coe2rv XR ?a ?b ?c ?d ?e ?f ?g] => destruct (coe2rv_nan a b c d e f g S) as (y & ->) end. reflexivity.
Qed.

(** ** Finite answers *)

(** The velocity on a conic in terms of the position and the normal. *)
Lemma conic_velocity_radial mu q e i o w nu : 0 < q -> 0 < 1 + e * cos nu ->
  let r := conic_position q e i o w nu in
  conic_velocity mu q e i o w nu =
  vplus (vmult (sqrt (mu / q) * e * sin nu * (1 + e * cos nu) / q) r)
        (vmult (sqrt (mu / q) * (1 + e * cos nu) * (1 + e * cos nu) / q) (vcross (frame_W i o) r)).
Proof.
  intros Hq Hd r. unfold r, conic_velocity, conic_position. rewrite <- (frame_cross i o w).
  pose proof (frame_PP i o w) as PP. pose proof (frame_QQ i o w) as QQ. pose proof (frame_PQ i o w) as PQ.
  pose proof (sin2_cos2 nu) as T. unfold Rsqr in T.
  set (P := frame_P i o w) in *. set (Q := frame_Q i o w) in *.
  assert (CP : vcross (vcross P Q) P = Q) by now apply vcross_PQ_P.
  assert (CQ : vcross (vcross P Q) Q = vmult (-1) P).
  { transitivity (vminus (vmult (vdot P Q) Q) (vmult (vdot Q Q) P)).
    - apply vec_eq; unfold vcross, vminus, vmult, vdot; cbn [vx vy vz]; ring.
    - rewrite PQ, QQ. apply vec_eq; unfold vminus, vmult; cbn [vx vy vz]; ring. }
  set (k := q / (1 + e * cos nu)).
  assert (L : vcross (vcross P Q) (vmult k (vplus (vmult (cos nu) P) (vmult (sin nu) Q))) = vmult k (vplus (vmult (cos nu) Q) (vmult (- sin nu) P))).
  { transitivity (vmult k (vplus (vmult (cos nu) (vcross (vcross P Q) P)) (vmult (sin nu) (vcross (vcross P Q) Q)))).
    - set (C := vcross P Q). clearbody C. apply vec_eq; unfold vcross, vplus, vmult; cbn [vx vy vz]; ring.
    - rewrite CP, CQ. apply vec_eq; unfold vplus, vmult; cbn [vx vy vz]; ring. }
  rewrite L. clear L CP CQ. set (s := sqrt (mu / q)). clearbody s P Q.
  set (c := cos nu) in *. set (n := sin nu) in *.
  apply vec_eq; unfold vplus, vmult; cbn [vx vy vz]; unfold k.
  - transitivity (s * (vx P * (e * n * c - n * (1 + e * c)) + vx Q * (e * (n * n + c * c) + c))); [rewrite T; ring|field; lra].
  - transitivity (s * (vy P * (e * n * c - n * (1 + e * c)) + vy Q * (e * (n * n + c * c) + c))); [rewrite T; ring|field; lra].
  - transitivity (s * (vz P * (e * n * c - n * (1 + e * c)) + vz Q * (e * (n * n + c * c) + c))); [rewrite T; ring|field; lra].
Qed.

Section Rotated.
Context (phi : R) (r1 r2 : rvec) (Hn : non_collinear r1 r2).

Lemma rot_non_collinear : non_collinear (rotz phi r1) (rotz phi r2).
Proof. unfold non_collinear. rewrite rot_cross. intros Z. apply Hn. now apply rot_zero in Z. Qed.

Lemma rot_equatorial : ~ equatorial r1 r2 -> ~ equatorial (rotz phi r1) (rotz phi r2).
Proof.
  unfold equatorial. intros H Z. apply H. rewrite rot_cross in Z. destruct Z as [Z1 Z2]. pose proof (cs2 phi) as E.
  destruct (vcross r1 r2) as [x y z]. unfold rotz in Z1, Z2. cbn [vx vy vz] in *. set (c := cos phi) in *. set (s := sin phi) in *. clearbody c s.
  split.
  - transitivity ((c * c + s * s) * x); [rewrite E; ring|]. transitivity (c * (c * x - s * y) + s * (s * x + c * y)); [ring|]. rewrite Z1, Z2. ring.
  - transitivity ((c * c + s * s) * y); [rewrite E; ring|]. transitivity (c * (s * x + c * y) - s * (c * x - s * y)); [ring|]. rewrite Z1, Z2. ring.
Qed.

Lemma geometry_rot p : @get_geometry XR (vfin (rotz phi r1)) (vfin (rotz phi r2)) p = @get_geometry XR (vfin r1) (vfin r2) p.
Proof.
  rewrite <- !xrot_F. assert (H1 : r1 <> vzero) by exact (vcross_nonzero_l _ _ Hn). unfold get_geometry. cbv zeta.
  rewrite (rw_vsub phi (vfin r2) (vfin r1)) by apply good_F. rewrite !good_norm by good_tac. rewrite vsub_F. rewrite !rw_angle by assumption. reflexivity.
Qed.

Lemma rot_chord : chord (rotz phi r1) (rotz phi r2) = chord r1 r2.
Proof. unfold chord. now rewrite rot_minus, rot_norm. Qed.

Lemma rot_sense p : sense p (rotz phi r1) (rotz phi r2) = sense p r1 r2.
Proof.
  assert (S : short_way p (rotz phi r1) (rotz phi r2) <-> short_way p r1 r2) by (unfold short_way; rewrite rot_cross; reflexivity).
  unfold sense. destruct (short_way_dec p (rotz phi r1) (rotz phi r2)), (short_way_dec p r1 r2); try reflexivity; tauto.
Qed.

Lemma velocities_rot mu p ecc_T : 0 < mu -> ~ equatorial r1 r2 ->
  @ava_velocities XR (Fin mu) ecc_T (vfin (rotz phi r1)) (vfin (rotz phi r2)) p =
  match @ava_velocities XR (Fin mu) ecc_T (vfin r1) (vfin r2) p with
  | Ok (v1, v2) => Ok (xrotz phi v1, xrotz phi v2)
  | Err e => Err e
  end.
Proof.
  intros Hm Hne. destruct (geometry_F p r1 r2 Hn) as (th & wc & EG & F & Fc).
  pose proof EG as EG'. rewrite <- geometry_rot, <- (rot_norm phi r1), <- (rot_norm phi r2), <- rot_chord in EG'.
  assert (FP : forall eT, fam_p (rotz phi r1) (rotz phi r2) th eT = fam_p r1 r2 th eT) by (intros; unfold fam_p; now rewrite !rot_norm, rot_chord).
  assert (FE : forall eT, fam_e (rotz phi r1) (rotz phi r2) eT = fam_e r1 r2 eT) by (intros; unfold fam_e; now rewrite !rot_norm, rot_chord).
  assert (FW : forall eT, fam_w (rotz phi r1) (rotz phi r2) wc eT = fam_w r1 r2 wc eT) by (intros; unfold fam_w; now rewrite !rot_norm, rot_chord).
  destruct (velocities_cases mu p _ _ th wc ecc_T Hm Hn EG) as [(eT & v1 & v2 & E & HQ & EV)|[HQ EV]];
  destruct (velocities_cases mu p _ _ th wc ecc_T Hm rot_non_collinear EG') as [(eT' & w1 & w2 & E' & HQ' & EV')|[HQ' EV']].
  - rewrite EV, EV'. rewrite !xrot_F.
    destruct (avanzini_conic _ _ _ _ _ _ _ Hm Hn Hne EV) as (x & th1 & wc1 & i & o & w & X & G & Q & P1 & P2 & R1 & R2 & V1 & V2 & W).
    destruct (avanzini_conic _ _ _ _ _ _ _ Hm rot_non_collinear (rot_equatorial Hne) EV') as (x' & th1' & wc1' & i' & o' & w' & X' & G' & Q' & P1' & P2' & R1' & R2' & V1' & V2' & W').
    rewrite EG in G. apply Ok_inj in G. injection G as <- <-. rewrite EG' in G'. apply Ok_inj in G'. injection G' as <- <-.
    rewrite X in X'. injection X' as <-. rewrite FP, FE, FW in *.
    rewrite rot_sense, rot_cross, rot_norm, rot_mult, <- W in W'.
    rewrite conic_velocity_radial in V1, V2, V1', V2' by assumption.
    rewrite <- R1 in V1. rewrite <- R2 in V2. rewrite <- R1' in V1'. rewrite <- R2' in V2'. rewrite W' in V1', V2'.
    rewrite V1, V2, V1', V2'. rewrite !rot_cross, !rot_mult, !rot_plus. reflexivity.
  - exfalso. specialize (HQ' eT E). rewrite FP in HQ'. lra.
  - exfalso. specialize (HQ eT' E'). rewrite FP in HQ'. lra.
  - rewrite EV, EV'. now rewrite xrot_nan.
Qed.
End Rotated.

(** ** C31 *)
Theorem C31_avanzini : forall ev phi mu r1 r2 tof M prograde low_path maxiter atol rtol full_output,
  non_collinear r1 r2 -> ~ equatorial r1 r2 ->
  @run XR Avanzini ev (call mu (rotz phi r1) (rotz phi r2) tof M prograde low_path maxiter atol rtol full_output)
  = res_rotz phi (@run XR Avanzini ev (call mu r1 r2 tof M prograde low_path maxiter atol rtol full_output)).
Proof.
  intros ev phi mu r1 r2 tof M p l mi a r f Hn Hne. cbn [run]. unfold avanzini2008. cbn [call a_M].
  destruct (raise_if _ _); [|reflexivity]. cbn [bind].
  apply validated_rot. intros (Hmu & _). rewrite !xrot_F.
  cbn [call a_mu a_tof a_M a_is_prograde a_is_low_path a_maxiter a_atol a_rtol a_full_output]. rewrite geometry_rot by assumption.
  destruct (get_geometry _ _ _) as [g|]; [|reflexivity]. cbn [bind].
  destruct (ava_secant _ _ _ _ _) as [[x n]|]; [|reflexivity]. cbn [bind].
  destruct (time_per_iteration _ _ _) as [tpi|]; [|reflexivity]. cbn [bind].
  rewrite velocities_rot by assumption. destruct (ava_velocities _ _ _ _ _) as [[v1 v2]|]; [|reflexivity].
  cbn [bind]. destruct f; reflexivity.
Qed.
Print Assumptions C31_avanzini.

Example C31_avanzini_case : forall ev, non_collinear ex_r1 ex_r2c /\ ~ equatorial ex_r1 ex_r2c /\ exists o v1 v2,
  @run XR Avanzini ev (call 1 ex_r1 ex_r2c (PI / 2) 0 true true 35 (1 / 100000) (1 / 10000000) false) = Ok o /\ delivers o v1 v2.
Proof. intros ev. destruct (C11_avanzini_case ev) as (A & _ & B & C). auto. Qed.
