(** * C57: mirror images of a problem. *)
From Coq Require Import Reals ZArith String List Bool Lra Lia Psatz.
From Verif Require Import Num XReal XRealLemmas MApi ApiFacts MScipy MLinalg MAssertions MAngles MKepler MElements MAvanzini MIzzo MInit
  Loops Spec SpecElements VecFacts VecXR AnglesXR CallXR RotXR MirrorXR ElementsXR PropertiesAngles PropertiesMotion
  Godal GodalXR GodalPan GodalMore GodalIzzo LambertRev LambertZ IzzoXR OrbitXR PropertiesOrbit AvanziniXR PropertiesAvanzini PropertiesRotation PropertiesRotAvanzini PropertiesBudget PropertiesIzzo
  PropertiesMirror PropertiesMirrorSense.
Local Open Scope R_scope.

(** ** avanzini2008 outside the equatorial plane *)
Section Mirrored.
Context (sy sz : bool) (r1 r2 : rvec) (Hn : non_collinear r1 r2).
Notation T := (flip sy sz).

Lemma flip_non_collinear : non_collinear (T r1) (T r2).
Proof. unfold non_collinear. rewrite flip_cross. intros Z. apply Hn. now apply nflip_zero in Z. Qed.

Lemma flip_equatorial : ~ equatorial r1 r2 -> ~ equatorial (T r1) (T r2).
Proof.
  unfold equatorial. intros H Z. apply H. rewrite flip_cross in Z. destruct Z as [Z1 Z2].
  destruct (vcross r1 r2) as [x y z]. unfold nflip, flip, vmult, sgn in Z1, Z2. cbn [vx vy vz] in *. destruct sy, sz; split; lra.
Qed.

Lemma geometry_flip p : @get_geometry XR (vfin (T r1)) (vfin (T r2)) (xorb sy p) = @get_geometry XR (vfin r1) (vfin r2) p.
Proof.
  rewrite <- !flip_F. assert (H1 : r1 <> vzero) by exact (vcross_nonzero_l _ _ Hn). unfold get_geometry. cbv zeta.
  rewrite (fw_vsub sy sz (vfin r2) (vfin r1)) by apply good_F. rewrite !fw_norm by good_tac. rewrite vsub_F. rewrite !fw_angle by assumption. reflexivity.
Qed.

Lemma flip_chord : chord (T r1) (T r2) = chord r1 r2.
Proof. unfold chord. now rewrite flip_minus, flip_norm. Qed.

Lemma flip_sense p : sense (xorb sy p) (T r1) (T r2) = sense p r1 r2.
Proof.
  pose proof (flip_short_way sy sz p r1 r2) as S.
  unfold sense. destruct (short_way_dec (xorb sy p) (T r1) (T r2)), (short_way_dec p r1 r2); try reflexivity; tauto.
Qed.

Lemma velocities_flip mu p ecc_T : 0 < mu -> ~ equatorial r1 r2 ->
  @ava_velocities XR (Fin mu) ecc_T (vfin (T r1)) (vfin (T r2)) (xorb sy p) =
  match @ava_velocities XR (Fin mu) ecc_T (vfin r1) (vfin r2) p with
  | Ok (v1, v2) => Ok (xflip sy sz v1, xflip sy sz v2)
  | Err e => Err e
  end.
Proof.
  intros Hm Hne. destruct (geometry_F p r1 r2 Hn) as (th & wc & EG & F & Fc).
  pose proof EG as EG'. rewrite <- geometry_flip, <- (flip_norm sy sz r1), <- (flip_norm sy sz r2), <- flip_chord in EG'.
  assert (FP : forall eT, fam_p (T r1) (T r2) th eT = fam_p r1 r2 th eT) by (intros; unfold fam_p; now rewrite !flip_norm, flip_chord).
  assert (FE : forall eT, fam_e (T r1) (T r2) eT = fam_e r1 r2 eT) by (intros; unfold fam_e; now rewrite !flip_norm, flip_chord).
  assert (FW : forall eT, fam_w (T r1) (T r2) wc eT = fam_w r1 r2 wc eT) by (intros; unfold fam_w; now rewrite !flip_norm, flip_chord).
  destruct (velocities_cases mu p _ _ th wc ecc_T Hm Hn EG) as [(eT & v1 & v2 & E & HQ & EV)|[HQ EV]];
  destruct (velocities_cases mu (xorb sy p) _ _ th wc ecc_T Hm flip_non_collinear EG') as [(eT' & w1 & w2 & E' & HQ' & EV')|[HQ' EV']].
  - rewrite EV, EV'. rewrite !flip_F.
    destruct (avanzini_conic _ _ _ _ _ _ _ Hm Hn Hne EV) as (x & th1 & wc1 & i & o & w & X & G & Q & P1 & P2 & R1 & R2 & V1 & V2 & W).
    destruct (avanzini_conic _ _ _ _ _ _ _ Hm flip_non_collinear (flip_equatorial Hne) EV') as (x' & th1' & wc1' & i' & o' & w' & X' & G' & Q' & P1' & P2' & R1' & R2' & V1' & V2' & W').
    rewrite EG in G. apply Ok_inj in G. injection G as <- <-. rewrite EG' in G'. apply Ok_inj in G'. injection G' as <- <-.
    rewrite X in X'. injection X' as <-. rewrite FP, FE, FW in *.
    rewrite flip_sense, flip_cross, nflip_norm, nflip_mult, <- W in W'.
    rewrite conic_velocity_radial in V1, V2, V1', V2' by assumption.
    rewrite <- R1 in V1. rewrite <- R2 in V2. rewrite <- R1' in V1'. rewrite <- R2' in V2'. rewrite W' in V1', V2'.
    rewrite V1, V2, V1', V2'. rewrite !flip_cross_l, !flip_mult, !flip_plus. reflexivity.
  - exfalso. specialize (HQ' eT E). rewrite FP in HQ'. lra.
  - exfalso. specialize (HQ eT' E'). rewrite FP in HQ'. lra.
  - rewrite EV, EV'. now rewrite flip_nan.
Qed.
End Mirrored.

(** ** C57 *)

(** [flip sy sz] changes the sign of the y component if [sy] and of the z
    component if [sz]; with an angle of rotation about the z axis (C31) this
    covers every reflection in a plane through the z axis, the reflection in the
    equatorial plane, and the half turns about axes in that plane.  The mirrored
    problem, with [is_prograde] toggled if the sense of rotation about the z axis
    is turned over, is answered with the mirrored velocities and the same number
    of iterations, or with the same exception. *)
Theorem C57_mirror : forall s ev sy sz mu r1 r2 tof M prograde low_path maxiter atol rtol full_output,
  (s = Izzo \/ s = Thorne -> sy = true -> vz (vcross r1 r2) <> 0) ->
  (s = Avanzini -> non_collinear r1 r2 /\ ~ equatorial r1 r2) ->
  @run XR s ev (call mu (flip sy sz r1) (flip sy sz r2) tof M (xorb sy prograde) low_path maxiter atol rtol full_output)
  = res_flip sy sz (@run XR s ev (call mu r1 r2 tof M prograde low_path maxiter atol rtol full_output)).
Proof.
  intros s ev sy sz mu r1 r2 tof M p l mi a r f Hz Ha.
  destruct s; cbn [run];
    first [apply gauss_flip | apply battin_flip | apply jiang_flip | apply pan_flip | apply gooding_flip | apply der_flip
          | apply arora_flip | apply vallado_flip | apply negrete_flip
          | apply mcelreath_flip | apply delatorre_flip | apply thorne_flip; now apply Hz; auto | apply izzo_flip; now apply Hz; auto | idtac].
  destruct (Ha eq_refl) as [Hn Hne]. unfold avanzini2008. cbn [call a_M].
  destruct (raise_if _ _); [|reflexivity]. cbn [bind].
  apply validated_flip. intros (Hmu & _). rewrite !flip_F.
  cbn [call a_mu a_tof a_M a_is_prograde a_is_low_path a_maxiter a_atol a_rtol a_full_output]. rewrite geometry_flip by assumption.
  destruct (get_geometry _ _ _) as [g|]; [|reflexivity]. cbn [bind].
  destruct (ava_secant _ _ _ _ _) as [[x n]|]; [|reflexivity]. cbn [bind].
  destruct (time_per_iteration _ _ _) as [tpi|]; [|reflexivity]. cbn [bind].
  rewrite velocities_flip by assumption. destruct (ava_velocities _ _ _ _ _) as [[v1 v2]|]; [|reflexivity].
  cbn [bind]. destruct f; reflexivity.
Qed.
Print Assumptions C57_mirror.

(** Finite answers are mirrored as real vectors. *)
Corollary C57_finite : forall s ev sy sz mu r1 r2 tof M prograde low_path maxiter atol rtol full_output o v1 v2,
  (s = Izzo \/ s = Thorne -> sy = true -> vz (vcross r1 r2) <> 0) ->
  (s = Avanzini -> non_collinear r1 r2 /\ ~ equatorial r1 r2) ->
  @run XR s ev (call mu r1 r2 tof M prograde low_path maxiter atol rtol full_output) = Ok o -> delivers o v1 v2 ->
  exists o', @run XR s ev (call mu (flip sy sz r1) (flip sy sz r2) tof M (xorb sy prograde) low_path maxiter atol rtol full_output) = Ok o' /\
    delivers o' (flip sy sz v1) (flip sy sz v2).
Proof.
  intros s ev sy sz mu r1 r2 tof M p l mi a r f o v1 v2 Hz Ha H [D1 D2].
  rewrite C57_mirror, H by assumption. cbn [res_flip]. eexists. split; [reflexivity|].
  destruct o; cbn [out_flip out_v1 out_v2] in *; rewrite D1, D2; split; reflexivity.
Qed.
Print Assumptions C57_finite.

(** A run to which the theorem applies, and its mirror image in the x-z plane:
    the retrograde quarter turn. *)
Example C57_case : exists tof o v1 v2 o',
  @run XR Vallado no_scipy (call 1 ex_r1 ex_r2 tof 0 true true 35 (1 / 100000) (1 / 10000000) true) = Ok o /\ delivers o v1 v2 /\
  @run XR Vallado no_scipy (call 1 ex_r1 (V3 0 (-1) 0) tof 0 false true 35 (1 / 100000) (1 / 10000000) true) = Ok o' /\
  delivers o' (V3 (vx v1) (- vy v1) (vz v1)) (V3 (vx v2) (- vy v2) (vz v2)).
Proof.
  destruct C11_C12_case as (tof & o & w1 & w2 & Hn & Hz & _ & R & _ & D).
  destruct (C57_finite Vallado _ true false _ _ _ _ _ _ _ _ _ _ _ _ _ _ ltac:(intros [?|?]; discriminate) ltac:(discriminate) R D) as (o' & R' & D').
  exists tof, o, w1, w2, o'. repeat (split; [assumption|]).
  assert (F : forall v, flip true false v = V3 (vx v) (- vy v) (vz v)) by (intros; unfold flip, sgn; f_equal; ring).
  rewrite !F in *. split; [|exact D']. cbn [xorb] in R'. unfold ex_r1, ex_r2 in *. cbn [vx vy vz] in R'. rewrite Ropp_0 in R'.
  replace (IZR (-1)) with (- (1)) by lra. exact R'.
Qed.

(** ** izzo2015 in planes that contain the z axis *)

(** There both calls of a mirrored pair are the same problem, and izzo2015
    answers them with motions in opposite senses. *)
Lemma izzo_tangential mu r1 r2 ll t1 t2 x y : non_collinear r1 r2 -> 0 < mu -> 0 < y + ll * x ->
  exists a b w2, 0 < b /\
  @izzo_velocities XR (Fin mu) (vfin r1) (vfin r2) (Fin (vnorm r1)) (Fin (vnorm r2))
    (Fin (chord r1 r2)) (Fin (semiper r1 r2)) (Fin ll) (vfin t1) (vfin t2) (Fin x) (Fin y) = (vfin (vplus (vmult a r1) (vmult b t1)), w2).
Proof.
  intros Hn Hmu Hp. destruct (norms_pos _ _ Hn) as [N1 N2]. destruct (semiper_pos _ _ Hn) as [Hs _]. pose proof (chord_pos _ _ Hn) as Hc.
  destruct (triangle _ _ Hn) as (_ & T1 & T2).
  unfold izzo_velocities, izzo_reconstruct. rewrite !vdivs_F by lra.
  set (rho := (vnorm r1 - vnorm r2) / chord r1 r2).
  assert (Er : @ndiv XR (@nsub XR (Fin (vnorm r1)) (Fin (vnorm r2))) (Fin (chord r1 r2)) = Fin rho).
  { xunf. cbn [xsub xlift2]. apply xdiv_F. lra. }
  assert (MS : 0 < mu * semiper r1 r2) by (apply Rmult_lt_0_compat; assumption).
  assert (Eg : @nsqrt XR (@ndiv XR (@nmul XR (Fin mu) (Fin (semiper r1 r2))) (nofZ 2)) = Fin (sqrt (mu * semiper r1 r2 / 2))).
  { xunf. cbn [xmul xlift2]. rewrite xdiv_F by lra. apply xsqrt_F. lra. }
  assert (Rb : -1 < rho < 1).
  { unfold rho. split; [apply Rmult_lt_reg_r with (chord r1 r2); [assumption|]|apply Rmult_lt_reg_r with (chord r1 r2); [assumption|]];
      unfold Rdiv; rewrite Rmult_assoc, Rinv_l by lra; lra. }
  assert (Es : @nsqrt XR (@nsub XR (nofZ 1) (@sq XR (Fin rho))) = Fin (sqrt (1 - rho * rho))).
  { xunf. cbn [xmul xsub xlift2]. apply xsqrt_F. nra. }
  assert (Pg : 0 < sqrt (mu * semiper r1 r2 / 2)) by (apply sqrt_lt_R0; lra).
  assert (Ps : 0 < sqrt (1 - rho * rho)) by (apply sqrt_lt_R0; nra).
  rewrite Er, Eg, Es. clearbody rho. set (g := sqrt _) in *. set (sg := sqrt _) in *. clearbody g sg.
  xunf. cbn [xmul xsub xadd xopp xlift1 xlift2]. rewrite !xdiv_F by lra.
  change xmul with (@nmul XR) in *. rewrite !vscale_F, !vadd_F, vmult_mult.
  eexists _, _, _. split; [|reflexivity].
  apply Rdiv_lt_0_compat; [|assumption]. apply Rmult_lt_0_compat; [apply Rmult_lt_0_compat; assumption|assumption].
Qed.

(** Outside the degenerate directions an accepted answer of izzo2015 turns in the
    sense of the unit vector [t1] of its geometry. *)
Lemma izzo_turns ev mu r1 r2 tof M p l mi at_ rt o v1 v2 : 0 < mu -> non_collinear r1 r2 ->
  @run XR Izzo ev (call mu r1 r2 tof M p l mi at_ rt false) = Ok o -> delivers o v1 v2 ->
  exists a b ll t1 t2, 0 < b /\ v1 = vplus (vmult a r1) (vmult b t1) /\
  @izzo_geometry XR (vfin r1) (vfin r2) p =
      (Fin (vnorm r1), Fin (vnorm r2), Fin (chord r1 r2), Fin (semiper r1 r2), Fin ll, vfin t1, vfin t2) /\
  exists k, t1 = vmult k (vcross (vcross r1 r2) r1) /\ k <> 0.
Proof.
  intros Hm Hn H D. destruct (izzo_geometry_F r1 r2 p Hn) as (e & ll & t1 & t2 & EG & He & Hel & Hl & Et1 & Et2).
  pose proof (lambda_bounds _ _ _ _ Hn Hl) as Lb.
  cbn [run] in H. destruct (C18_izzo_converged ev _ _ H) as (r1' & r2' & x0 & x & E1 & E2 & B).
  cbn [a_mu a_r1 a_r2 a_tof a_M a_is_prograde a_is_low_path a_maxiter a_atol a_rtol a_full_output call] in E1, E2, B.
  rewrite as_vec_of_vec in E1, E2. apply Ok_inj in E1, E2. subst r1' r2'.
  rewrite EG in B. destruct B as (B1 & B2 & B3). destruct D as [D1 D2]. rewrite D1, D2 in B3. symmetry in B3.
  destruct (izzo_velocities_fg _ _ _ _ _ _ _ _ _ _ _ Hn Hm He Hel Hl Et1 Et2 B3) as (x' & y & -> & Ey & Hy0 & Hy & _).
  rewrite Ey in B3.
  assert (Hp : 0 < y + ll * x') by nra.
  destruct (izzo_tangential mu r1 r2 ll t1 t2 x' y Hn Hm Hp) as (a & b & w2 & Hb & E). rewrite B3 in E.
  apply pair_equal_spec in E. destruct E as [E _]. apply vfin_inj in E.
  exists a, b, ll, t1, t2. split; [exact Hb|]. split; [exact E|]. split; [exact EG|].
  exists (e / (vnorm (vcross r1 r2) * vnorm r1)). split; [exact Et1|].
  destruct (norms_pos _ _ Hn) as [N1 _]. pose proof (vnorm_pos _ Hn) as NC.
  assert (e <> 0) by (intros ->; lra). apply Rmult_integral_contrapositive_currified; [assumption|].
  apply Rinv_neq_0_compat, Rgt_not_eq, Rmult_lt_0_compat; assumption.
Qed.

(** Asking for the other direction turns the unit vectors over, in every plane. *)
Lemma izzo_other_way u v p (a b d s ll : xr) t1 t2 : @izzo_geometry XR u v p = (a, b, d, s, ll, t1, t2) ->
  @izzo_geometry XR u v (negb p) = (a, b, d, s, xopp ll, @vopp XR t1, @vopp XR t2).
Proof.
  rewrite !izzo_senses. cbv zeta. unfold senses. change (@num XR) with xr.
  destruct (@nltb XR _ _), p; cbn [fst snd negb]; intros E;
    repeat (apply pair_equal_spec in E; let K := fresh in destruct E as [E K]; try subst); change (@nopp XR) with xopp; rewrite ?xopp_opp, ?vopp_opp; reflexivity.
Qed.

Theorem C57_izzo_polar_refuted : forall ev mu r1 r2 tof M prograde low_path maxiter atol rtol o v1 v2,
  0 < mu -> non_collinear r1 r2 -> vy r1 = 0 -> vy r2 = 0 ->
  @run XR Izzo ev (call mu r1 r2 tof M prograde low_path maxiter atol rtol false) = Ok o -> delivers o v1 v2 ->
  flip true false r1 = r1 /\ flip true false r2 = r2 /\ flip true false v1 = v1 /\
  @run XR Izzo ev (call mu (flip true false r1) (flip true false r2) tof M (negb prograde) low_path maxiter atol rtol false)
    <> res_flip true false (Ok o).
Proof.
  intros ev mu r1 r2 tof M p l mi at_ rt o v1 v2 Hm Hn Y1 Y2 H D.
  assert (FL : forall r, vy r = 0 -> flip true false r = r).
  { intros r E. destruct r as [x y z]. unfold flip, sgn. cbn [vx vy vz] in *. subst. f_equal; ring. }
  destruct (izzo_turns _ _ _ _ _ _ _ _ _ _ _ _ _ _ Hm Hn H D) as (a & b & ll & t1 & t2 & Hb & E & EG & k & Et & Hk).
  assert (YT : vy t1 = 0) by (rewrite Et; unfold vcross, vmult; cbn [vx vy vz]; rewrite Y1, Y2; ring).
  assert (YV : vy v1 = 0) by (rewrite E; unfold vplus, vmult; cbn [vx vy vz]; rewrite Y1, YT; ring).
  assert (DT : vdot r1 t1 = 0) by (rewrite Et; unfold vdot, vcross, vmult; cbn [vx vy vz]; ring).
  assert (NT : 0 < vdot t1 t1).
  { assert (Z : vcross (vcross r1 r2) r1 <> vzero).
    { intros Z. apply Hn. assert (vdot (vcross r1 r2) (vcross r1 r2) * vdot r1 r1 = 0).
      { transitivity (vdot (vcross (vcross r1 r2) r1) (vcross (vcross r1 r2) r1)); [unfold vdot, vcross; cbn [vx vy vz]; ring|].
        rewrite Z. unfold vdot, vzero. cbn [vx vy vz]. ring. }
      exfalso. destruct (norms_pos _ _ Hn) as [N1 _]. pose proof (vnorm_pos _ Hn) as NC.
      rewrite <- !vnorm_sq in *. assert (0 < vnorm (vcross r1 r2) * vnorm (vcross r1 r2)) by nra. assert (0 < vnorm r1 * vnorm r1) by nra. nra. }
    pose proof (vnorm_pos _ Z) as P. assert (Q : t1 <> vzero).
    { rewrite Et. intros Q. apply Z. apply (f_equal (vmult (/ k))) in Q. rewrite vmult_mult, Rinv_l in Q by assumption.
      transitivity (vmult 1 (vcross (vcross r1 r2) r1)); [apply vec_eq; unfold vmult; cbn [vx vy vz]; ring|]. rewrite Q.
      apply vec_eq; unfold vmult, vzero; cbn [vx vy vz]; ring. }
    pose proof (vnorm_pos _ Q). rewrite <- vnorm_sq. nra. }
  rewrite !FL by assumption. repeat (split; [reflexivity|]). intros H'. cbn [res_flip] in H'.
  assert (D' : delivers (out_flip true false o) v1 (flip true false v2)).
  { destruct D as [D1 D2]. rewrite <- (FL v1) by assumption. destruct o; cbn [out_flip out_v1 out_v2] in *; unfold delivers; cbn [out_v1 out_v2]; rewrite D1, D2; split; reflexivity. }
  destruct (izzo_turns _ _ _ _ _ _ _ _ _ _ _ _ _ _ Hm Hn H' D') as (a' & b' & ll' & t1' & t2' & Hb' & E' & EG' & _).
  rewrite (izzo_other_way _ _ _ _ _ _ _ _ _ _ EG) in EG'.
  apply pair_equal_spec in EG'. destruct EG' as [EG' _]. apply pair_equal_spec in EG'. destruct EG' as [_ EG'].
  rewrite vopp_F in EG'. apply vfin_inj in EG'. subst t1'.
  assert (S : vdot v1 t1 = b * vdot t1 t1).
  { rewrite E at 1. transitivity (a * vdot r1 t1 + b * vdot t1 t1); [unfold vdot, vplus, vmult; cbn [vx vy vz]; ring|]. rewrite DT. ring. }
  assert (S' : vdot v1 t1 = - b' * vdot t1 t1).
  { rewrite E' at 1. transitivity (a' * vdot r1 t1 - b' * vdot t1 t1); [unfold vdot, vplus, vmult; cbn [vx vy vz]; ring|]. rewrite DT. ring. }
  nra.
Qed.
Print Assumptions C57_izzo_polar_refuted.

Example C57_polar_case : forall ev, non_collinear (V3 1 0 0) (V3 0 0 1) /\ exists tof o v1 v2, 0 < tof /\
  @run XR Izzo ev (call 1 (V3 1 0 0) (V3 0 0 1) tof 0 true true 35 (1 / 100000) (1 / 10000000) false) = Ok o /\ delivers o v1 v2.
Proof.
  intros ev. assert (Hn : non_collinear (V3 1 0 0) (V3 0 0 1)).
  { unfold non_collinear, vcross, vzero. cbn [vx vy vz]. intros Z. injection Z. intros. lra. }
  split; [exact Hn|]. destruct (C16_case ev 1 _ _ true true (1 / 10000000) ltac:(lra) Hn) as (tof & o & v1 & v2 & A & B & C & _).
  exists tof, o, v1, v2. auto.
Qed.
