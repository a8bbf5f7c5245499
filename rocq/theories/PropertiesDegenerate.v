(** * Degenerate geometry, the call contract and non-convergence: C02, C03, C06, C19, C21.

    Exact real arithmetic with NaN ([XR]) unless a theorem says "every number
    system". *)
From Coq Require Import String ZArith List Bool Lia Reals Lra Psatz.
Import ListNotations.
From Verif Require Import Num XReal XRealLemmas MApi ApiFacts MLinalg MScipy MAssertions MAngles MVallado MGauss MIzzo MBattin
  MArora MDelatorre MGooding MJiang MPan MDer MThorne MAvanzini MMcelreath MNegrete MInit Loops
  Spec VecFacts VecXR AnglesXR CallXR PropertiesAngles PropertiesInput PropertiesFlags Godal GodalXR GodalIzzo.
Local Open Scope R_scope.

Notation Call s ev mu r1 r2 tof M p l mi at_ rt fo :=
  (@run XR s ev (call mu r1 r2 tof M p l mi at_ rt fo)).

Definition raises_RuntimeError {A} (r : res A) : Prop := exists msg, r = Err (RuntimeError msg).

(** The positions point the same way / opposite ways ([r2 = 0] included). *)
Definition same_direction (r1 r2 : rvec) : Prop := vcross r1 r2 = vzero /\ 0 < vdot r1 r2.
Definition opposite (r1 r2 : rvec) : Prop := vcross r1 r2 = vzero /\ vdot r1 r2 <= 0.

Lemma angle_same r1 r2 p : r1 <> vzero -> same_direction r1 r2 ->
  @get_transfer_angle XR (vfin r1) (vfin r2) p = Fin 0.
Proof.
  intros H1 [Hc Hd]. rewrite (get_transfer_angle_collinear r1 r2 p H1 Hc). destruct (Rlt_dec _ _); [reflexivity|lra].
Qed.
Lemma angle_opposite r1 r2 p : r1 <> vzero -> opposite r1 r2 ->
  @get_transfer_angle XR (vfin r1) (vfin r2) p = Fin PI.
Proof.
  intros H1 [Hc Hd]. rewrite (get_transfer_angle_collinear r1 r2 p H1 Hc). destruct (Rlt_dec _ _); [lra|reflexivity].
Qed.

Lemma not_zero_0 : @assert_transfer_angle_not_zero XR (Fin 0) = Err (ValueError "Transfer angle was found to be zero!").
Proof.
  unfold assert_transfer_angle_not_zero. xunf. replace (xeqb (Fin 0) (Fin 0)) with true by (symmetry; apply xeqb_F; reflexivity). reflexivity.
Qed.
Lemma not_zero_PI : @assert_transfer_angle_not_zero XR (Fin PI) = Ok tt.
Proof.
  unfold assert_transfer_angle_not_zero. xunf. replace (xeqb (Fin PI) (Fin 0)) with false; [reflexivity|].
  symmetry; apply xeqb_Ff. pose proof PI_RGT_0; lra.
Qed.
Lemma not_pi_PI : @assert_transfer_angle_not_pi XR (Fin PI) = Err (ValueError "Transfer angle was found to be 180 degrees!").
Proof.
  unfold assert_transfer_angle_not_pi. xunf. replace (xeqb (Fin PI) (Fin PI)) with true by (symmetry; apply xeqb_F; reflexivity). reflexivity.
Qed.

(** ** C06 *)

(** Nine solvers refuse parallel positions. *)
Theorem C06_zero_angle_refused : forall s ev mu r1 r2 tof M p l mi at_ rt fo,
  In s [Gauss; Jiang; Pan; Der; Gooding; Avanzini; Arora; Negrete; McElreath] ->
  valid_input mu r1 r2 tof M -> same_direction r1 r2 ->
  raises_ValueError (Call s ev mu r1 r2 tof M p l mi at_ rt fo).
Proof.
  intros s ev mu r1 r2 tof M p l mi at_ rt fo Hs Hv Hd.
  assert (A := angle_same r1 r2 p (proj1 (proj2 Hv)) Hd).
  cbn [In] in Hs.
  destruct Hs as [<-|[<-|[<-|[<-|[<-|[<-|[<-|[<-|[<-|[]]]]]]]]]]; cbn [run]; unfold raises_ValueError.
  - unfold gauss1809. rewrite validated_call_ok by assumption. cbv beta zeta. cbn [call a_is_prograde]. rewrite A, not_zero_0. eexists; reflexivity.
  - unfold jiang2016. cbn [call a_M]. destruct (0 <? M)%Z; [eexists; reflexivity|]. cbn [raise_if bind].
    rewrite validated_call_ok by assumption. cbv beta zeta. cbn [call a_is_prograde]. rewrite A, not_zero_0. eexists; reflexivity.
  - unfold pan2016. cbn [call a_M]. destruct (0 <? M)%Z; [eexists; reflexivity|]. cbn [raise_if bind].
    rewrite validated_call_ok by assumption. cbv beta zeta. cbn [call a_is_prograde]. rewrite A, not_zero_0. eexists; reflexivity.
  - unfold der2011. rewrite validated_call_ok by assumption. cbv beta zeta. cbn [call a_is_prograde]. rewrite A, not_zero_0. eexists; reflexivity.
  - unfold gooding1990. rewrite validated_call_ok by assumption. cbv beta zeta. cbn [call a_is_prograde]. rewrite A, not_zero_0. eexists; reflexivity.
  - unfold avanzini2008. cbn [call a_M]. destruct (0 <? M)%Z; [eexists; reflexivity|]. cbn [raise_if bind].
    rewrite validated_call_ok by assumption. cbv beta zeta. cbn [call a_is_prograde]. unfold get_geometry. cbv zeta. rewrite A, not_zero_0. eexists; reflexivity.
  - unfold arora2013. rewrite validated_call_ok by assumption. cbv beta zeta. cbn [call a_is_prograde]. rewrite A, not_zero_0. eexists; reflexivity.
  - unfold negrete2024. rewrite validated_call_ok by assumption. cbv beta zeta. cbn [call a_is_prograde]. rewrite A, not_zero_0. eexists; reflexivity.
  - unfold mcelreath2025. rewrite validated_call_ok by assumption. cbv beta zeta. cbn [call a_is_prograde]. rewrite A, not_zero_0. eexists; reflexivity.
Qed.
Print Assumptions C06_zero_angle_refused.

(** Four solvers refuse opposite positions with ValueError. *)
Theorem C06_straight_angle_refused : forall s ev mu r1 r2 tof M p l mi at_ rt fo,
  In s [Gauss; Jiang; Pan; Der] ->
  valid_input mu r1 r2 tof M -> opposite r1 r2 ->
  raises_ValueError (Call s ev mu r1 r2 tof M p l mi at_ rt fo).
Proof.
  intros s ev mu r1 r2 tof M p l mi at_ rt fo Hs Hv Hd.
  assert (A := angle_opposite r1 r2 p (proj1 (proj2 Hv)) Hd).
  cbn [In] in Hs.
  destruct Hs as [<-|[<-|[<-|[<-|[]]]]]; cbn [run]; unfold raises_ValueError.
  - unfold gauss1809. rewrite validated_call_ok by assumption. cbv beta zeta. cbn [call a_is_prograde]. rewrite A, not_zero_PI. cbn [bind]. rewrite not_pi_PI. eexists; reflexivity.
  - unfold jiang2016. cbn [call a_M]. destruct (0 <? M)%Z; [eexists; reflexivity|]. cbn [raise_if bind].
    rewrite validated_call_ok by assumption. cbv beta zeta. cbn [call a_is_prograde]. rewrite A, not_zero_PI. cbn [bind]. rewrite not_pi_PI. eexists; reflexivity.
  - unfold pan2016. cbn [call a_M]. destruct (0 <? M)%Z; [eexists; reflexivity|]. cbn [raise_if bind].
    rewrite validated_call_ok by assumption. cbv beta zeta. cbn [call a_is_prograde]. rewrite A, not_zero_PI. cbn [bind]. rewrite not_pi_PI. eexists; reflexivity.
  - unfold der2011. rewrite validated_call_ok by assumption. cbv beta zeta. cbn [call a_is_prograde]. rewrite A, not_zero_PI. cbn [bind]. rewrite not_pi_PI. eexists; reflexivity.
Qed.
Print Assumptions C06_straight_angle_refused.

(** Three more stop with RuntimeError. *)
Theorem C06_straight_angle_runtime_error : forall s ev mu r1 r2 tof M p l mi at_ rt fo,
  In s [Vallado; Negrete; McElreath] ->
  valid_input mu r1 r2 tof M -> opposite r1 r2 ->
  raises_RuntimeError (Call s ev mu r1 r2 tof M p l mi at_ rt fo).
Proof.
  intros s ev mu r1 r2 tof M p l mi at_ rt fo Hs Hv Hd.
  assert (A := angle_opposite r1 r2 p (proj1 (proj2 Hv)) Hd).
  pose proof PI_RGT_0 as HP.
  cbn [In] in Hs.
  destruct Hs as [<-|[<-|[<-|[]]]]; cbn [run]; unfold raises_RuntimeError.
  - unfold vallado2013. rewrite validated_call_ok by assumption. cbv beta zeta. cbn [call a_is_prograde]. rewrite A.
    match goal with |- context [@val_get_A XR ?a ?b ?c] => assert (Z : @val_get_A XR a b c = Fin 0) end.
    { unfold val_get_A. rewrite !norm_F. clear. xunf.
      replace (xltb (Fin PI) (Fin PI)) with false by (symmetry; apply xltb_Ff; lra).
      cbn [xlift1 xlift2 xadd xmul xopp]. rewrite cos_PI.
      replace (vnorm r1 * vnorm r2 * (1 + -1)) with 0 by ring.
      rewrite xpow_half by lra. rewrite sqrt_0. cbn. f_equal. ring. }
    rewrite Z. replace (@neqb XR (Fin 0) (@nofZ XR 0)) with true by (symmetry; apply xeqb_F; reflexivity). eexists; reflexivity.
  - unfold negrete2024. rewrite validated_call_ok by assumption. cbv beta zeta. cbn [call a_is_prograde]. rewrite A, not_zero_PI. cbn [bind].
    match goal with |- context [@neg_A XR ?a ?b ?c] => assert (Z : @neg_A XR a b c = Fin 0) end.
    { unfold neg_A. rewrite !norm_F. clear. xunf.
      replace (xltb (Fin PI) (Fin PI)) with false by (symmetry; apply xltb_Ff; lra).
      cbn [xlift1 xlift2 xadd xmul xopp]. rewrite cos_PI.
      replace (vnorm r1 * vnorm r2 * (1 + -1)) with 0 by ring.
      rewrite xsqrt_F by lra. rewrite sqrt_0. cbn. f_equal. ring. }
    rewrite Z. replace (@neqb XR (Fin 0) (@nofZ XR 0)) with true by (symmetry; apply xeqb_F; reflexivity). eexists; reflexivity.
  - unfold mcelreath2025. rewrite validated_call_ok by assumption. cbv beta zeta. cbn [call a_is_prograde]. rewrite A, not_zero_PI. cbn [bind].
    assert (Z : @mce_is_pi XR (Fin PI) = true).
    { unfold mce_is_pi, np_isclose. clear. xunf. apply xleb_F. rewrite sin_PI. rewrite Rminus_0_r, Rabs_R0. lra. }
    rewrite Z. eexists; reflexivity.
Qed.
Print Assumptions C06_straight_angle_runtime_error.

(** The other solvers do not check: what they return is not a number. *)
Definition vnan : vec xr := V3 NaN NaN NaN.

Lemma unit_cross_nan r1 r2 : r1 <> vzero -> r2 <> vzero -> vcross r1 r2 = vzero ->
  let i_h := @cross XR (@vdivs XR (vfin r1) (Fin (vnorm r1))) (@vdivs XR (vfin r2) (Fin (vnorm r2))) in
  @vdivs XR i_h (@norm XR i_h) = vnan.
Proof.
  intros H1 H2 Hc. pose proof (vnorm_pos _ H1) as N1. pose proof (vnorm_pos _ H2) as N2.
  rewrite !vdivs_F by lra. cbv zeta. rewrite cross_F, norm_F.
  assert (E : vcross (vmult (/ vnorm r1) r1) (vmult (/ vnorm r2) r2) = vzero).
  { transitivity (vmult (/ vnorm r1 * / vnorm r2) (vcross r1 r2)).
    - destruct r1 as [a1 b1 c1], r2 as [a2 b2 c2]; unfold vcross, vmult; cbn [vx vy vz]. apply vec_eq; cbn [vx vy vz]; ring.
    - rewrite Hc. unfold vmult, vzero; cbn [vx vy vz]. apply vec_eq; cbn [vx vy vz]; ring. }
  rewrite E. assert (Z : vnorm vzero = 0).
  { unfold vnorm, vdot, vzero; cbn [vx vy vz]. replace (0 * 0 + 0 * 0 + 0 * 0) with 0 by ring. apply sqrt_0. }
  rewrite Z. unfold vdivs, vfin, vmap, vzero, vnan. cbn [vx vy vz]. xunf. unfold xdiv. destruct (Req_EM_T 0 0); [reflexivity|lra].
Qed.

Lemma cross_nan_l v : @cross XR vnan v = vnan.
Proof. destruct v as [[a|] [b|] [c|]]; reflexivity. Qed.
Lemma cross_nan_r v : @cross XR v vnan = vnan.
Proof. destruct v as [[a|] [b|] [c|]]; reflexivity. Qed.
Lemma vadd_nan v : @vadd XR v vnan = vnan.
Proof. destruct v as [[a|] [b|] [c|]]; reflexivity. Qed.
Lemma vscale_nan k : @vscale XR k vnan = vnan.
Proof. destruct k; reflexivity. Qed.
Lemma vopp_nan : @vopp XR vnan = vnan.
Proof. reflexivity. Qed.
Lemma vdivs_0 v : @vdivs XR v (Fin 0) = vnan.
Proof. destruct v as [[a|] [b|] [c|]]; unfold vdivs, vmap, vnan; cbn [vx vy vz]; xunf; unfold xdiv; destruct (Req_EM_T 0 0); try reflexivity; lra. Qed.
Lemma vdivs_NaN v : @vdivs XR v NaN = vnan.
Proof. destruct v as [[a|] [b|] [c|]]; reflexivity. Qed.
Lemma vnan_not_finite v : vnan <> vfin v.
Proof. destruct v; discriminate. Qed.

Lemma cosang_opposite r1 r2 : r1 <> vzero -> r2 <> vzero -> opposite r1 r2 ->
  vnorm (vminus r2 r1) = vnorm r1 + vnorm r2.
Proof.
  intros H1 H2 [Hc Hd]. pose proof (vnorm_pos _ H1) as N1. pose proof (vnorm_pos _ H2) as N2.
  assert (E : vdot r1 r2 = - (vnorm r1 * vnorm r2)).
  { assert (L : vdot r1 r2 * vdot r1 r2 = (vnorm r1 * vnorm r2) * (vnorm r1 * vnorm r2)).
    { pose proof (vnorm_sq r1) as S1. pose proof (vnorm_sq r2) as S2.
      replace ((vnorm r1 * vnorm r2) * (vnorm r1 * vnorm r2)) with ((vnorm r1 * vnorm r1) * (vnorm r2 * vnorm r2)) by ring.
      rewrite S1, S2. revert Hc. clear. destruct r1 as [a b c], r2 as [x y z]. unfold vcross, vdot, vzero. cbn [vx vy vz].
      intros H. injection H as E1 E2 E3.
      assert (I : (a * a + b * b + c * c) * (x * x + y * y + z * z) - (a * x + b * y + c * z) * (a * x + b * y + c * z)
        = (b * z - c * y) * (b * z - c * y) + (c * x - a * z) * (c * x - a * z) + (a * y - b * x) * (a * y - b * x)) by ring.
      rewrite E1, E2, E3 in I. lra. }
    assert (K : 0 < vnorm r1 * vnorm r2) by (apply Rmult_lt_0_compat; assumption).
    assert (P : (vdot r1 r2 - vnorm r1 * vnorm r2) * (vdot r1 r2 + vnorm r1 * vnorm r2) = 0) by lra.
    apply Rmult_integral in P. lra. }
  assert (S : vnorm (vminus r2 r1) * vnorm (vminus r2 r1) = (vnorm r1 + vnorm r2) * (vnorm r1 + vnorm r2)).
  { rewrite vnorm_sq. transitivity (vdot r1 r1 + vdot r2 r2 - 2 * vdot r1 r2).
    - destruct r1 as [a b c], r2 as [x y z]. unfold vdot, vminus. cbn [vx vy vz]. ring.
    - rewrite E, <- !vnorm_sq. ring. }
  pose proof (vnorm_nonneg (vminus r2 r1)). nra.
Qed.

Theorem C06_straight_angle_silent_refuted : forall s ev mu r1 r2 tof M p l mi at_ rt fo o,
  In s [Battin; Gooding; Thorne; Arora; Izzo; Delatorre] ->
  valid_input mu r1 r2 tof M -> r2 <> vzero -> opposite r1 r2 ->
  Call s ev mu r1 r2 tof M p l mi at_ rt fo = Ok o ->
  out_v1 o = vnan /\ out_v2 o = vnan.
Proof.
  intros s ev mu r1 r2 tof M p l mi at_ rt fo o Hs Hv H2 Hd H.
  pose proof (proj1 (proj2 Hv)) as H1.
  assert (A := angle_opposite r1 r2 p H1 Hd). destruct (Hd) as [Hc _].
  pose proof (vnorm_pos _ H1) as N1. pose proof (vnorm_pos _ H2) as N2.
  pose proof (cosang_opposite r1 r2 H1 H2 Hd) as HC.
  assert (M1 : forall b v1 v2 n t, out_v1 (@mk_out XR b v1 v2 n t) = v1) by (intros []; reflexivity).
  assert (M2 : forall b v1 v2 n t, out_v2 (@mk_out XR b v1 v2 n t) = v2) by (intros []; reflexivity).
  cbn [In] in Hs.
  destruct Hs as [<-|[<-|[<-|[<-|[<-|[<-|[]]]]]]]; cbn [run] in H.
  - (* battin *)
    unfold battin1984 in H. rewrite validated_call_ok in H by assumption. cbv beta zeta in H.
    cbn [call a_mu a_r1 a_r2 a_tof a_M a_is_prograde a_is_low_path a_maxiter a_atol a_rtol a_full_output] in H.
    rewrite A in H.
    match type of H with context [@bat_lambda XR ?a ?b ?c] => assert (Z : @bat_lambda XR a b c = Fin 0) end.
    { unfold bat_lambda. rewrite vsub_F, !norm_F, HC. clear - N1 N2. xunf.
      replace (xltb (Fin PI) (Fin PI)) with false by (symmetry; apply xltb_Ff; lra).
      cbn [xlift1 xlift2 xadd xmul xopp xsub xabs].
      rewrite xdiv_F by lra. cbn [xlift1 xlift2 xadd xmul xopp xsub xabs].
      replace ((vnorm r1 + vnorm r2 + (vnorm r1 + vnorm r2)) / 2 * ((vnorm r1 + vnorm r2 + (vnorm r1 + vnorm r2)) / 2 - (vnorm r1 + vnorm r2))) with 0 by field.
      rewrite xsqrt_F by lra. rewrite sqrt_0. rewrite xdiv_F by lra. cbn [xlift1 xlift2 xadd xmul xopp xsub xabs].
      unfold Rdiv at 1. rewrite Rmult_0_l, Rabs_R0, Ropp_0. reflexivity. }
    rewrite Z in H. destruct (for_range _ _ _ _) as [[[n x] y]|?|?]; try discriminate.
    apply bind_ok in H. destruct H as (t & _ & H). unfold bat_velocities in H.
    match type of H with context [@vscale XR (@nopp XR ?r) _] => assert (R : r = NaN) end.
    { clear. xunf. unfold xdiv. cbn. destruct (Req_EM_T _ 0); [reflexivity|]. exfalso. apply n. ring. }
    rewrite R in H. apply ok_inj in H. subst o. rewrite M1, M2. clear.
    split; unfold vscale, vmap; cbn [vx vy vz]; reflexivity.
  - (* gooding *)
    unfold gooding1990 in H. rewrite validated_call_ok in H by assumption. cbv beta zeta in H.
    cbn [call a_mu a_r1 a_r2 a_tof a_M a_is_prograde a_is_low_path a_maxiter a_atol a_rtol a_full_output] in H.
    rewrite A, not_zero_PI in H. cbn [bind] in H.
    assert (Z : @get_orbit_normal_vector XR (vfin r1) (vfin r2) p = vnan).
    { unfold get_orbit_normal_vector. rewrite cross_F, norm_F, Hc. 
      replace (vnorm vzero) with 0 by (unfold vnorm, vdot, vzero; cbn [vx vy vz]; replace (0 * 0 + 0 * 0 + 0 * 0) with 0 by ring; symmetry; apply sqrt_0).
      rewrite vdivs_0. destruct p; reflexivity. }
    rewrite Z in H. rewrite !cross_nan_l in H. apply bind_ok in H. destruct H as ([[[[[? ?] ?] ?] ?] ?] & _ & H).
    apply ok_inj in H. subst o. rewrite M1, M2, !vscale_nan, !vadd_nan. split; reflexivity.
  - (* thorne *)
    unfold thorne2004 in H. cbn [call a_M] in H. destruct (0 <? M)%Z; [discriminate|]. cbn [raise_if bind] in H.
    rewrite validated_call_ok in H by assumption. cbv beta zeta in H. apply bind_ok in H. destruct H as ([[sma br] n] & _ & H).
    apply bind_ok in H. destruct H as (t & _ & H). unfold tho_reconstruct in H. rewrite !norm_F in H. rewrite unit_cross_nan in H by assumption.
    cbn [vz vnan] in H. rewrite ?cross_nan_l, ?cross_nan_r, ?vopp_nan in H.
    destruct (nltb _ _), (a_is_prograde _); rewrite ?vopp_nan, !vscale_nan, !vadd_nan in H; apply ok_inj in H; subst o; rewrite M1, M2; split; reflexivity.
  - (* arora *)
    unfold arora2013 in H. rewrite validated_call_ok in H by assumption. cbv beta zeta in H.
    cbn [call a_mu a_r1 a_r2 a_tof a_M a_is_prograde a_is_low_path a_maxiter a_atol a_rtol a_full_output] in H.
    rewrite A, not_zero_PI in H. cbn [bind] in H. apply bind_ok in H. destruct H as (k0 & _ & H).
    destruct (for_range _ _ _ _) as [[n k]|?|?]; try discriminate.
    apply bind_ok in H. destruct H as (t & _ & H).
    destruct (aro_velocities _ _ _ _ _ _ _ _ _ _) as [w1 w2] eqn:EV. apply ok_inj in H. subst o. rewrite M1, M2.
    unfold aro_velocities in EV. cbv zeta in EV.
    match type of EV with context [@vdivs XR _ (@nmul XR (@nmul XR ?S ?tau) ?q)] => assert (T : tau = Fin 0 \/ tau = NaN); [|assert (G : @nmul XR (@nmul XR S tau) q = Fin 0 \/ @nmul XR (@nmul XR S tau) q = NaN)] end.
    { clear - N1 N2. rewrite norm_F. rewrite !vdivs_F by lra. rewrite !norm_F. xunf.
      replace (xleb (Fin PI) (Fin PI)) with true by (symmetry; apply xleb_F; lra).
      cbn [xlift1 xlift2 xadd xmul xopp xsub xabs]. rewrite cos_PI. match goal with |- context [xsqrt (Fin ?x)] => replace x with 0 by ring end.
      rewrite xsqrt_F by lra. rewrite sqrt_0. unfold xdiv. cbn [xlift1 xlift2 xadd xmul xopp xsub xabs].
      destruct (Req_EM_T _ 0); [right; reflexivity|left; f_equal; unfold Rdiv; ring]. }
    { destruct T as [->| ->].
      - match goal with |- (@nmul XR (@nmul XR ?S _) ?q = _) \/ _ => destruct S, q end; xunf; cbn; auto. left. f_equal. ring.
      - match goal with |- (@nmul XR (@nmul XR ?S _) ?q = _) \/ _ => destruct S, q end; xunf; cbn; auto. }
    assert (W : forall u, @vdivs XR u (Fin 0) = vnan /\ @vdivs XR u NaN = vnan) by (intros u; split; [apply vdivs_0|apply vdivs_NaN]).
    clear T. destruct G as [G|G]; rewrite G in EV; rewrite ?vdivs_0, ?vdivs_NaN in EV; apply pair_equal_spec in EV; destruct EV as [<- <-]; split; reflexivity.
  - (* izzo *)
    unfold izzo2015 in H. apply bind_ok in H. destruct H as ([] & _ & H). cbn [call a_mu a_r1 a_r2 a_tof a_M a_is_prograde a_is_low_path a_maxiter a_atol a_rtol a_full_output] in H.
    rewrite !as_vec_of_vec in H. cbn [bind] in H. unfold izzo_geometry in H. cbv zeta in H. rewrite !norm_F in H. 
    rewrite unit_cross_nan in H by assumption. cbn [vz vnan] in H. rewrite ?cross_nan_l, ?cross_nan_r, ?vopp_nan in H.
    destruct (nltb _ _), p; apply bind_ok in H; destruct H as ([x y] & _ & H); unfold izzo_velocities in H; cbv zeta in H;
      destruct (izzo_reconstruct _ _ _ _ _ _ _ _) as [[[? ?] ?] ?]; rewrite ?vopp_nan, !vscale_nan, !vadd_nan in H; apply ok_inj in H; subst o; split; reflexivity.
  - (* delatorre *)
    unfold delatorre2018 in H. rewrite validated_call_ok in H by assumption. cbv beta zeta in H.
    cbn [call a_mu a_r1 a_r2 a_tof a_M a_is_prograde a_is_low_path a_maxiter a_atol a_rtol a_full_output] in H.
    rewrite A in H. apply bind_ok in H. destruct H as ([z n] & _ & H).
    destruct (tor_velocities _ _ _ _ _ _ _ _ _) as [w1 w2] eqn:EV. apply bind_ok in H. destruct H as (t & _ & H).
    apply ok_inj in H. subst o. rewrite M1, M2. unfold tor_velocities in EV. cbv zeta in EV.
    match type of EV with context [@vdivs XR _ ?g] => assert (G : g = Fin 0 \/ g = NaN) end.
    { clear. rewrite !norm_F. xunf. cbn [xlift1 xlift2 xadd xmul xopp xsub xabs]. rewrite sin_PI.
      match goal with |- xdiv _ ?q = _ \/ _ => destruct q end; [|right; reflexivity].
      unfold xdiv. destruct (Req_EM_T _ 0); [right; reflexivity|left; f_equal; unfold Rdiv; ring]. }
    destruct G as [G|G]; rewrite G in EV; rewrite ?vdivs_0, ?vdivs_NaN in EV; apply pair_equal_spec in EV; destruct EV as [<- <-]; split; reflexivity.
Qed.
Print Assumptions C06_straight_angle_silent_refuted.

(** ** C19: gooding1990 never reports an exhausted iteration budget *)

Lemma gooding_angle r1 r2 p : r1 <> vzero -> exists th,
  @get_transfer_angle XR (vfin r1) (vfin r2) p = Fin th /\ 0 <= th <= 2 * PI.
Proof.
  intros H1. pose proof PI_RGT_0. destruct (vzero_dec (vcross r1 r2)) as [E|E].
  - rewrite (get_transfer_angle_collinear r1 r2 p H1 E). eexists. split; [reflexivity|]. destruct (Rlt_dec _ _); lra.
  - pose proof (get_transfer_angle_F r1 r2 p E) as ET. eexists. split; [exact ET|].
    pose proof (ang0_bound r1 r2 E). destruct (short_way_dec _ _ _); lra.
Qed.

(** With [M = 0] the call returns for every [maxiter] (0 and negative values
    included) and all tolerances, unless the positions are parallel. *)
Theorem C19_gooding_always_returns_refuted :
  forall ev mu r1 r2 tof p l (maxiter : Z) at_ rt,
  (1 <= e_fuel ev)%nat ->
  valid_input mu r1 r2 tof 0 -> ~ same_direction r1 r2 ->
  exists o, Call Gooding ev mu r1 r2 tof 0 p l maxiter at_ rt false = Ok o.
Proof.
  intros ev mu r1 r2 tof p l mi at_ rt Hf Hv Hd. pose proof (proj1 (proj2 Hv)) as H1.
  cbn [run]. unfold gooding1990. rewrite validated_call_ok by assumption. cbv beta zeta.
  cbn [call a_mu a_r1 a_r2 a_tof a_M a_is_prograde a_is_low_path a_maxiter a_atol a_rtol a_full_output].
  destruct (gooding_angle r1 r2 p H1) as (th & ET & Hth). rewrite ET.
  assert (NZ : th <> 0).
  { intros ->. apply Hd. destruct (vzero_dec (vcross r1 r2)) as [E|E].
    - split; [assumption|]. rewrite (get_transfer_angle_collinear r1 r2 p H1 E) in ET. destruct (Rlt_dec _ _); [assumption|].
      apply Fin_inj in ET. pose proof PI_RGT_0. lra.
    - exfalso. destruct (transfer_angle_facts r1 r2 p 0 E ET) as [? _]. lra. }
  assert (C : @assert_transfer_angle_not_zero XR (Fin th) = Ok tt).
  { unfold assert_transfer_angle_not_zero. xunf. replace (xeqb (Fin th) (Fin 0)) with false; [reflexivity|]. symmetry; apply xeqb_Ff; assumption. }
  rewrite C. cbn [bind]. unfold vlamb.
  assert (E : forall fuel, (1 <= fuel)%nat ->
    @goo_reduce XR fuel (@nadd XR (@nmul XR (@nmul XR (@nofZ XR 2) (@npi XR)) (@nofZ XR 0)) (Fin th)) = Break (Fin th, 0%Z)).
  { intros [|k] Hk; [lia|]. unfold goo_reduce. cbn [while_true]. clear - Hth. xunf. cbn [xlift2 xadd xmul].
    replace (2 * PI * 0 + th) with th by ring.
    replace (xltb (Fin (2 * PI)) (Fin th)) with false by (symmetry; apply xltb_Ff; lra). reflexivity. }
  rewrite E by assumption. cbn [fst snd].
  destruct (goo_geometry _ _ _ _) as [[[[[mus s] qq] q] rho] sg].
  unfold xlamb. cbv zeta. cbn [Z.eqb]. destruct (tlamb _ _ _ _ _) as [[[t0 t1] t2] t3].
  unfold goo_finish. destruct (xlamb_iter _ _ _ _ _ _ _ _) as [x n]. cbn [time_per_iteration bind].
  destruct (goo_components _ _ _ _ _ _ _ _ _) as [[[? ?] ?] ?]. cbn [bind]. eexists. reflexivity.
Qed.
Print Assumptions C19_gooding_always_returns_refuted.

(** ** C21: the flag [full_output] turns an answer into a ZeroDivisionError *)
Theorem C21_zero_division_refuted :
  forall ev mu r1 r2 tof p l at_ rt,
  (1 <= e_fuel ev)%nat ->
  valid_input mu r1 r2 tof 0 -> ~ same_direction r1 r2 ->
  (exists o, Call Gooding ev mu r1 r2 tof 0 p l 0 at_ rt false = Ok o)
  /\ Call Gooding ev mu r1 r2 tof 0 p l 0 at_ rt true = Err ZeroDivisionError.
Proof.
  intros ev mu r1 r2 tof p l at_ rt Hf Hv Hd.
  pose proof (C19_gooding_always_returns_refuted ev mu r1 r2 tof p l 0 at_ rt Hf Hv Hd) as Q. split; [exact Q|].
  destruct Q as (o & Q). revert Q. cbn [run]. unfold gooding1990. rewrite !validated_call_ok by assumption. cbv beta zeta.
  cbn [call a_mu a_r1 a_r2 a_tof a_M a_is_prograde a_is_low_path a_maxiter a_atol a_rtol a_full_output].
  destruct (assert_transfer_angle_not_zero _); [|discriminate]. cbn [bind]. unfold vlamb.
  destruct (gooding_angle r1 r2 p (proj1 (proj2 Hv))) as (th & ET & Hth). rewrite ET.
  assert (E : forall fuel, (1 <= fuel)%nat ->
    @goo_reduce XR fuel (@nadd XR (@nmul XR (@nmul XR (@nofZ XR 2) (@npi XR)) (@nofZ XR 0)) (Fin th)) = Break (Fin th, 0%Z)).
  { intros [|k] Hk; [lia|]. unfold goo_reduce. cbn [while_true]. clear - Hth. xunf. cbn [xlift2 xadd xmul].
    replace (2 * PI * 0 + th) with th by ring.
    replace (xltb (Fin (2 * PI)) (Fin th)) with false by (symmetry; apply xltb_Ff; lra). reflexivity. }
  rewrite E by assumption. cbn [fst snd].
  destruct (goo_geometry _ _ _ _) as [[[[[mus s] qq] q] rho] sg].
  unfold xlamb. cbv zeta. cbn [Z.eqb]. destruct (tlamb _ _ _ _ _) as [[[t0 t1] t2] t3].
  unfold goo_finish. unfold xlamb_iter. cbn [Z.to_nat for_range time_per_iteration Z.eqb bind]. intros _. reflexivity.
Qed.
Print Assumptions C21_zero_division_refuted.

(** ** C02: a null arrival position *)

Lemma null_opposite r1 : opposite r1 vzero.
Proof. destruct r1 as [a b c]. split; unfold vcross, vdot, vzero; cbn [vx vy vz]; [apply vec_eq; cbn [vx vy vz]; ring|lra]. Qed.

Theorem C02_null_arrival_refused_partial : forall s ev mu r1 tof M p l mi at_ rt fo,
  In s [Gauss; Jiang; Pan; Der] ->
  valid_input mu r1 vzero tof M ->
  raises_ValueError (Call s ev mu r1 vzero tof M p l mi at_ rt fo).
Proof. intros. apply C06_straight_angle_refused; auto using null_opposite. Qed.
Print Assumptions C02_null_arrival_refused_partial.

(** Not with ValueError, and not because it is null. *)
Theorem C02_null_arrival_refuted : forall s ev mu r1 tof M p l mi at_ rt fo,
  In s [Vallado; Negrete; McElreath] ->
  valid_input mu r1 vzero tof M ->
  raises_RuntimeError (Call s ev mu r1 vzero tof M p l mi at_ rt fo).
Proof. intros. apply C06_straight_angle_runtime_error; auto using null_opposite. Qed.
Print Assumptions C02_null_arrival_refuted.

(** gooding1990 even returns. *)
Theorem C02_null_arrival_accepted_refuted : forall ev mu r1 tof p l mi at_ rt,
  (1 <= e_fuel ev)%nat -> valid_input mu r1 vzero tof 0 ->
  exists o, Call Gooding ev mu r1 vzero tof 0 p l mi at_ rt false = Ok o.
Proof.
  intros. apply C19_gooding_always_returns_refuted; auto. intros [_ H1]. destruct (null_opposite r1) as [_ H2]. lra.
Qed.
Print Assumptions C02_null_arrival_accepted_refuted.

(** ** C03 *)

(** Every number system: izzo2015 does not know the keyword [full_output]. *)
Theorem C03_signature_refuted : forall {N : Num} (ev : env) (a : args),
  a_full_output a = true ->
  run Izzo ev a = Err (TypeError "got an unexpected keyword argument 'full_output'").
Proof. intros N ev a H. cbn [run]. unfold izzo2015. rewrite H. reflexivity. Qed.
Print Assumptions C03_signature_refuted.

(** ... and does not validate: a negative gravitational parameter ends in
    RuntimeError after the whole iteration budget, never in ValueError. *)
Lemma householder_nan ll M at_ rt n : @izzo_householder XR NaN NaN ll M at_ rt n = Err (RuntimeError "Failed to converge").
Proof.
  unfold izzo_householder.
  assert (L : forall k i, for_range (@izzo_householder_body XR NaN ll M at_ rt) k i NaN = Next NaN).
  { induction k as [|k IH]; intros i; [reflexivity|]. cbn [for_range].
    assert (B : @izzo_householder_body XR NaN ll M at_ rt i NaN = Next NaN) by reflexivity.
    rewrite B. apply IH. }
  rewrite L. reflexivity.
Qed.

Theorem C03_validation_refuted : forall ev mu r1 r2 tof M p l mi at_ rt,
  mu < 0 -> non_collinear r1 r2 ->
  Call Izzo ev mu r1 r2 tof M p l mi at_ rt false = Err (RuntimeError "Failed to converge").
Proof.
  intros ev mu r1 r2 tof M p l mi at_ rt Hmu Hn. cbn [run]. unfold izzo2015.
  cbn [call a_mu a_r1 a_r2 a_tof a_M a_is_prograde a_is_low_path a_maxiter a_atol a_rtol a_full_output raise_if bind].
  rewrite !as_vec_of_vec. cbn [bind].
  destruct (izzo_geometry_F r1 r2 p Hn) as (e & ll & t1 & t2 & EG & _ & _ & LF & _).
  rewrite EG. cbv beta iota. destruct (semiper_pos _ _ Hn) as [Hs _].
  assert (T : @nsqrt XR (@ndiv XR (@nmul XR (@nofZ XR 2) (Fin mu)) (cube (Fin (semiper r1 r2)))) = NaN).
  { assert (Hc : 0 < semiper r1 r2 * semiper r1 r2 * semiper r1 r2) by (apply Rmult_lt_0_compat; [apply Rmult_lt_0_compat|]; assumption).
    clear - Hc Hmu. xunf. cbn [xmul xlift2]. set (c := semiper r1 r2 * semiper r1 r2 * semiper r1 r2) in *. clearbody c.
    rewrite xdiv_F by lra. unfold xsqrt. assert (I : 0 < / c) by (apply Rinv_0_lt_compat; assumption).
    cbn [xpart1]; destruct (Rle_dec 0 (2 * mu / c)) as [C|C]; [|reflexivity]. exfalso.
    unfold Rdiv in C. nra. }
  rewrite T. assert (T2 : @nmul XR NaN (Fin tof) = NaN) by reflexivity. rewrite T2.
  unfold izzo_find_xy.
  assert (L : negb (@nltb XR (@nabs XR (Fin ll)) (@nofZ XR 1)) = false).
  { pose proof (lf_sq _ _ _ _ LF) as L2. pose proof (chord_pos _ _ Hn) as Hc.
    clear - L2 Hc Hs. set (sp := semiper r1 r2) in *. set (c := chord r1 r2) in *. clearbody sp c.
    assert (ll * ll < 1) by nra. clear - H.
    xunf. cbn [xabs xlift1]. apply negb_false_iff, xltb_F. apply Rabs_def1; nra. }
  rewrite L. clear - Hmu.
  assert (F1 : forall b, @nltb XR NaN b = false) by reflexivity.
  assert (F2 : forall a b : xr, @nltb XR (@nadd XR NaN a) b = false) by reflexivity.
  assert (F3 : @nfloor XR (@ndiv XR NaN (@npi XR)) = NaN) by reflexivity.
  assert (F4 : forall b, @nleb XR b NaN = false) by (intros []; reflexivity).
  assert (F5 : forall b, @nltb XR NaN b = false) by (intros []; reflexivity).
  cbv zeta. rewrite F3, F1. cbn [andb bind]. rewrite F5.
  assert (G : @izzo_initial_guess XR NaN (Fin ll) (@nofZ XR M) l = NaN).
  { unfold izzo_initial_guess. destruct (neqb _ _).
    - cbv zeta. rewrite F4, F1.
      assert (W : forall a b c d : xr, @nsub XR (@nexp XR (@ndiv XR (@nmul XR a (@nln XR (@ndiv XR NaN b))) c)) d = NaN) by (intros [] [] [] []; reflexivity).
      apply W.
    - cbv zeta. destruct l; unfold np_max, np_min.
      + assert (U : forall a b, @npow XR (@ndiv XR a (@nmul XR b NaN)) (@ndiv XR (@nofZ XR 2) (@nofZ XR 3)) = NaN) by (intros [] []; reflexivity).
        rewrite !U. reflexivity.
      + assert (U : forall a b, @npow XR (@ndiv XR a (@nmul XR b NaN)) (@ndiv XR (@nofZ XR 2) (@nofZ XR 3)) = NaN) by (intros [] []; reflexivity).
        rewrite !U. reflexivity. }
  rewrite G, householder_nan. reflexivity.
Qed.
Print Assumptions C03_validation_refuted.

(** ** Concrete inputs meeting the hypotheses *)
Definition ex_east2 : rvec := V3 2 0 0.
Definition ex_east1 : rvec := V3 1 0 0.
Definition ex_west1 : rvec := V3 (-1) 0 0.
Definition ex_north1 : rvec := V3 0 1 0.

Ltac inputs :=
  repeat split; try lra; try lia;
  try (unfold vzero, ex_east1, ex_east2, ex_west1, ex_north1; let H := fresh in intros H; inversion H; lra);
  unfold vcross, vdot, vzero, ex_east1, ex_east2, ex_west1, ex_north1; cbn [vx vy vz];
  try (apply vec_eq; cbn [vx vy vz]; ring); try lra.

Example C06_case_zero_angle : valid_input 1 ex_east1 ex_east2 1 0 /\ same_direction ex_east1 ex_east2.
Proof. inputs. Qed.
Example C06_case_straight_angle : valid_input 1 ex_east1 ex_west1 1 0 /\ opposite ex_east1 ex_west1 /\ ex_west1 <> vzero.
Proof. inputs. Qed.
Example C02_case_null_arrival : valid_input 1 ex_east1 vzero 1 0.
Proof. inputs. Qed.
(** A call that returns, and its answer is NaN throughout. *)
Example C06_case_silent : exists o,
  Call Gooding (@Env XR (fun _ => Fin 0) 1 (fun _ _ _ _ _ _ => Err (ValueError "")) (fun _ _ _ _ => Err (ValueError "")))
    1 ex_east1 ex_west1 1 0 true true 35 0 0 false = Ok o
  /\ out_v1 o = vnan /\ out_v2 o = vnan.
Proof.
  destruct C06_case_straight_angle as (Hv & Ho & Hn).
  edestruct C19_gooding_always_returns_refuted as (o & E); [| exact Hv | |].
  3:{ exists o. split; [exact E|]. eapply C06_straight_angle_silent_refuted; [| exact Hv | exact Hn | exact Ho | exact E]. cbn; tauto. }
  - cbn. lia.
  - intros [_ H]. destruct Ho as [_ H']. lra.
Qed.
Example C19_case : valid_input 1 ex_east1 ex_north1 1 0 /\ ~ same_direction ex_east1 ex_north1.
Proof. split; [inputs|]. intros [_ H]. unfold vdot, ex_east1, ex_north1 in H; cbn [vx vy vz] in H. lra. Qed.
Example C03_case_negative_mu : (-1 < 0)%R /\ non_collinear ex_east1 ex_north1.
Proof.
  split; [lra|]. unfold non_collinear, vcross, vzero, ex_east1, ex_north1; cbn [vx vy vz]. intros H.
  assert (E : 1 * 1 - 0 * 0 = 0) by (change (vz (V3 (0 * 0 - 0 * 1) (0 * 0 - 1 * 0) (1 * 1 - 0 * 0)) = 0); rewrite H; reflexivity). lra.
Qed.
