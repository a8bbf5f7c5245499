(** * Internal errors that do leave a solver, and cases for C53 and C54. *)
From Coq Require Import String ZArith List Bool Lia Reals Lra Psatz.
From Verif Require Import Num XReal XRealLemmas MApi ApiFacts Loops MLinalg MScipy MAssertions MAngles MGooding MIzzo MInit
  Spec SpecLambert VecFacts VecXR AnglesXR CallXR Godal GodalIzzo GodalXR GodalPan OrbitXR JiangLoop
  PropertiesAngles PropertiesMotion PropertiesOrbit PropertiesFlags PropertiesDerMin PropertiesExceptions PropertiesTermination PropertiesTerminationXR.
Local Open Scope R_scope.

(** ** C54 *)

Lemma while_true_raise {A S} (body : S -> flow A S) : (forall t e, body t <> Raise e) ->
  forall fuel s e, while_true body fuel s = Raise e -> e = OutOfFuel.
Proof.
  intros H fuel. induction fuel as [|n IH]; intros s e E; cbn [while_true] in E; [congruence|].
  destruct (body s) eqn:B; [discriminate|eauto|]. now destruct (H s e0).
Qed.

(** gooding1990 with complete revolutions and no iteration allowed reads a loop
    variable that was never set, on every geometry. *)
Theorem C54_gooding_refuted : forall mu r1 r2 tof M prograde low_path maxiter atol rtol full_output,
  0 < mu -> 0 < tof -> non_collinear r1 r2 -> (1 <= M)%Z -> (maxiter <= 0)%Z ->
  exists n, forall ev, (n <= e_fuel ev)%nat ->
  run Gooding ev (call mu r1 r2 tof M prograde low_path maxiter atol rtol full_output) = Err (UnboundLocalError "numiter").
Proof.
  intros mu r1 r2 tof M p l mi at_ rt fo Hm Ht Hn HM Hmi.
  destruct (transfer_angle r1 r2 p Hn) as (th & ET & F).
  destruct (goo_reduce_ends (Fin (2 * PI * IZR M + th))) as (n & E). exists n. intros ev Hf. specialize (E _ Hf).
  cbn [run]. unfold gooding1990. rewrite validated_call_ok by (destruct (non_collinear_valid mu r1 r2 tof Hm Ht Hn) as (V1 & V2 & V3 & V4 & _); repeat split; try assumption; lia).
  cbn [call a_mu a_tof a_M a_is_prograde a_is_low_path a_maxiter a_atol a_rtol a_full_output]. rewrite ET. cbv zeta.
  unfold assert_transfer_angle_not_zero. replace (@neqb XR (Fin th) (nofZ 0)) with false.
  2: { symmetry. apply (xeqb_Ff th 0). intros E0. apply (af_sin _ _ _ _ F). rewrite E0. apply sin_0. }
  cbn [bind]. unfold vlamb. change (@nadd XR (@nmul XR (@nmul XR (nofZ 2) npi) (nofZ M)) (Fin th)) with (Fin (2 * PI * IZR M + th)).
  destruct (@goo_reduce XR (e_fuel ev) (Fin (2 * PI * IZR M + th))) as [[r m]|s|e] eqn:ER.
  - apply goo_reduce_F in ER; [|apply (af_range _ _ _ _ F)|lia]. destruct ER as [-> ->].
    destruct (goo_geometry _ _ _ _) as [[[[[mus s] qq] q] rho] sg]. unfold xlamb. cbv zeta.
    replace (M =? 0)%Z with false by (symmetry; apply Z.eqb_neq; lia). replace (mi <=? 0)%Z with true by (symmetry; apply Z.leb_le; lia). reflexivity.
  - exfalso. unfold goo_reduce in ER. now apply while_true_not_next in ER.
  - exfalso. apply E. apply (f_equal (@Raise (xr * Z) (xr * Z))). unfold goo_reduce in ER. revert ER. apply while_true_raise. intros [t k] e'. destruct (@nltb XR _ _); discriminate.
Qed.
Print Assumptions C54_gooding_refuted.

(** izzo2015 between a point and itself fails on its internal assertion. *)
Theorem C54_izzo_refuted : forall ev mu r tof M prograde low_path maxiter atol rtol,
  r <> vzero -> run Izzo ev (call mu r r tof M prograde low_path maxiter atol rtol false) = Err AssertionError.
Proof.
  intros ev mu r tof M p l mi at_ rt Hr. pose proof (vnorm_pos _ Hr) as N. cbn [run]. unfold izzo2015.
  cbn [call a_mu a_r1 a_r2 a_tof a_M a_is_prograde a_is_low_path a_maxiter a_atol a_rtol a_full_output raise_if bind].
  rewrite !as_vec_of_vec. cbn [bind]. unfold izzo_geometry. rewrite vsub_F, !norm_F.
  assert (Z : vnorm (vminus r r) = 0). { replace (vminus r r) with vzero by (vdes; vunf; f_equal; ring). unfold vnorm, vdot, vzero. cbn [vx vy vz]. replace (_ + _ + _) with 0 by ring. apply sqrt_0. }
  rewrite Z. cbv zeta.
  assert (L : @nsqrt XR (@nsub XR (nofZ 1) (pymin (nofZ 1) (@ndiv XR (Fin 0) (@nmul XR (@nadd XR (@nadd XR (Fin (vnorm r)) (Fin (vnorm r))) (Fin 0)) (nlit 1 2))))) = Fin 1).
  { xunf. cbn [xlift2 xadd xmul]. rewrite xdiv_F by lra. unfold pymin.
    replace (@nltb XR _ _) with true. 2: { symmetry. apply xltb_F. unfold Rdiv. rewrite Rmult_0_l. lra. }
    unfold Rdiv. rewrite Rmult_0_l. cbn [xsub xlift2]. rewrite xsqrt_F by lra. f_equal. replace (1 - 0) with 1 by ring. apply sqrt_1. }
  rewrite L. set (b := @nltb XR _ (nofZ 0)).
  assert (A : forall ll, ll = Fin 1 \/ ll = Fin (-1) -> forall T, @izzo_find_xy XR ll T (nofZ M) mi (Fin at_) (Fin rt) l = Err AssertionError).
  { intros ll Hl T. unfold izzo_find_xy. replace (@nltb XR (@nabs XR ll) (nofZ 1)) with false; [reflexivity|]. symmetry.
    destruct Hl as [->| ->]; [apply (xltb_Ff (Rabs 1) 1); rewrite Rabs_R1; lra|apply (xltb_Ff (Rabs (-1)) 1); rewrite Rabs_left; lra]. }
  assert (O1 : @nopp XR (Fin 1) = Fin (-1)) by (apply (f_equal Fin); lra). assert (O2 : @nopp XR (Fin (-1)) = Fin 1) by (apply (f_equal Fin); lra).
  clearbody b. destruct b, p; cbv beta iota; rewrite ?O1, ?O2; rewrite A by auto; reflexivity.
Qed.
Print Assumptions C54_izzo_refuted.

(** The hypothesis of [C54_exceptions] holds of a scipy that never finds a root. *)
Example C54_case : scipy_exceptions no_scipy.
Proof.
  intros P PV PR f Hf. split.
  - intros lo hi xt rt n e H. injection H as <-. apply PV.
  - intros lo hi xt e H. injection H as <-. apply PV.
Qed.
(** ... and of one that evaluates the function and passes its exception on. *)
Example C54_case_brentq x : scipy_exceptions (brentq_at x).
Proof.
  intros P PV PR f Hf. split.
  - intros lo hi xt rt n e. cbn [brentq_at e_brentq]. 
    destruct (_ || _); [intros H; injection H as <-; apply PV|]. destruct (f (Fin x)) as [v|e'] eqn:E; intros H; [|injection H as <-; exact (Hf _ _ E)].
    destruct (@neqb XR v (nofZ 0)); [discriminate H|injection H as <-; apply PR || apply PV].
  - intros lo hi xt e H. cbn in H. now (discriminate H || (injection H as <-; apply PV)).
Qed.

(** ** Cases for C53 *)
Example C53_case : terminates Der (call 1 ex_r1 ex_r2 1 0 true true 35 0 0 false)
  /\ terminates Thorne (call 1 ex_r1 ex_r2 1 0 true true 35 0 0 false)
  /\ terminates Delatorre (call 1 ex_r1 ex_r2 1 0 true true 35 0 0 false).
Proof.
  destruct ex_norms as (N1 & N2 & _).
  split; [|split]; [apply C53_der|apply C53_thorne|apply C53_delatorre]; try exact ex_non_collinear; try lra.
  rewrite N1, N2. unfold vnorm, vdot, vminus, ex_r1, ex_r2. cbn [vx vy vz].
  apply Rsqr_incr_0_var; [|apply sqrt_pos]. unfold Rsqr. rewrite sqrt_sqrt; lra.
Qed.
