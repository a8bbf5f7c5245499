(** * C59 for pan2016: reversible between close distances. *)
From Coq Require Import Reals ZArith String List Bool Lra Lia Psatz.
Import ListNotations.
From Verif Require Import Num XReal XRealLemmas MApi ApiFacts MAssertions MLinalg MAngles MScipy MVallado MPan MInit
  Spec VecFacts VecXR AnglesXR CallXR RotXR MirrorXR ReverseXR Godal GodalXR GodalPan OrbitXR PropertiesAngles PropertiesMotion PropertiesOrbit PropertiesReverse.
From Coq Require Import Floats.SpecFloat.
From Verif Require Import FloatNum FloatExec PropertiesBudgetF64.
Local Open Scope R_scope.

Lemma pan_close_F a b at_ : 0 <= b -> Rabs (a - b) <= at_ + 1 / 100000000 * b ->
  @np_isclose XR (Fin a) (Fin b) (nlit 1 100000000) (Fin at_) = true.
Proof.
  intros B H. unfold np_isclose. change (xleb (Fin (Rabs (a - b))) (Fin (at_ + 1 / 100000000 * Rabs b)) = true).
  apply xleb_F. rewrite (Rabs_pos_eq b) by assumption. exact H.
Qed.

(** Distances that differ by no more than the tolerance of pan.py:97 send both
    problems to vallado2013, which is reversible: velocities, iteration counts
    and exceptions correspond. *)
Theorem C59_pan : forall ev mu r1 r2 tof M prograde low_path maxiter atol rtol full_output,
  r1 <> vzero -> r2 <> vzero ->
  Rabs (vnorm r1 - vnorm r2) <= atol + 1 / 100000000 * Rmin (vnorm r1) (vnorm r2) ->
  @run XR Pan ev (call mu r2 r1 tof M (negb prograde) low_path maxiter atol rtol full_output)
  = res_rev (@run XR Pan ev (call mu r1 r2 tof M prograde low_path maxiter atol rtol full_output)).
Proof.
  intros ev mu r1 r2 tof M p l mi a r f H1 H2 Q. cbn [run]. pose proof (vnorm_pos _ H1) as N1. pose proof (vnorm_pos _ H2) as N2.
  pose proof (Rmin_l (vnorm r1) (vnorm r2)). pose proof (Rmin_r (vnorm r1) (vnorm r2)).
  unfold pan2016. cbn [a_M call]. destruct (0 <? M)%Z; [reflexivity|]. cbn [raise_if bind].
  apply validated_rev; [assumption..|]. intros _.
  cbn [call a_mu a_tof a_M a_is_prograde a_is_low_path a_maxiter a_atol a_rtol a_full_output]. cbv zeta.
  rewrite rev_angle, !norm_F by assumption.
  destruct (assert_transfer_angle_not_zero _) as [[]|e]; [|reflexivity]. cbn [bind].
  destruct (assert_transfer_angle_not_pi _) as [[]|e]; [|reflexivity]. cbn [bind].
  rewrite !pan_close_F by (try (rewrite Rabs_minus_sym; lra); lra).
  now apply vallado_rev.
Qed.
Print Assumptions C59_pan.

(** Close distances: the quarter turn of the unit circle, which is answered in both
    directions after as many passes in double precision. *)
Example C59_pan_case : ex_r1 <> vzero /\ ex_r2 <> vzero /\
  Rabs (vnorm ex_r1 - vnorm ex_r2) <= 1 / 100000 + 1 / 100000000 * Rmin (vnorm ex_r1) (vnorm ex_r2) /\
  let go (a b : list f64) prograde := @run F64 Pan test_env
    (@Args F64 (fofZ 1) a b (fofZ 2) 0 prograde true 100 (flit 1 100000) (flit 1 10000000) true) in
  let a := [fofZ 1; fofZ 0; fofZ 0] in let b := [fofZ 0; fofZ 1; fofZ 0] in
  let count o := match o with Ok (Full _ _ n _) => Some n | _ => None end in
  count (go a b true) = count (go b a false) /\ count (go a b true) <> None.
Proof.
  split; [intros E; apply (f_equal vx) in E; unfold ex_r1, vzero in E; cbn [vx] in E; lra|].
  split; [intros E; apply (f_equal vy) in E; unfold ex_r2, vzero in E; cbn [vy] in E; lra|]. split.
  - replace (vnorm ex_r2) with (vnorm ex_r1) by (unfold vnorm, vdot, ex_r1, ex_r2; cbn [vx vy vz]; f_equal; ring).
    rewrite Rminus_eq_0, Rabs_R0, Rmin_left by lra. pose proof (vnorm_nonneg ex_r1). lra.
  - split; [vm_compute; reflexivity|vm_compute; discriminate].
Qed.
