(** * Returned velocities solve Lambert's problem: C13 (vallado2013). *)
From Coq Require Import Reals ZArith Bool Lra Lia Psatz.
From Verif Require Import Num XReal XRealLemmas MApi MLinalg MAngles MStumpff MVallado
  Spec SpecLambert VecFacts VecXR AnglesXR StumpffXR LambertUV CallXR ValladoXR PropertiesAngles.
Local Open Scope R_scope.

(** The solver's output consists of the finite velocities [v1] and [v2]. *)
Definition delivers (o : @out XR) (v1 v2 : rvec) : Prop :=
  out_v1 o = vfin v1 /\ out_v2 o = vfin v2.

(** ** C13 *)

(** Whenever vallado2013 returns, it returns the velocities of a two-body
    motion from [r1] to [r2] with less than one revolution (whatever the
    argument [M] was) whose duration [T] meets the requested time of flight
    within the relative tolerance. *)
Theorem C13_vallado_solves_lambert :
  forall clock fuel mu r1 r2 tof M prograde low_path maxiter atol rtol full_output o,
  non_collinear r1 r2 -> rtol <= 1 ->
  @vallado2013 XR clock fuel
    (call mu r1 r2 tof M prograde low_path maxiter atol rtol full_output) = Ok o ->
  exists v1 v2 T,
    delivers o v1 v2 /\ lambert_solution mu r1 v1 r2 v2 T 0 /\ Rabs (T - tof) < rtol * tof.
Proof.
  intros clock fuel mu r1 r2 tof M p l mi a r f o Hn Hr H.
  destruct (vallado_sound _ _ _ _ _ _ _ _ _ _ _ _ _ _ Hn Hr H) as (v1 & v2 & T & A & B & C & D & _).
  exists v1, v2, T. unfold delivers. auto.
Qed.
Print Assumptions C13_vallado_solves_lambert.

(** A quarter turn around mu = 1 with the flight time of the parabola. *)
Lemma ex_norms : vnorm ex_r1 = 1 /\ vnorm ex_r2 = 1 /\ vdot ex_r1 ex_r2 = 0.
Proof.
  unfold vnorm, ex_r1, ex_r2; vunf.
  replace (1 * 1 + 0 * 0 + 0 * 0) with 1 by ring.
  replace (0 * 0 + 1 * 1 + 0 * 0) with 1 by ring. rewrite sqrt_1. repeat split; ring.
Qed.
Example C13_case : exists tof o,
  non_collinear ex_r1 ex_r2 /\ 1 / 10000000 <= 1 /\
  @vallado2013 XR (fun _ => Fin 0) 1
    (call 1 ex_r1 ex_r2 tof 0 true true 35 (1 / 100000) (1 / 10000000) true) = Ok o.
Proof.
  destruct ex_norms as (N1 & N2 & D).
  assert (Q : 0 < sqrt 2 < 2).
  { split; [apply sqrt_lt_R0; lra|]. rewrite <- (sqrt_square 2) at 2 by lra.
    apply sqrt_lt_1; lra. }
  set (y := 2 - sqrt 2). assert (Hy : 0 < y) by (unfold y; lra).
  pose proof (sqrt_lt_R0 y Hy) as Hs.
  set (x := sqrt (y / (1 / 2))).
  assert (Hx : 0 <= x) by apply sqrt_pos.
  set (T := (x * x * x * (1 / 6) + 1 * sqrt y) / sqrt 1).
  assert (HT : 0 < T).
  { unfold T. rewrite sqrt_1. unfold Rdiv. rewrite Rinv_1, Rmult_1_r.
    assert (0 <= x * x * x) by (apply Rmult_le_pos; [apply Rmult_le_pos|]; assumption). lra. }
  exists T.
  edestruct (vallado_succeeds (fun _ => Fin 0) 1 ex_r1 ex_r2 true 0 true 35
     (1 / 100000) (1 / 10000000) true 1 y T 1) as [o Ho];
    try lra; try lia; auto using ex_non_collinear.
  - rewrite N1, N2, D. ring.
  - unfold short_way, ex_r1, ex_r2; vunf. lra.
  - rewrite N1, N2. unfold y. ring.
  - exists o. split; [exact ex_non_collinear|]. split; [lra|]. exact Ho.
Qed.
