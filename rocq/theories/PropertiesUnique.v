(** * Uniqueness of the transfer and agreement of solvers: C36. *)
From Coq Require Import Reals ZArith Bool Lra Lia Psatz List.
From Verif Require Import Num XReal XRealLemmas MApi MLinalg MInit Spec SpecLambert VecFacts VecXR CallXR GodalXR GodalPan
  LambertRev LambertZ LambertUnique LambertExist KeplerUnique AnglesXR PropertiesAngles PropertiesMotion PropertiesOrbit.
Import ListNotations.
Local Open Scope R_scope.

(** ** C36 *)

Lemma sense_of_request mu r1 r2 v1 v2 T M (p : bool) :
  0 < mu -> vz (vcross r1 r2) <> 0 -> lambert_solution mu r1 v1 r2 v2 T M -> moves_as_requested p r1 v1 ->
  (0 < vdot (momentum r1 v1) (vcross r1 r2) <-> short_way p r1 r2).
Proof.
  intros Hmu Hz H D. pose proof (vz_non_collinear _ _ Hz) as Hn.
  destruct (solution_fg _ _ _ _ _ _ _ Hmu Hn H) as (_ & A & V & z & F & _).
  pose proof (fg_momentum _ _ _ _ _ _ _ F) as E. rewrite E, vdot_mult_l.
  unfold moves_as_requested in D. unfold short_way. rewrite E in D. set (k := / _) in *. clearbody k.
  pose proof (vdot_nonzero _ Hn) as P. set (d := vdot _ _) in *. clearbody d.
  replace (vz (vmult k (vcross r1 r2))) with (k * vz (vcross r1 r2)) in D by (vunf; ring).
  set (w := vz _) in *. clearbody w. clear - D Hz P.
  destruct p; split; intros L; nra.
Qed.

(** Lambert's problem with less than one revolution has at most one solution
    turning in the requested sense. *)
Theorem C36_zero_rev_unique : forall mu r1 r2 v1 v2 w1 w2 T prograde,
  0 < mu -> vz (vcross r1 r2) <> 0 ->
  lambert_solution mu r1 v1 r2 v2 T 0 -> moves_as_requested prograde r1 v1 ->
  lambert_solution mu r1 w1 r2 w2 T 0 -> moves_as_requested prograde r1 w1 ->
  v1 = w1 /\ v2 = w2.
Proof.
  intros mu r1 r2 v1 v2 w1 w2 T p Hmu Hz H D H' D'.
  apply (lambert_unique mu r1 r2 v1 v2 w1 w2 T); try assumption; [now apply vz_non_collinear|].
  rewrite (sense_of_request _ _ _ _ _ _ _ _ Hmu Hz H D), (sense_of_request _ _ _ _ _ _ _ _ Hmu Hz H' D'). tauto.
Qed.
Print Assumptions C36_zero_rev_unique.

(** It always has one: every time of flight is feasible for both senses. *)
Theorem C36_zero_rev_exists : forall mu r1 r2 T prograde,
  0 < mu -> vz (vcross r1 r2) <> 0 -> 0 < T ->
  exists v1 v2, lambert_solution mu r1 v1 r2 v2 T 0 /\ moves_as_requested prograde r1 v1.
Proof.
  intros mu r1 r2 T p Hmu Hz HT. pose proof (vz_non_collinear _ _ Hz) as Hn.
  pose proof (cauchy_strict _ _ Hn) as C. rewrite <- !vnorm_sq in C. destruct (norms_pos _ _ Hn) as [N1 N2].
  assert (P0 : 0 < vnorm r1 * vnorm r2) by now apply Rmult_lt_0_compat.
  assert (L : - (vnorm r1 * vnorm r2) < vdot r1 r2 < vnorm r1 * vnorm r2).
  { apply and_comm, Rabs_def2. rewrite <- (Rabs_pos_eq (vnorm r1 * vnorm r2)) by lra. apply Rsqr_lt_abs_0. unfold Rsqr. lra. }
  destruct (sqrt_facts (vnorm r1 * vnorm r2 + vdot r1 r2)) as [K1 K2]; [lra|].
  set (K := sqrt _) in *. clearbody K.
  destruct (sqrt_facts _ Hmu) as [M1 _].
  assert (W : forall A, (0 < A <-> short_way p r1 r2) -> A * A = vnorm r1 * vnorm r2 + vdot r1 r2 ->
    exists v1 v2, lambert_solution mu r1 v1 r2 v2 T 0 /\ moves_as_requested p r1 v1).
  { intros A SA EA. destruct (lambert_exists mu r1 r2 T A Hmu Hn HT EA) as (V & v1 & v2 & F & S).
    exists v1, v2. split; [assumption|]. destruct (fg_sense _ _ _ _ _ _ _ Hmu Hn F) as [A0 _].
    destruct (sqrt_facts _ (fg_V _ _ _ _ _ _ _ F)) as [V1 _].
    unfold moves_as_requested. unfold short_way in SA. rewrite (fg_momentum _ _ _ _ _ _ _ F).
    replace (vz (vmult (/ (A * sqrt V / sqrt mu)) (vcross r1 r2))) with (/ (A * sqrt V / sqrt mu) * vz (vcross r1 r2)) by (vunf; ring).
    replace (/ (A * sqrt V / sqrt mu)) with (/ A * (sqrt mu / sqrt V)) by (field; lra).
    assert (Pe : 0 < sqrt mu / sqrt V) by now apply Rdiv_lt_0_compat.
    set (e := sqrt mu / sqrt V) in *. set (w := vz _) in *. clearbody e w. clear - SA A0 Pe Hz.
    assert (I : (0 < A -> 0 < / A * e) /\ (A < 0 -> / A * e < 0)).
    { split; intros L; [apply Rinv_0_lt_compat in L|apply Rinv_lt_0_compat in L]; nra. }
    destruct I as [I1 I2]. set (i := / A * e) in *. clearbody i.
    assert (Cs : 0 < A \/ A < 0) by lra. destruct p; destruct Cs as [Cs|Cs].
    - specialize (I1 Cs). apply SA in Cs. nra.
    - specialize (I2 Cs). assert (~ 0 < w) by (intros X; apply SA in X; lra). nra.
    - specialize (I1 Cs). apply SA in Cs. nra.
    - specialize (I2 Cs). assert (~ w < 0) by (intros X; apply SA in X; lra). nra. }
  destruct (short_way_dec p r1 r2) as [S|S].
  - apply (W K); [tauto|assumption].
  - apply (W (- K)); [|replace (- K * - K) with (K * K) by ring; assumption].
    split; [lra|tauto].
Qed.
Print Assumptions C36_zero_rev_exists.

(** Two solvers, each with its own budget, tolerances and flags, called for the
    same geometry and sense: if both delivered zero-revolution transfers of the
    same duration, they delivered the same velocities. *)
Theorem C36_solvers_agree : forall s s' ev ev' mu r1 r2 tof tof' M M' prograde
    low_path low_path' maxiter maxiter' atol atol' rtol rtol' full_output full_output' o o' v1 v2 w1 w2 T,
  let direct := [Vallado; Izzo; Thorne; Delatorre; Jiang; McElreath; Negrete; Gooding; Arora] in
  In s direct -> In s' direct ->
  0 < mu -> vz (vcross r1 r2) <> 0 ->
  @run XR s ev (call mu r1 r2 tof M prograde low_path maxiter atol rtol full_output) = Ok o ->
  @run XR s' ev' (call mu r1 r2 tof' M' prograde low_path' maxiter' atol' rtol' full_output') = Ok o' ->
  delivers o v1 v2 -> delivers o' w1 w2 ->
  lambert_solution mu r1 v1 r2 v2 T 0 -> lambert_solution mu r1 w1 r2 w2 T 0 ->
  v1 = w1 /\ v2 = w2.
Proof.
  intros s s' ev ev' mu r1 r2 tof tof' M M' p l l' mi mi' a a' r r' f f' o o' v1 v2 w1 w2 T direct
    Hs Hs' Hmu Hz R R' D D' L L'.
  apply (C36_zero_rev_unique mu r1 r2 v1 v2 w1 w2 T p); try assumption.
  - exact (proj2 (proj2 (C12_direction _ _ _ _ _ _ _ _ _ _ _ _ _ _ _ _ Hs Hmu Hz R D))).
  - exact (proj2 (proj2 (C12_direction _ _ _ _ _ _ _ _ _ _ _ _ _ _ _ _ Hs' Hmu Hz R' D'))).
Qed.
Print Assumptions C36_solvers_agree.

(** Without the sense the transfer is not unique: a short and a long way round
    exist; with it, two runs of vallado2013 meet every hypothesis. *)
Example C36_case : exists tof o v1 v2 T,
  In Vallado [Vallado; Izzo; Thorne; Delatorre; Jiang; McElreath; Negrete; Gooding; Arora] /\
  0 < 1 /\ vz (vcross ex_r1 ex_r2) <> 0 /\
  @run XR Vallado no_scipy (call 1 ex_r1 ex_r2 tof 0 true true 35 (1 / 100000) (1 / 10000000) true) = Ok o /\
  delivers o v1 v2 /\ lambert_solution 1 ex_r1 v1 ex_r2 v2 T 0 /\ moves_as_requested true ex_r1 v1.
Proof.
  destruct C11_C12_case as (tof & o & w1 & w2 & Hn & Hz & _ & R & _ & _).
  pose proof R as R0. apply C13_vallado_solves_lambert in R0; [|assumption|lra].
  destruct R0 as (v1 & v2 & T & D & L & _). exists tof, o, v1, v2, T.
  assert (I : In Vallado [Vallado; Izzo; Thorne; Delatorre; Jiang; McElreath; Negrete; Gooding; Arora]) by now left.
  repeat (split; [first [assumption|lra]|]).
  exact (proj2 (proj2 (C12_direction _ _ _ _ _ _ _ _ _ _ _ _ _ _ _ _ I Rlt_0_1 Hz R D))).
Qed.
