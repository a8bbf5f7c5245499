(** * C69: the time of flight decides the kind of conic. *)
From Coq Require Import Reals ZArith List Bool Lra Lia Psatz.
Import ListNotations.
From Verif Require Import Num XReal XRealLemmas MApi MInit Spec SpecLambert VecFacts VecXR UniversalKepler LambertUV LambertRev LambertZ ZMono LambertExist LambertUnique
  Godal GodalXR GodalMore OrbitXR CallXR AnglesXR PropertiesAngles PropertiesMotion PropertiesOrbit PropertiesUnique PropertiesArora PropertiesDelatorre PropertiesPaths PropertiesLonger.
Local Open Scope R_scope.

(** The time of the universal variable zero is Euler's. *)
Lemma tz_euler mu p r1 r2 A : 0 < mu -> non_collinear r1 r2 -> A * A = vnorm r1 * vnorm r2 + vdot r1 r2 -> (0 < A <-> short_way p r1 r2) ->
  0 < vnorm r1 + vnorm r2 - sqrt 2 * A * C0 0 /\
  tz mu A (vnorm r1 + vnorm r2 - sqrt 2 * A * C0 0) 0 0 = euler_time mu p r1 r2.
Proof.
  intros Hmu Hn HA SA. destruct (norms_pos _ _ Hn) as [N1 N2]. destruct (triangle _ _ Hn) as [Tr _]. pose proof (chord_pos _ _ Hn) as Hc.
  pose proof (semiper_K r1 r2) as SK. unfold Kgeo in SK. rewrite <- HA in SK. unfold semiper in SK. unfold euler_time. fold (chord r1 r2).
  destruct at_0 as (-> & _). pose proof (Kgeo_pos _ _ Hn) as K0. unfold Kgeo in K0. rewrite <- HA in K0.
  set (P := vnorm r1 + vnorm r2) in *. set (c := chord r1 r2) in *. destruct (sqrt_facts 2) as [W1 W2]; [lra|]. destruct (sqrt_facts _ Hmu) as [M1 _].
  destruct (sqrt_facts (P + c)) as [A1 A2]; [lra|]. destruct (sqrt_facts (P - c)) as [B1 B2]; [lra|].
  rewrite (sqrt_mult ((P + c) * (P + c))), (sqrt_mult ((P - c) * (P - c))), !sqrt_square by (try apply Rle_0_sqr; try lra; apply Rmult_le_pos; lra).
  set (w := if short_way_dec p r1 r2 then 1 else -1). set (a := sqrt (P + c)) in *. set (b := sqrt (P - c)) in *.
  assert (Ew : w * w = 1) by (unfold w; destruct (short_way_dec p r1 r2); ring).
  assert (EA : sqrt 2 * A = a * (w * b)).
  { assert (Q : (sqrt 2 * A) * (sqrt 2 * A) = (a * b) * (a * b)).
    { transitivity ((sqrt 2 * sqrt 2) * (A * A)); [ring|]. transitivity ((a * a) * (b * b)); [|ring]. rewrite W2, A2, B2. lra. }
    assert (AB : 0 < a * b) by now apply Rmult_lt_0_compat.
    unfold w. destruct (short_way_dec p r1 r2) as [S|S].
    - apply SA in S. assert (0 < sqrt 2 * A) by now apply Rmult_lt_0_compat. nra.
    - assert (A < 0). { destruct (Rtotal_order A 0) as [|[->|]]; [assumption|lra|tauto]. } assert (0 < sqrt 2 * - A) by (apply Rmult_lt_0_compat; lra). nra. }
  assert (LA : b < a) by nra. assert (LW : w = 1 \/ w = -1) by (unfold w; destruct (short_way_dec p r1 r2); auto).
  set (y := w * b) in *. assert (Y2 : y * y = P - c) by (unfold y; transitivity (w * w * (b * b)); [ring|rewrite Ew, B2; ring]).
  assert (LY : y < a) by (unfold y; destruct LW as [-> | ->]; lra).
  assert (EV : P - sqrt 2 * A * 1 = (a - y) * (a - y) / 2) by (rewrite EA; lra).
  assert (V0 : 0 < (a - y) * (a - y) / 2) by nra. rewrite EV. split; [exact V0|]. rewrite tz_par by assumption.
  assert (SV : sqrt ((a - y) * (a - y) / 2) = (a - y) / sqrt 2).
  { rewrite sqrt_div_alt, sqrt_square by lra. reflexivity. }
  rewrite SV. assert (EA' : A = a * y / sqrt 2) by (rewrite <- EA; field; lra). rewrite EA'.
  transitivity (((a - y) * (a - y) * (a - y) / 6 + a * y * (a - y) / (sqrt 2 * sqrt 2)) / sqrt mu); [field; split; lra|]. rewrite W2.
  transitivity ((a * a * a - y * y * y) / (6 * sqrt mu)); [field; lra|]. rewrite A2, Y2. unfold y. f_equal. ring.
Qed.

(** A transfer of less than one revolution is hyperbolic, parabolic or elliptic as its
    time is less than, equal to or more than Euler's time of the parabola. *)
Theorem C69_transfers : forall mu r1 r2 v1 v2 T prograde,
  0 < mu -> vz (vcross r1 r2) <> 0 ->
  lambert_solution mu r1 v1 r2 v2 T 0 -> moves_as_requested prograde r1 v1 ->
  (T < euler_time mu prograde r1 r2 <-> 0 < energy mu r1 v1) /\
  (T = euler_time mu prograde r1 r2 <-> energy mu r1 v1 = 0) /\
  (euler_time mu prograde r1 r2 < T <-> energy mu r1 v1 < 0).
Proof.
  intros mu r1 r2 v1 v2 T p Hmu Hz H1 D1. pose proof (vz_non_collinear _ _ Hz) as Hn.
  destruct (solution_fg _ _ _ _ _ _ _ Hmu Hn H1) as (_ & A & V & z & F & Hz1 & _ & EC & ET).
  destruct (fg_sense _ _ _ _ _ _ _ Hmu Hn F) as [A0 SA]. rewrite (sense_of_request _ _ _ _ _ _ _ _ Hmu Hz H1 D1) in SA.
  destruct (norms_pos _ _ Hn) as [N1 N2]. destruct (sqrt_facts 2) as [W1 W2]; [lra|]. destruct (sqrt_facts _ Hmu) as [M1 _].
  pose proof (fg_energy _ _ _ _ _ _ _ _ Hn Hmu F EC) as EE. pose proof (fg_V _ _ _ _ _ _ _ F) as HV. pose proof (fg_A _ _ _ _ _ _ _ F) as HA.
  destruct (tz_euler mu p r1 r2 A Hmu Hn HA) as [V0 E0]; [tauto|]. rewrite <- E0.
  assert (HQ : Rabs (sqrt 2 * A) < vnorm r1 + vnorm r2).
  { rewrite <- (Rabs_pos_eq (vnorm r1 + vnorm r2)) by lra. apply Rsqr_lt_abs_0. unfold Rsqr.
    replace (sqrt 2 * A * (sqrt 2 * A)) with ((sqrt 2 * sqrt 2) * (A * A)) by ring. rewrite W2, HA.
    pose proof (cauchy_strict _ _ Hn) as C. rewrite <- !vnorm_sq in C.
    assert (P0 : 0 < vnorm r1 * vnorm r2) by now apply Rmult_lt_0_compat.
    assert (L : vdot r1 r2 < vnorm r1 * vnorm r2).
    { destruct (Rlt_dec (vdot r1 r2) (vnorm r1 * vnorm r2)) as [|N]; [assumption|]. exfalso.
      assert (vnorm r1 * vnorm r2 * (vnorm r1 * vnorm r2) <= vdot r1 r2 * vdot r1 r2) by (apply Rmult_le_compat; lra).
      lra. }
    pose proof (Rle_0_sqr (vnorm r1 - vnorm r2)) as Sq. unfold Rsqr in Sq. lra. }
  set (P := vnorm r1 + vnorm r2) in *.
  assert (EV : V = P - sqrt 2 * A * C0 z) by lra. rewrite EV in ET.
  rewrite tz_Gz in ET by (lra || assumption). rewrite tz_Gz by (lra || assumption). rewrite ET. set (Q := sqrt 2 * A) in *.
  assert (K : 0 < sqrt 2 / sqrt mu) by now apply Rdiv_lt_0_compat.
  pose proof PI_RGT_0 as HP. assert (PP : 0 < PI * PI) by nra. destruct at_0 as (C00 & _). pose proof (C0_gt_m1 z Hz1) as CM.
  assert (X : (z < 0 -> Gz P Q z < Gz P Q 0 /\ 0 < energy mu r1 v1) /\ (0 < z -> Gz P Q 0 < Gz P Q z /\ energy mu r1 v1 < 0) /\ (z = 0 -> energy mu r1 v1 = 0)).
  { rewrite EE. assert (MV : 0 < mu / V) by now apply Rdiv_lt_0_compat.
    replace (- mu * (1 - C0 z * C0 z) / V) with (mu / V * ((C0 z - 1) * (C0 z + 1))) by (field; lra). split; [|split].
    - intros L. split; [apply Gz_increasing; lra|]. pose proof (C0_decreasing z 0 L PP). apply Rmult_lt_0_compat; [exact MV|]. apply Rmult_lt_0_compat; lra.
    - intros L. split; [apply Gz_increasing; lra|]. pose proof (C0_decreasing 0 z L Hz1).
      assert (0 < mu / V * ((1 - C0 z) * (C0 z + 1))) by (apply Rmult_lt_0_compat; [exact MV|]; apply Rmult_lt_0_compat; lra). lra.
    - intros ->. rewrite C00. ring. }
  destruct X as (X1 & X2 & X3). set (G := Gz P Q z) in *. set (G0 := Gz P Q 0) in *. set (E := energy mu r1 v1) in *. set (k := sqrt 2 / sqrt mu) in *.
  destruct (Rtotal_order z 0) as [L|[L|L]].
  - destruct (X1 L) as [Y1 Y2]. assert (k * G < k * G0) by now apply Rmult_lt_compat_l. repeat split; lra.
  - pose proof (X3 L) as Y. assert (EG : G = G0) by (unfold G, G0; now rewrite L). rewrite EG. repeat split; lra.
  - destruct (X2 L) as [Y1 Y2]. assert (k * G0 < k * G) by now apply Rmult_lt_compat_l. repeat split; lra.
Qed.
Print Assumptions C69_transfers.

(** Answers of vallado2013, delatorre2018 and arora2013 to requests outside the tolerances
    of the parabolic time. *)
Theorem C69_answers : forall s ev mu r1 r2 tof prograde low_path maxiter atol rtol full_output o v1 v2,
  In s [Vallado; Delatorre; Arora] -> vz (vcross r1 r2) <> 0 -> 0 <= atol -> 0 <= rtol <= 1 ->
  (s = Delatorre -> 2 / 1000000 * (vnorm r1 + vnorm r2) <= vnorm (vminus r2 r1)) ->
  @run XR s ev (call mu r1 r2 tof 0 prograde low_path maxiter atol rtol full_output) = Ok o -> delivers o v1 v2 ->
  (tof + time_error s mu r1 r2 atol rtol tof < euler_time mu prograde r1 r2 -> 0 < energy mu r1 v1) /\
  (euler_time mu prograde r1 r2 < tof - time_error s mu r1 r2 atol rtol tof -> energy mu r1 v1 < 0).
Proof.
  intros s ev mu r1 r2 tof p l mi a r f o v1 v2 Hs Hz Ha Hr Hc H D. pose proof (vz_non_collinear _ _ Hz) as Hn.
  destruct (answer_solves s ev mu r1 r2 tof p l mi a r f o v1 v2) as (T & L1 & E1); auto.
  assert (Hmu : 0 < mu).
  { destruct Hs as [<-|[<-|[<-|[]]]]; cbn [run] in H; [unfold MVallado.vallado2013 in H|unfold MDelatorre.delatorre2018 in H|unfold MArora.arora2013 in H]; apply validated_call in H; destruct H as [(X & _) _]; exact X. }
  assert (R1 : moves_as_requested p r1 v1).
  { destruct (C12_direction s ev mu r1 r2 tof 0 p l mi a r f o v1 v2) as (_ & _ & X); try assumption. destruct Hs as [<-|[<-|[<-|[]]]]; cbn; auto 15. }
  destruct (C69_transfers mu r1 r2 v1 v2 T p Hmu Hz L1 R1) as (Q1 & _ & Q3).
  pose proof (Rle_abs (T - tof)) as B1. pose proof (Rle_abs (- (T - tof))) as B2. rewrite Rabs_Ropp in B2. split; intros L; [apply Q1|apply Q3]; lra.
Qed.
Print Assumptions C69_answers.

(** Half the parabolic time and twice it, both ways. *)
Example C69_case : forall mu r1 r2 prograde, 0 < mu -> vz (vcross r1 r2) <> 0 ->
  exists v1 v2 w1 w2, let T := euler_time mu prograde r1 r2 in 0 < T /\
  lambert_solution mu r1 v1 r2 v2 (T / 2) 0 /\ moves_as_requested prograde r1 v1 /\ 0 < energy mu r1 v1 /\
  lambert_solution mu r1 w1 r2 w2 (2 * T) 0 /\ moves_as_requested prograde r1 w1 /\ energy mu r1 w1 < 0.
Proof.
  intros mu r1 r2 p Hmu Hz. pose proof (vz_non_collinear _ _ Hz) as Hn.
  assert (HT : 0 < euler_time mu p r1 r2).
  { destruct (norms_pos _ _ Hn) as [N1 N2]. destruct (triangle _ _ Hn) as [Tr _]. pose proof (chord_pos _ _ Hn) as Hc. unfold euler_time. fold (chord r1 r2).
    set (m := _ + _ + chord r1 r2). set (n := _ - chord r1 r2). assert (Hnm : 0 < n < m) by (unfold m, n; lra).
    assert (L : n * n * n < m * m * m) by (apply Rmult_le_0_lt_compat; try nra).
    assert (0 <= n * n * n) by (repeat apply Rmult_le_pos; lra).
    assert (sqrt (n * n * n) < sqrt (m * m * m)) by (apply sqrt_lt_1; lra). pose proof (sqrt_pos (n * n * n)). destruct (sqrt_facts _ Hmu) as [M1 _].
    apply Rdiv_lt_0_compat; [destruct (short_way_dec p r1 r2); lra|lra]. }
  set (T := euler_time mu p r1 r2) in *.
  destruct (C36_zero_rev_exists mu r1 r2 (T / 2) p Hmu Hz ltac:(lra)) as (v1 & v2 & L & D).
  destruct (C36_zero_rev_exists mu r1 r2 (2 * T) p Hmu Hz ltac:(lra)) as (w1 & w2 & L' & D').
  destruct (C69_transfers _ _ _ _ _ _ _ Hmu Hz L D) as (Q1 & _). destruct (C69_transfers _ _ _ _ _ _ _ Hmu Hz L' D') as (_ & _ & Q3). fold T in Q1, Q3.
  assert (E1 : 0 < energy mu r1 v1) by (apply Q1; lra). assert (E3 : energy mu r1 w1 < 0) by (apply Q3; lra).
  exists v1, v2, w1, w2. exact (conj HT (conj L (conj D (conj E1 (conj L' (conj D' E3)))))).
Qed.

(** arora2013 answers for a time of more than four, where the parabola takes less than two. *)
Example C69_answers_case : exists tof o v1 v2,
  vz (vcross ex_r1 ex_r2) <> 0 /\
  @run XR Arora no_scipy (call 1 ex_r1 ex_r2 tof 0 true true 35 1 (1 / 10000000) true) = Ok o /\ delivers o v1 v2 /\
  euler_time 1 true ex_r1 ex_r2 < tof - time_error Arora 1 ex_r1 ex_r2 1 (1 / 10000000) tof.
Proof.
  destruct C14_case as (tof & o & v1 & v2 & L & Hn & R & D). destruct ex_norms as (N1 & N2 & DD).
  exists tof, o, v1, v2. split; [unfold vcross, ex_r1, ex_r2; cbn [vx vy vz]; lra|]. split; [exact R|]. split; [exact D|].
  unfold time_error. rewrite N1, N2. replace (1 ^ 3 / 1) with 1 by field. rewrite sqrt_1.
  assert (S8 : sqrt ((1 + 1) ^ 3 / 1) < 3) by (rewrite <- (sqrt_square 3) by lra; apply sqrt_lt_1; lra).
  pose proof (sqrt_pos ((1 + 1) ^ 3 / 1)).
  unfold euler_time. fold (chord ex_r1 ex_r2). rewrite N1, N2. destruct (short_way_dec true ex_r1 ex_r2) as [S|S].
  2:{ exfalso. apply S. unfold short_way, ex_r1, ex_r2; vunf. lra. }
  pose proof (chord_pos _ _ Hn) as Hc. pose proof (chord_sq ex_r1 ex_r2) as C2. rewrite N1, N2, DD in C2. assert (C3 : chord ex_r1 ex_r2 < 3 / 2) by nra.
  set (c := chord ex_r1 ex_r2) in *. rewrite sqrt_1.
  assert (M3 : sqrt ((1 + 1 + c) * (1 + 1 + c) * (1 + 1 + c)) < 7).
  { rewrite <- (sqrt_square 7) by lra. assert (B : (1 + 1 + c) * (1 + 1 + c) <= 49 / 4) by nra. apply sqrt_lt_1; [|lra|]; nra. }
  pose proof (sqrt_pos ((1 + 1 - c) * (1 + 1 - c) * (1 + 1 - c))). lra.
Qed.
