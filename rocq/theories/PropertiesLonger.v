(** * C67: between the same positions a longer flight has less angular momentum the
    short way and more the long way. *)
From Coq Require Import Reals ZArith List Bool Lra Lia Psatz.
Import ListNotations.
From Verif Require Import Num XReal XRealLemmas MApi MInit Spec SpecLambert VecFacts VecXR UniversalKepler LambertUV LambertRev LambertZ ZMono LambertUnique
  Godal GodalXR GodalMore OrbitXR CallXR ValladoXR PropertiesAngles PropertiesMotion PropertiesOrbit PropertiesUnique PropertiesArora PropertiesDelatorre PropertiesPaths.
Local Open Scope R_scope.

(** A larger [V] of the Lagrange coefficients means strictly less momentum. *)
Lemma fg_moment_lt mu r1 r2 A V W v1 v2 w1 w2 : 0 < mu -> non_collinear r1 r2 -> fg_pair mu r1 r2 A V v1 v2 -> fg_pair mu r1 r2 A W w1 w2 -> V < W ->
  vnorm (vcross r1 w1) < vnorm (vcross r1 v1).
Proof.
  intros Hm Hn F G L. destruct (fg_moment_le _ _ _ _ _ _ _ _ _ _ Hm Hn F G) as [Q|Q]; [lra|exact Q|]. exfalso.
  rewrite (fg_moment _ _ _ _ _ _ _ Hm F), (fg_moment _ _ _ _ _ _ _ Hm G) in Q. pose proof (vnorm_pos _ Hn) as HN.
  apply Rmult_eq_reg_r in Q; [|lra].
  assert (A0 : 0 < Rabs A). { apply Rabs_pos_lt. intros E. pose proof (fg_A _ _ _ _ _ _ _ F) as E2. pose proof (Kgeo_pos _ _ Hn) as K0. unfold Kgeo in K0. rewrite E in E2. lra. }
  destruct (sqrt_facts _ Hm) as [M0 _]. destruct (sqrt_facts _ (fg_V _ _ _ _ _ _ _ F)) as [V0 V1]. destruct (sqrt_facts _ (fg_V _ _ _ _ _ _ _ G)) as [W0 W1].
  unfold Rdiv in Q. rewrite !Rabs_inv, !Rabs_mult, (Rabs_pos_eq (sqrt V)), (Rabs_pos_eq (sqrt W)), (Rabs_pos_eq (/ sqrt mu)) in Q by (try lra; left; now apply Rinv_0_lt_compat).
  assert (I : 0 < / sqrt mu) by now apply Rinv_0_lt_compat.
  assert (P : forall x, 0 < x -> 0 < Rabs A * x * / sqrt mu) by (intros; repeat apply Rmult_lt_0_compat; assumption).
  assert (E : Rabs A * sqrt W * / sqrt mu = Rabs A * sqrt V * / sqrt mu) by (rewrite <- (Rinv_inv (_ * sqrt W * _)), Q; apply Rinv_inv).
  apply Rmult_eq_reg_r in E; [|lra]. apply Rmult_eq_reg_l in E; [|lra]. rewrite <- V1, <- W1, E in L. lra.
Qed.

(** Two transfers of less than one revolution between the same positions in the same
    sense: the slower one has less angular momentum when both are flown the short
    way, and more when they are flown the long way. *)
Theorem C67_transfers : forall mu r1 r2 v1 v2 T w1 w2 T' prograde,
  0 < mu -> vz (vcross r1 r2) <> 0 ->
  lambert_solution mu r1 v1 r2 v2 T 0 -> moves_as_requested prograde r1 v1 ->
  lambert_solution mu r1 w1 r2 w2 T' 0 -> moves_as_requested prograde r1 w1 ->
  T < T' ->
  (short_way prograde r1 r2 -> vnorm (vcross r1 w1) < vnorm (vcross r1 v1)) /\
  (~ short_way prograde r1 r2 -> vnorm (vcross r1 v1) < vnorm (vcross r1 w1)).
Proof.
  intros mu r1 r2 v1 v2 T w1 w2 T' p Hmu Hz H1 D1 H2 D2 HT. pose proof (vz_non_collinear _ _ Hz) as Hn.
  destruct (solution_fg _ _ _ _ _ _ _ Hmu Hn H1) as (_ & A & V & z & F & Hz1 & _ & EC & ET).
  destruct (solution_fg _ _ _ _ _ _ _ Hmu Hn H2) as (_ & B & W & y & G & Hy & _ & EC' & ET').
  destruct (fg_sense _ _ _ _ _ _ _ Hmu Hn F) as [A0 SA]. destruct (fg_sense _ _ _ _ _ _ _ Hmu Hn G) as [B0 SB].
  rewrite (sense_of_request _ _ _ _ _ _ _ _ Hmu Hz H1 D1) in SA. rewrite (sense_of_request _ _ _ _ _ _ _ _ Hmu Hz H2 D2) in SB.
  destruct (norms_pos _ _ Hn) as [N1 N2]. destruct (sqrt_facts 2) as [W1 W2]; [lra|]. destruct (sqrt_facts _ Hmu) as [M1 _].
  assert (EA : A = B).
  { pose proof (fg_A _ _ _ _ _ _ _ F) as X. pose proof (fg_A _ _ _ _ _ _ _ G) as Y.
    assert (S : 0 < A <-> 0 < B) by tauto. assert (Z : (A - B) * (A + B) = 0) by lra.
    apply Rmult_integral in Z. destruct Z as [Z|Z]; [lra|]. exfalso.
    destruct (Rlt_dec 0 A) as [L|L]; [assert (0 < B) by tauto; lra|]. assert (0 < B) by lra. tauto. }
  subst B.
  assert (HQ : Rabs (sqrt 2 * A) < vnorm r1 + vnorm r2).
  { rewrite <- (Rabs_pos_eq (vnorm r1 + vnorm r2)) by lra. apply Rsqr_lt_abs_0. unfold Rsqr.
    replace (sqrt 2 * A * (sqrt 2 * A)) with ((sqrt 2 * sqrt 2) * (A * A)) by ring. rewrite W2, (fg_A _ _ _ _ _ _ _ F).
    pose proof (cauchy_strict _ _ Hn) as C. rewrite <- !vnorm_sq in C.
    assert (P0 : 0 < vnorm r1 * vnorm r2) by now apply Rmult_lt_0_compat.
    assert (L : vdot r1 r2 < vnorm r1 * vnorm r2).
    { destruct (Rlt_dec (vdot r1 r2) (vnorm r1 * vnorm r2)) as [|N]; [assumption|]. exfalso.
      assert (vnorm r1 * vnorm r2 * (vnorm r1 * vnorm r2) <= vdot r1 r2 * vdot r1 r2) by (apply Rmult_le_compat; lra).
      lra. }
    pose proof (Rle_0_sqr (vnorm r1 - vnorm r2)) as Sq. unfold Rsqr in Sq. lra. }
  set (P := vnorm r1 + vnorm r2) in *. set (Q := sqrt 2 * A) in *.
  assert (EV : V = P - Q * C0 z) by lra. assert (EW : W = P - Q * C0 y) by lra.
  pose proof (fg_V _ _ _ _ _ _ _ F) as HV. pose proof (fg_V _ _ _ _ _ _ _ G) as HW.
  rewrite EV in ET. rewrite EW in ET'. unfold Q in ET, ET'.
  rewrite tz_Gz in ET by (fold Q; lra || assumption). rewrite tz_Gz in ET' by (fold Q; lra || assumption).
  fold Q in ET, ET'.
  assert (LG : Gz P Q z < Gz P Q y).
  { apply Rmult_lt_reg_l with (sqrt 2 / sqrt mu); [now apply Rdiv_lt_0_compat|lra]. }
  assert (LZ : z < y).
  { destruct (Rtotal_order z y) as [L|[L|L]]; [assumption| |]; exfalso.
    - rewrite L in LG. lra.
    - apply (Gz_increasing P Q) in L; try assumption; lra. }
  pose proof (C0_decreasing z y LZ Hy) as LC. split; intros S.
  - apply SA in S. assert (0 < Q) by (unfold Q; now apply Rmult_lt_0_compat).
    apply (fg_moment_lt _ _ _ _ _ _ _ _ _ _ Hmu Hn F G). rewrite EV, EW. assert (Q * C0 y < Q * C0 z) by (now apply Rmult_lt_compat_l). lra.
  - rewrite SA in S. assert (0 < - Q) by (unfold Q; assert (0 < sqrt 2 * - A) by (apply Rmult_lt_0_compat; lra); lra).
    apply (fg_moment_lt _ _ _ _ _ _ _ _ _ _ Hmu Hn G F). rewrite EV, EW. assert (- Q * C0 y < - Q * C0 z) by (now apply Rmult_lt_compat_l). lra.
Qed.
Print Assumptions C67_transfers.

(** How far the time flown may be from the time requested. *)
Definition time_error (s : solver) (mu : R) (r1 r2 : rvec) (atol rtol tof : R) : R :=
  match s with
  | Vallado => rtol * tof
  | Delatorre => atol + rtol * tof
  | Arora => atol * sqrt (vnorm r1 ^ 3 / mu) + 1 / 10 ^ 16 * sqrt ((vnorm r1 + vnorm r2) ^ 3 / mu)
  | _ => 0
  end.

Lemma answer_solves s ev mu r1 r2 tof prograde low_path maxiter atol rtol full_output o v1 v2 :
  In s [Vallado; Delatorre; Arora] -> vz (vcross r1 r2) <> 0 -> 0 <= atol -> 0 <= rtol <= 1 ->
  (s = Delatorre -> 2 / 1000000 * (vnorm r1 + vnorm r2) <= vnorm (vminus r2 r1)) ->
  @run XR s ev (call mu r1 r2 tof 0 prograde low_path maxiter atol rtol full_output) = Ok o -> delivers o v1 v2 ->
  exists T, lambert_solution mu r1 v1 r2 v2 T 0 /\ Rabs (T - tof) <= time_error s mu r1 r2 atol rtol tof.
Proof.
  intros Hs Hz Ha Hr Hc H D. pose proof (vz_non_collinear _ _ Hz) as Hn. destruct Hs as [<-|[<-|[<-|[]]]]; cbn [time_error].
  - cbn [run] in H. destruct (C13_vallado_solves_lambert _ _ _ _ _ _ _ _ _ _ _ _ _ _ Hn (proj2 Hr) H) as (u1 & u2 & T & [D1 D2] & L & E).
    destruct D as [E1 E2]. rewrite E1 in D1. rewrite E2 in D2. apply vfin_inj in D1, D2. subst u1 u2. exists T. split; [exact L|lra].
  - exact (C15_delatorre_solves_lambert _ _ _ _ _ _ _ _ _ _ _ _ _ _ _ Hn (fun _ => Hc eq_refl) Ha (proj1 Hr) H D).
  - destruct (C14_arora_solves_lambert _ _ _ _ _ _ _ _ _ _ _ _ _ _ _ Hn H D) as (T & L & E). exists T. split; [|exact E].
    destruct (Rlt_dec _ 0); exact L.
Qed.

(** Answers of vallado2013, delatorre2018 and arora2013, possibly of two different ones, to
    two requests whose times differ by more than the tolerances. *)
Theorem C67_answers : forall s s' ev mu r1 r2 tof tof' prograde low_path low_path' maxiter maxiter' atol rtol full_output full_output' o v1 v2 o' w1 w2,
  In s [Vallado; Delatorre; Arora] -> In s' [Vallado; Delatorre; Arora] ->
  vz (vcross r1 r2) <> 0 -> 0 <= atol -> 0 <= rtol <= 1 ->
  (s = Delatorre \/ s' = Delatorre -> 2 / 1000000 * (vnorm r1 + vnorm r2) <= vnorm (vminus r2 r1)) ->
  @run XR s ev (call mu r1 r2 tof 0 prograde low_path maxiter atol rtol full_output) = Ok o -> delivers o v1 v2 ->
  @run XR s' ev (call mu r1 r2 tof' 0 prograde low_path' maxiter' atol rtol full_output') = Ok o' -> delivers o' w1 w2 ->
  tof + time_error s mu r1 r2 atol rtol tof < tof' - time_error s' mu r1 r2 atol rtol tof' ->
  (short_way prograde r1 r2 -> vnorm (vcross r1 w1) < vnorm (vcross r1 v1)) /\
  (~ short_way prograde r1 r2 -> vnorm (vcross r1 v1) < vnorm (vcross r1 w1)).
Proof.
  intros s s' ev mu r1 r2 tof tof' p l l' mi mi' a r f f' o v1 v2 o' w1 w2 Hs Hs' Hz Ha Hr Hc H D H' D' L.
  pose proof (vz_non_collinear _ _ Hz) as Hn.
  destruct (answer_solves s ev mu r1 r2 tof p l mi a r f o v1 v2) as (T & L1 & E1); auto.
  destruct (answer_solves s' ev mu r1 r2 tof' p l' mi' a r f' o' w1 w2) as (T' & L2 & E2); auto.
  assert (Hmu : 0 < mu).
  { destruct Hs as [<-|[<-|[<-|[]]]]; cbn [run] in H; [unfold MVallado.vallado2013 in H|unfold MDelatorre.delatorre2018 in H|unfold MArora.arora2013 in H]; apply validated_call in H; destruct H as [(X & _) _]; exact X. }
  assert (R1 : moves_as_requested p r1 v1).
  { destruct (C12_direction s ev mu r1 r2 tof 0 p l mi a r f o v1 v2) as (_ & _ & X); try assumption. destruct Hs as [<-|[<-|[<-|[]]]]; cbn; auto 15. }
  assert (R2 : moves_as_requested p r1 w1).
  { destruct (C12_direction s' ev mu r1 r2 tof' 0 p l' mi' a r f' o' w1 w2) as (_ & _ & X); try assumption. destruct Hs' as [<-|[<-|[<-|[]]]]; cbn; auto 15. }
  apply (C67_transfers mu r1 r2 v1 v2 T w1 w2 T' p); try assumption.
  pose proof (Rle_abs (T - tof)). pose proof (Rle_abs (- (T' - tof'))) as X. rewrite Rabs_Ropp in X. lra.
Qed.
Print Assumptions C67_answers.

(** Quarter turns of the unit circle in one and in two units of time, both ways. *)
Example C67_case : forall prograde, exists v1 v2 w1 w2,
  vz (vcross ex_r1 ex_r2) <> 0 /\
  lambert_solution 1 ex_r1 v1 ex_r2 v2 1 0 /\ moves_as_requested prograde ex_r1 v1 /\
  lambert_solution 1 ex_r1 w1 ex_r2 w2 2 0 /\ moves_as_requested prograde ex_r1 w1.
Proof.
  intros p. assert (Hz : vz (vcross ex_r1 ex_r2) <> 0) by (unfold vcross, ex_r1, ex_r2; cbn [vx vy vz]; lra).
  destruct (C36_zero_rev_exists 1 ex_r1 ex_r2 1 p ltac:(lra) Hz ltac:(lra)) as (v1 & v2 & L & D).
  destruct (C36_zero_rev_exists 1 ex_r1 ex_r2 2 p ltac:(lra) Hz ltac:(lra)) as (w1 & w2 & L' & D').
  exists v1, v2, w1, w2. auto.
Qed.

(** vallado2013 answers for the parabola of that quarter turn, arora2013 for a flight
    over four times as long, with the same tolerances. *)
Example C67_answers_case : exists tof tof' o v1 v2 o' w1 w2,
  vz (vcross ex_r1 ex_r2) <> 0 /\ short_way true ex_r1 ex_r2 /\
  @run XR Vallado no_scipy (call 1 ex_r1 ex_r2 tof 0 true true 35 1 (1 / 10000000) true) = Ok o /\ delivers o v1 v2 /\
  @run XR Arora no_scipy (call 1 ex_r1 ex_r2 tof' 0 true true 35 1 (1 / 10000000) true) = Ok o' /\ delivers o' w1 w2 /\
  tof + time_error Vallado 1 ex_r1 ex_r2 1 (1 / 10000000) tof < tof' - time_error Arora 1 ex_r1 ex_r2 1 (1 / 10000000) tof'.
Proof.
  destruct C14_case as (tof' & o' & w1 & w2 & L' & Hn & R' & D'). destruct ex_norms as (N1 & N2 & DD).
  assert (Q : 1 < sqrt 2 < 2).
  { split; [rewrite <- sqrt_1 at 1; apply sqrt_lt_1; lra|]. rewrite <- (sqrt_square 2) at 2 by lra. apply sqrt_lt_1; lra. }
  set (y := 2 - sqrt 2). assert (Hy : 0 < y < 1) by (unfold y; lra).
  destruct (sqrt_facts y ltac:(lra)) as [Y0 Y1]. assert (Y2 : sqrt y < 1) by nra.
  set (x := sqrt (y / (1 / 2))). assert (Hx : 0 <= x) by apply sqrt_pos. assert (X2 : x * x = y / (1 / 2)) by (apply sqrt_sqrt; lra).
  assert (X3 : x < 2) by nra.
  set (T := (x * x * x * (1 / 6) + 1 * sqrt y) / sqrt 1).
  assert (ET : T = x * x * x * (1 / 6) + sqrt y) by (unfold T; rewrite sqrt_1; field).
  assert (HT : 0 < T < 2).
  { rewrite ET, X2. assert (0 <= y / (1 / 2) * x < 4) by nra. lra. }
  edestruct (vallado_succeeds (fun _ => Fin 0) 1 ex_r1 ex_r2 true 0 true 35
     1 (1 / 10000000) true 1 y T 1) as [o Ho];
    try lra; try lia; auto using ex_non_collinear.
  - rewrite N1, N2, DD. ring.
  - unfold short_way, ex_r1, ex_r2; vunf. lra.
  - rewrite N1, N2. unfold y. ring.
  - pose proof Ho as H0. apply C13_vallado_solves_lambert in H0; [|assumption|lra]. destruct H0 as (v1 & v2 & T0 & D & _).
    exists T, tof', o, v1, v2, o', w1, w2.
    split; [unfold vcross, ex_r1, ex_r2; cbn [vx vy vz]; lra|]. split; [unfold short_way, ex_r1, ex_r2; vunf; lra|].
    split; [exact Ho|]. split; [exact D|]. split; [exact R'|]. split; [exact D'|].
    unfold time_error. rewrite N1, N2. replace (1 ^ 3 / 1) with 1 by field. rewrite sqrt_1.
    assert (S8 : sqrt ((1 + 1) ^ 3 / 1) < 3).
    { rewrite <- (sqrt_square 3) by lra. apply sqrt_lt_1; lra. }
    pose proof (sqrt_pos ((1 + 1) ^ 3 / 1)). lra.
Qed.
