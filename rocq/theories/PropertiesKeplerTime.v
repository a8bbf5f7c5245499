(** * C66: the mean anomalies of the library measure the time of the motion. *)
From Coq Require Import Reals ZArith Bool Lra Lia Psatz.
From Verif Require Import Num XReal XRealLemmas MApi ApiFacts CallXR GodalPan MLinalg MAngles MKepler MElements Spec SpecElements SpecLambert VecFacts VecXR ElementsXR
  KeplerXR KeplerTime PanTime PropertiesKepler PropertiesAvanziniTime.
Local Open Scope R_scope.

(** The time in which the mean anomaly grows by one: [sqrt (a^3 / mu)] on an
    ellipse, [sqrt ((-a)^3 / mu)] on a hyperbola, [sqrt (p^3 / mu) / 2] on a
    parabola. *)
Definition time_unit (mu p e : R) : R :=
  if Req_EM_T e 1 then sqrt (p ^ 3 / mu) / 2 else sqrt ((p / Rabs (1 - e * e)) ^ 3 / mu).

(** ** C66.  Let two points of one conic have the true anomalies [nu1 < nu2].  A body
    that leaves the first with the velocity [coe2rv] gives arrives at the second with the
    velocity [coe2rv] gives there after the difference of their mean anomalies
    (kepler.py:81-111) times the unit of time, without completing a turn. *)
Theorem C66_kepler_time : forall mu p e i o w nu1 nu2 M1 M2 r1 v1 r2 v2,
  0 < mu -> 0 < p -> 0 <= e -> - PI < nu1 -> nu1 < nu2 -> nu2 < PI -> 0 < 1 + e * cos nu1 -> 0 < 1 + e * cos nu2 ->
  @kepler_from_nu XR (Fin nu1) (Fin e) = Ok (Fin M1) -> @kepler_from_nu XR (Fin nu2) (Fin e) = Ok (Fin M2) ->
  @coe2rv XR (Fin mu) (Fin p) (Fin e) (Fin i) (Fin o) (Fin w) (Fin nu1) = Ok (vfin r1, vfin v1) ->
  @coe2rv XR (Fin mu) (Fin p) (Fin e) (Fin i) (Fin o) (Fin w) (Fin nu2) = Ok (vfin r2, vfin v2) ->
  lambert_solution mu r1 v1 r2 v2 (time_unit mu p e * (M2 - M1)) 0.
Proof.
  intros mu p e i o w nu1 nu2 M1 M2 r1 v1 r2 v2 Hmu Hp He L1 L L2 D1 D2 K1 K2 E1 E2. pose proof PI_RGT_0 as HP.
  rewrite coe2rv_F in E1, E2 by lra. apply Ok_inj in E1. apply Ok_inj in E2. 
  assert (Q1 : r1 = conic_position p e i o w nu1 /\ v1 = conic_velocity mu p e i o w nu1) by (split; apply vfin_inj; congruence). destruct Q1 as [-> ->].
  assert (Q2 : r2 = conic_position p e i o w nu2 /\ v2 = conic_velocity mu p e i o w nu2) by (split; apply vfin_inj; congruence). destruct Q2 as [-> ->].
  clear E1 E2. rewrite !conic_r_position, !conic_v_velocity.
  pose proof (frame_PP i o w) as PP. pose proof (frame_QQ i o w) as QQ. pose proof (frame_PQ i o w) as PQ.
  assert (T : tan (nu1 / 2) < tan (nu2 / 2)) by (apply tan_increasing; lra).
  assert (C1 : cos (nu1 / 2) <> 0) by (pose proof (half_cos nu1 ltac:(lra)); lra). assert (C2 : cos (nu2 / 2) <> 0) by (pose proof (half_cos nu2 ltac:(lra)); lra).
  assert (Z0 : @nltb XR (Fin e) (nofZ 0) = false) by (apply xltb_Ff; lra).
  assert (Z1 : @nleb XR (nofZ 0) (Fin e) = true) by (apply xleb_F; lra).
  unfold kepler_from_nu in K1, K2. rewrite Z0, Z1 in K1, K2. cbn [andb] in K1, K2. unfold time_unit.
  destruct (@nltb XR (Fin e) (nofZ 1)) eqn:LE.
  - apply xltb_F in LE. assert (HE : 0 <= e < 1) by lra. destruct (Req_EM_T e 1); [lra|]. rewrite Rabs_right by nra.
    destruct (nu_E e nu1 HE C1) as (E1 & EE1 & B1 & X1). destruct (nu_E e nu2 HE C2) as (E2 & EE2 & B2 & X2).
    assert (LT : E1 < E2).
    { rewrite nu_to_E_F in EE1, EE2 by assumption. injection EE1 as <-. injection EE2 as <-. apply Rmult_lt_compat_l; [lra|]. apply atan_increasing. destruct (kE_pos e HE) as (K & _). now apply Rmult_lt_compat_l. }
    rewrite EE1 in K1. rewrite EE2 in K2. cbn [bind] in K1, K2. apply Ok_inj in K1. apply Ok_inj in K2. injection K1 as <-. injection K2 as <-.
    replace (E2 - e * sin E2 - (E1 - e * sin E1)) with (E2 - E1 - e * (sin E2 - sin E1)) by ring.
    apply (ellipse_true _ _ PP QQ PQ mu p e Hmu Hp nu1 nu2 E1 E2); auto. lra.
  - apply xltb_Ff in LE. destruct (@neqb XR (Fin e) (nofZ 1)) eqn:LQ.
    + apply xeqb_F in LQ. subst e. destruct (Req_EM_T 1 1); [|lra]. cbn [bind] in K1, K2.
      apply Ok_inj in K1. apply Ok_inj in K2. revert K1 K2. unfold nu_to_B. xunf. rewrite !(xdiv_F _ 2) by lra. rewrite !xtan_F by assumption.
      unfold kepler_parabolic, cube. xunf. cbn [xmul xadd xsub xlift2 xlift1]. rewrite (xdiv_F 1 3) by lra. cbn [xmul xadd xsub xlift2 xlift1]. intros K1 K2. injection K1 as <-. injection K2 as <-.
      pose proof (parabola_true _ _ mu p nu1 nu2 PP QQ PQ Hmu Hp C1 C2 T) as K. cbv zeta in K. set (b1 := tan (nu1 / 2)) in *. set (b2 := tan (nu2 / 2)) in *.
      match goal with |- lambert_solution _ _ _ _ _ ?t _ => match type of K with lambert_solution _ _ _ _ _ ?t' _ => replace t with t'; [exact K|] end end. field.
    + apply xeqb_Ff in LQ. assert (HE : 1 < e) by lra. destruct (Req_EM_T e 1); [lra|]. rewrite Rabs_left by nra. replace (- (1 - e * e)) with (e * e - 1) by ring.
      destruct (nu_H e nu1 HE D1) as (F1 & EF1 & X1). destruct (nu_H e nu2 HE D2) as (F2 & EF2 & X2).
      rewrite EF1 in K1. rewrite EF2 in K2. cbn [bind] in K1, K2. apply Ok_inj in K1. apply Ok_inj in K2. injection K1 as <-. injection K2 as <-.
      replace (e * sinh F2 - F2 - (e * sinh F1 - F1)) with (e * (sinh F2 - sinh F1) - (F2 - F1)) by ring.
      apply (hyperbola_true _ _ PP QQ PQ mu p e Hmu Hp nu1 nu2 F1 F2 HE X1 X2).
      destruct (kH_pos e HE) as (K & _). pose proof (proj1 (hyperbolic_range nu1 e HE ltac:(lra)) D1) as R1. pose proof (proj1 (hyperbolic_range nu2 e HE ltac:(lra)) D2) as R2.
      rewrite nu_to_H_F in EF1, EF2 by assumption. injection EF1 as <-. injection EF2 as <-. apply Rmult_lt_compat_l; [lra|]. apply artanh_incr; try lra. now apply Rmult_lt_compat_l.
Qed.
Print Assumptions C66_kepler_time.

(** On an ellipse the body also passes the apocentre and comes back to the smaller
    anomalies, when the mean anomaly has grown by the difference and one turn. *)
Theorem C66_past_apocentre : forall mu p e i o w nu1 nu2 M1 M2 r1 v1 r2 v2,
  0 < mu -> 0 < p -> 0 <= e < 1 -> - PI < nu2 -> nu2 < nu1 -> nu1 < PI ->
  @kepler_from_nu XR (Fin nu1) (Fin e) = Ok (Fin M1) -> @kepler_from_nu XR (Fin nu2) (Fin e) = Ok (Fin M2) ->
  @coe2rv XR (Fin mu) (Fin p) (Fin e) (Fin i) (Fin o) (Fin w) (Fin nu1) = Ok (vfin r1, vfin v1) ->
  @coe2rv XR (Fin mu) (Fin p) (Fin e) (Fin i) (Fin o) (Fin w) (Fin nu2) = Ok (vfin r2, vfin v2) ->
  lambert_solution mu r1 v1 r2 v2 (time_unit mu p e * (M2 - M1 + 2 * PI)) 0.
Proof.
  intros mu p e i o w nu1 nu2 M1 M2 r1 v1 r2 v2 Hmu Hp HE L1 L L2 K1 K2 E1 E2. pose proof PI_RGT_0 as HP.
  assert (D1 : 0 < 1 + e * cos nu1) by (pose proof (COS_bound nu1); nra). assert (D2 : 0 < 1 + e * cos nu2) by (pose proof (COS_bound nu2); nra).
  rewrite coe2rv_F in E1, E2 by lra. apply Ok_inj in E1. apply Ok_inj in E2.
  assert (Q1 : r1 = conic_position p e i o w nu1 /\ v1 = conic_velocity mu p e i o w nu1) by (split; apply vfin_inj; congruence). destruct Q1 as [-> ->].
  assert (Q2 : r2 = conic_position p e i o w nu2 /\ v2 = conic_velocity mu p e i o w nu2) by (split; apply vfin_inj; congruence). destruct Q2 as [-> ->].
  clear E1 E2. rewrite !conic_r_position, !conic_v_velocity.
  pose proof (frame_PP i o w) as PP. pose proof (frame_QQ i o w) as QQ. pose proof (frame_PQ i o w) as PQ.
  assert (T : tan (nu2 / 2) < tan (nu1 / 2)) by (apply tan_increasing; lra).
  assert (C1 : cos (nu1 / 2) <> 0) by (pose proof (half_cos nu1 ltac:(lra)); lra). assert (C2 : cos (nu2 / 2) <> 0) by (pose proof (half_cos nu2 ltac:(lra)); lra).
  assert (Z0 : @nltb XR (Fin e) (nofZ 0) = false) by (apply xltb_Ff; lra).
  assert (Z1 : @nleb XR (nofZ 0) (Fin e) = true) by (apply xleb_F; lra).
  assert (LE : @nltb XR (Fin e) (nofZ 1) = true) by (apply xltb_F; lra).
  unfold kepler_from_nu in K1, K2. rewrite Z0, Z1, LE in K1, K2. cbn [andb] in K1, K2. unfold time_unit.
  destruct (Req_EM_T e 1); [lra|]. rewrite Rabs_right by nra.
  destruct (nu_E e nu1 HE C1) as (E1 & EE1 & B1 & X1). destruct (nu_E e nu2 HE C2) as (E2 & EE2 & B2 & X2).
  assert (LT : E2 < E1).
  { rewrite nu_to_E_F in EE1, EE2 by assumption. injection EE1 as <-. injection EE2 as <-. apply Rmult_lt_compat_l; [lra|]. apply atan_increasing. destruct (kE_pos e HE) as (K & _). now apply Rmult_lt_compat_l. }
  rewrite EE1 in K1. rewrite EE2 in K2. cbn [bind] in K1, K2. apply Ok_inj in K1. apply Ok_inj in K2. injection K1 as <-. injection K2 as <-.
  assert (S2 : sin (E2 + 2 * PI) = sin E2) by (rewrite sin_plus, sin_2PI, cos_2PI; ring).
  assert (C2' : cos (E2 + 2 * PI) = cos E2) by (rewrite cos_plus, sin_2PI, cos_2PI; ring).
  replace (E2 - e * sin E2 - (E1 - e * sin E1) + 2 * PI) with (E2 + 2 * PI - E1 - e * (sin (E2 + 2 * PI) - sin E1)) by (rewrite S2; ring).
  apply (ellipse_true _ _ PP QQ PQ mu p e Hmu Hp nu1 nu2 E1 (E2 + 2 * PI)); [exact HE|exact X1| |lra].
  destruct X2. split; congruence.
Qed.
Print Assumptions C66_past_apocentre.

(** Points of an ellipse, a parabola and a hyperbola meeting the hypotheses; with the
    two points exchanged the ellipse meets those of the second theorem. *)
Example C66_case : forall e, e = / 2 \/ e = 1 \/ e = 2 -> exists M1 M2 r1 v1 r2 v2, 0 < 1 + e * cos 0 /\ 0 < 1 + e * cos 1 /\
  @kepler_from_nu XR (Fin 0) (Fin e) = Ok (Fin M1) /\ @kepler_from_nu XR (Fin 1) (Fin e) = Ok (Fin M2) /\
  @coe2rv XR (Fin 1) (Fin 1) (Fin e) (Fin 0) (Fin 0) (Fin 0) (Fin 0) = Ok (vfin r1, vfin v1) /\
  @coe2rv XR (Fin 1) (Fin 1) (Fin e) (Fin 0) (Fin 0) (Fin 0) (Fin 1) = Ok (vfin r2, vfin v2).
Proof.
  intros e He. pose proof PI_RGT_0. pose proof PI2_1. assert (C : 0 < cos 1) by (apply cos_gt_0; lra). assert (D1 : 0 < 1 + e * cos 0) by (rewrite cos_0; lra). assert (D2 : 0 < 1 + e * cos 1) by nra.
  destruct (C23_mean_anomaly_defined e 0 ltac:(lra)) as (M1 & K1); [split; [lra|exact D1]|]. destruct (C23_mean_anomaly_defined e 1 ltac:(lra)) as (M2 & K2); [split; [lra|exact D2]|].
  exists M1, M2. do 4 eexists. split; [exact D1|]. split; [exact D2|]. split; [exact K1|]. split; [exact K2|]. split; apply coe2rv_F; lra.
Qed.
