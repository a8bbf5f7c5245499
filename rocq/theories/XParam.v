(** * Every solution of Lambert's problem has a path parameter [x]. *)
From Coq Require Import ZArith List Bool Lia Reals Lra Psatz.
From Verif Require Import Num XReal XRealLemmas MApi MIzzo Spec SpecLambert VecFacts UniversalKepler LambertUV LambertRev LambertZ LambertUnique LambertExist DelatorreXR
  Godal GodalXR GodalIzzo Hyp2F1 IzzoXR PropertiesDerivIzzo.
Local Open Scope R_scope.

Lemma solution_x mu p r1 r2 v1 v2 T M ll :
  0 < mu -> non_collinear r1 r2 -> lambda_facts p r1 r2 ll ->
  lambert_solution mu r1 v1 r2 v2 T M ->
  (0 < vdot (momentum r1 v1) (vcross r1 r2) <-> 0 < ll) ->
  let s := semiper r1 r2 in
  exists x, let y := sqrt (1 - ll * ll * (1 - x * x)) in
    -1 < x /\ (M = 0%Z \/ x < 1) /\
    fg_pair mu r1 r2 (sqrt 2 * s * ll) (s * ((y - ll * x) * (y - ll * x))) v1 v2 /\
    @izzo_tof XR (Fin x) (Fin 0) (Fin ll) (Fin (IZR M)) = Fin (sqrt (2 * mu / (s * s * s)) * T).
Proof.
  intros Hm Hn LF L SD s. pose proof (lambda_bounds _ _ _ _ Hn LF) as Hl. destruct (semiper_pos _ _ Hn) as [Hs _]. fold s in Hs.
  destruct (solution_fg _ _ _ _ _ _ _ Hm Hn L) as (HM & A & V & z & F & Hz & Hz0 & EC & ET).
  destruct (fg_sense _ _ _ _ _ _ _ Hm Hn F) as [A0 SA]. pose proof (fg_V _ _ _ _ _ _ _ F) as HV.
  destruct (sqrt_facts 2) as [W1 W2]; [lra|].
  assert (EA : A = sqrt 2 * s * ll).
  { pose proof (fg_A _ _ _ _ _ _ _ F) as X. pose proof (lambda_A p r1 r2 ll LF) as X'. cbv zeta in X'. fold s in X'.
    unfold Kgeo in X'. set (B := sqrt 2 * s * ll) in *.
    assert (SB : 0 < B <-> 0 < ll).
    { unfold B. assert (0 < sqrt 2 * s) by now apply Rmult_lt_0_compat. split; intros; nra. }
    assert (Z : (A - B) * (A + B) = 0) by lra. apply Rmult_integral in Z. destruct Z as [Z|Z]; [lra|]. exfalso.
    assert (S : 0 < A <-> 0 < B) by tauto. destruct (Rlt_dec 0 A) as [P|P]; [assert (0 < B) by tauto; lra|]. assert (0 < B) by lra. tauto. }
  subst A. assert (L0 : ll <> 0) by (apply (lf_nz _ _ _ _ LF)).
  assert (VS : 0 < V / s) by now apply Rdiv_lt_0_compat.
  destruct (sqrt_facts _ VS) as [E1 E2]. set (eta := sqrt (V / s)) in *.
  assert (EV : V = s * (eta * eta)) by (rewrite E2; field; lra).
  set (x := (1 - ll * ll - eta * eta) / (2 * eta * ll)).
  assert (Hx : eta * (ll * x) = (1 - ll * ll - eta * eta) / 2) by (unfold x; field; split; lra).
  assert (Hy2 : (eta + ll * x) * (eta + ll * x) = 1 - ll * ll * (1 - x * x)).
  { transitivity (eta * eta + 2 * (eta * (ll * x)) + ll * ll * (x * x)); [ring|]. rewrite Hx. field. }
  assert (Hy0 : 0 < eta + ll * x).
  { apply Rmult_lt_reg_l with eta; [assumption|]. rewrite Rmult_0_r, Rmult_plus_distr_l, Hx. assert (ll * ll < 1) by nra. lra. }
  assert (EY : sqrt (1 - ll * ll * (1 - x * x)) = eta + ll * x) by (rewrite <- Hy2; apply sqrt_square; lra).
  exists x. cbv zeta. rewrite EY. replace (eta + ll * x - ll * x) with eta by ring. rewrite <- EV.
  assert (Ec : C0 z = x * (eta + ll * x) + ll * (1 - x * x)).
  { rewrite (lambda_P _ _ _ _ LF) in EC. fold s in EC.
    assert (X : 2 * s * ll * (C0 z - (x * eta + ll)) = 0).
    { assert (sqrt 2 * (sqrt 2 * s * ll) * C0 z = 2 * s * ll * C0 z) by (transitivity ((sqrt 2 * sqrt 2) * s * ll * C0 z); [ring|rewrite W2; ring]).
      assert (2 * s * (ll * (x * eta)) = s * (1 - ll * ll - eta * eta)) by (replace (ll * (x * eta)) with (eta * (ll * x)) by ring; rewrite Hx; field).
      nra. }
    apply Rmult_integral in X. destruct X as [X|X]; [|lra]. exfalso. apply Rmult_integral in X. destruct X; [|contradiction]. lra. }
  assert (Ec2 : C0 z * C0 z = 1 - (1 - x * x) * (eta * eta)).
  { rewrite Ec. rewrite (xy_c2 ll x (eta + ll * x)) by assumption. replace (eta + ll * x - ll * x) with eta by ring. reflexivity. }
  assert (Cx : C0 z = x * eta + ll) by (rewrite Ec; ring).
  assert (Ez : 0 < z -> -1 < x < 1).
  { intros Pz. destruct (sqrt_below_PI z Pz Hz) as [U1 U2].
    assert (EC' : C0 z = cos (sqrt z)) by (rewrite <- (sqrt_sqrt z) at 1 by lra; rewrite C0_ell by lra; reflexivity).
    assert (SP : 0 < sin (sqrt z)) by (apply sin_gt_0; lra). pose proof (sin2_cos2 (sqrt z)) as SC. unfold Rsqr in SC. rewrite <- EC' in SC.
    assert (0 < (1 - x * x) * (eta * eta)) by nra. assert (0 < eta * eta) by nra.
    assert (0 < 1 - x * x) by (apply Rmult_lt_reg_r with (eta * eta); [assumption|]; lra). split; nra. }
  assert (En : z <= 0 -> 1 <= C0 z).
  { intros Nz. destruct (Req_dec z 0) as [-> |]; [unfold C0|].
    - unfold U0. destruct (Rlt_dec 0 0); [lra|]. destruct (Rlt_dec 0 0); lra.
    - replace z with (- (sqrt (- z) * sqrt (- z))) by (rewrite sqrt_sqrt; lra). destruct (sqrt_facts (- z)) as [B1 _]; [lra|].
      rewrite C0_hyp by assumption. apply cosh_ge_1. }
  assert (X1 : -1 < x).
  { destruct (Rlt_dec 0 z) as [P|P]; [apply Ez; assumption|]. specialize (En ltac:(lra)). destruct (Rlt_dec (-1) x) as [|N]; [assumption|exfalso].
    assert (x * eta <= 0) by nra. nra. }
  assert (X2 : M = 0%Z \/ x < 1).
  { destruct (Z.eq_dec M 0) as [|N]; [left; assumption|right]. apply Ez. now apply Hz0. }
  split; [exact X1|]. split; [exact X2|]. split; [exact F|].
  unfold izzo_tof. rewrite izzo_y_F by assumption. rewrite EY.
  rewrite (izzo_tof_y_F mu s ll x (eta + ll * x) z M 0) by (auto; lra).
  apply (f_equal Fin). replace (eta + ll * x - ll * x) with eta by ring. rewrite <- EV, <- ET. ring.
Qed.
