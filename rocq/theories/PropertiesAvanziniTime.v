(** * C56: avanzini2008's Kepler time is the time of the transfer it returns. *)
From Coq Require Import Reals ZArith String List Bool Lra Lia Psatz.
From Verif Require Import Num XReal XRealLemmas MApi ApiFacts MScipy MLinalg MAssertions MAngles MKepler MElements MAvanzini MInit
  Loops Spec SpecLambert SpecElements VecFacts VecXR AnglesXR CallXR ElementsXR KeplerXR PropertiesAngles PropertiesMotion
  Godal GodalXR GodalPan OrbitXR PropertiesOrbit AvanziniXR UniversalKepler PropertiesKepler PropertiesAvanzini KeplerTime PanTime.
Local Open Scope R_scope.

(** ** Anomalies *)
Lemma cos_sin_two_atan t : cos (2 * atan t) = (1 - t * t) / (1 + t * t) /\ sin (2 * atan t) = 2 * t / (1 + t * t).
Proof.
  assert (D : 0 < 1 + t * t) by nra. destruct (sqrt_pos_facts _ D) as [W1 W2].
  rewrite cos_2a_cos, sin_2a, cos_atan, sin_atan. unfold Rsqr in *. set (w := sqrt (1 + t * t)) in *. clearbody w. rewrite <- W2.
  split.
  - transitivity ((2 - w * w) / (w * w)); [field; lra|]. rewrite W2 at 1. f_equal. ring.
  - field. lra.
Qed.

Lemma nu_E e f : 0 <= e < 1 -> cos (f / 2) <> 0 -> exists E, @nu_to_E XR (Fin f) (Fin e) = Fin E /\ - PI < E < PI /\ eccentric e f E.
Proof.
  intros He Hc. eexists. split; [now apply nu_to_E_F|]. split; [apply atan_bounds|].
  destruct (kE_pos e He) as (K & K2 & _). destruct (cos_sin_two_atan (kE e * tan (f / 2))) as [C S]. unfold eccentric. rewrite C, S. clear C S.
  destruct (half_angle f) as (C1 & C2 & Sn). set (c := cos (f / 2)) in *. set (s := sin (f / 2)) in *.
  assert (D : 0 < 1 + e * cos f) by (pose proof (COS_bound f); nra).
  assert (TT : kE e * tan (f / 2) * (kE e * tan (f / 2)) = (1 - e) / (1 + e) * (s * s / (c * c))).
  { unfold tan. fold c s. transitivity (kE e * kE e * (s * s / (c * c))); [field; assumption|now rewrite K2]. }
  assert (QC : c * c = (1 + cos f) / 2) by lra. assert (QS : s * s = (1 - cos f) / 2) by lra.
  assert (C0 : 0 < 1 + cos f) by (assert (0 < c * c) by nra; lra).
  assert (DD : 1 + kE e * tan (f / 2) * (kE e * tan (f / 2)) = 2 * (1 + e * cos f) / ((1 + e) * (1 + cos f))).
  { rewrite TT, QC, QS. field. lra. }
  split.
  - rewrite DD. replace (1 - kE e * tan (f / 2) * (kE e * tan (f / 2))) with (2 - (1 + kE e * tan (f / 2) * (kE e * tan (f / 2)))) by ring. rewrite DD. field. lra.
  - rewrite DD. assert (SQ : sqrt (1 - e * e) = kE e * (1 + e)).
    { apply sqrt_lem_1; [nra|apply Rmult_le_pos; lra|]. transitivity (kE e * kE e * ((1 + e) * (1 + e))); [ring|]. rewrite K2. field. lra. }
    rewrite SQ. assert (T : tan (f / 2) * (1 + cos f) = sin f) by (unfold tan; fold c s; rewrite C1 at 1; rewrite Sn; field; exact Hc).
    rewrite <- T. field. lra.
Qed.

Lemma nu_H e f : 1 < e -> 0 < 1 + e * cos f -> exists F, @nu_to_H XR (Fin f) (Fin e) = Fin F /\ hyperbolic e f F.
Proof.
  intros He HD. destruct (half_angle f) as (C1 & C2 & Sn). destruct (kH_pos e He) as (K & K2 & _).
  assert (Hc : cos (f / 2) <> 0) by (intros Z; rewrite Z in C1; nra).
  assert (C0 : 0 < 1 + cos f) by (assert (0 < cos (f / 2) * cos (f / 2)) by nra; lra).
  set (u := kH e * tan (f / 2)).
  assert (UU : u * u = (e - 1) / (e + 1) * ((1 - cos f) / (1 + cos f))).
  { unfold u. transitivity (kH e * kH e * (tan (f / 2) * tan (f / 2))); [ring|]. rewrite K2. f_equal. unfold tan.
    replace (1 - cos f) with (2 * (sin (f / 2) * sin (f / 2))) by lra. replace (1 + cos f) with (2 * (cos (f / 2) * cos (f / 2))) by lra. field. exact Hc. }
  assert (U1 : 1 - u * u = 2 * (1 + e * cos f) / ((e + 1) * (1 + cos f))) by (rewrite UU; field; lra).
  assert (U : -1 < u < 1).
  { assert (0 < 1 - u * u); [|nra]. rewrite U1. apply Rdiv_lt_0_compat; [lra|]. apply Rmult_lt_0_compat; lra. }
  eexists. split; [apply nu_to_H_F; assumption|]. fold u.
  destruct (cosh_sinh_artanh u U) as [CH SH]. split; [exact HD|]. split.
  - rewrite CH. replace (1 + u * u) with (2 - (1 - u * u)) by ring. rewrite U1. field. lra.
  - rewrite SH, U1. unfold u.
    assert (SQ : sqrt (e * e - 1) = kH e * (e + 1)).
    { apply sqrt_lem_1; [nra|apply Rmult_le_pos; lra|]. transitivity (kH e * kH e * ((e + 1) * (e + 1))); [ring|]. rewrite K2. field. lra. }
    rewrite SQ. assert (T : tan (f / 2) * (1 + cos f) = sin f) by (unfold tan; rewrite C1 at 1; rewrite Sn; field; exact Hc).
    rewrite <- T. field. lra.
Qed.

(** The transfer along a conic in a perifocal frame, for a parabola. *)
Lemma parabola_true P Q mu q f1 f2 : vdot P P = 1 -> vdot Q Q = 1 -> vdot P Q = 0 -> 0 < mu -> 0 < q ->
  cos (f1 / 2) <> 0 -> cos (f2 / 2) <> 0 -> tan (f1 / 2) < tan (f2 / 2) ->
  let B f := tan (f / 2) in
  lambert_solution mu (conic_r P Q q 1 f1) (conic_v P Q mu q 1 f1) (conic_r P Q q 1 f2) (conic_v P Q mu q 1 f2)
    (1 / 2 * sqrt (q ^ 3 / mu) * (B f2 + B f2 * B f2 * B f2 / 3 - (B f1 + B f1 * B f1 * B f1 / 3))) 0.
Proof.
  intros HP HQ HPQ Hm Hq H1 H2 L B.
  assert (K : forall f, cos (f / 2) <> 0 -> conic_r P Q q 1 f = planar P Q (q / 2 * (1 - B f * B f)) (q * B f) /\
     conic_v P Q mu q 1 f = planar P Q (- (2 * sqrt (mu / q) / (1 + B f * B f) * B f)) (2 * sqrt (mu / q) / (1 + B f * B f))).
  { intros f Hc. destruct (half_angle f) as (C1 & C2 & Sn). unfold conic_r, conic_v, B, tan.
    pose proof (sin2_cos2 (f / 2)) as T. unfold Rsqr in T. set (c := cos (f / 2)) in *. set (s := sin (f / 2)) in *.
    assert (D : 1 + s / c * (s / c) = / (c * c)) by (apply Rmult_eq_reg_r with (c * c); [|nra]; transitivity (s * s + c * c); [field; assumption|rewrite T; field; assumption]).
    assert (M : 1 + 1 * cos f = 2 * (c * c)) by lra. rewrite D. rewrite M.
    split; f_equal.
    - rewrite C2. replace (1 - 2 * (s * s)) with (c * c - s * s) by lra. field. assumption.
    - rewrite Sn. field. assumption.
    - rewrite Sn. field. assumption.
    - replace (1 + cos f) with (2 * (c * c)) by lra. field. assumption. }
  destruct (K f1 H1) as [-> ->]. destruct (K f2 H2) as [-> ->].
  apply (parabola_lambert P Q HP HQ HPQ mu q (B f1) (B f2)); auto.
Qed.

(** ** The time of the code *)
Lemma conic_r_position q e i o w nu : conic_position q e i o w nu = conic_r (frame_P i o w) (frame_Q i o w) q e nu.
Proof. unfold conic_position, conic_r, planar. apply vec_eq; vunf; ring. Qed.
Lemma conic_v_velocity mu q e i o w nu : conic_velocity mu q e i o w nu = conic_v (frame_P i o w) (frame_Q i o w) mu q e nu.
Proof. unfold conic_velocity, conic_v, planar. apply vec_eq; vunf; ring. Qed.

Lemma xtan_nan f : cos (f / 2) = 0 -> xtan (Fin (f / 2)) = NaN.
Proof. intros Z. unfold xtan, xpart1. destruct (tan_dom_dec (f / 2)) as [H|H]; [exfalso; apply H; exact Z|reflexivity]. Qed.

Lemma kepler_tof_transfer P Q mu q e f1 f2 : vdot P P = 1 -> vdot Q Q = 1 -> vdot P Q = 0 -> 0 < mu -> 0 < q -> 0 <= e ->
  0 < 1 + e * cos f1 -> 0 < 1 + e * cos f2 -> non_collinear (conic_r P Q q e f1) (conic_r P Q q e f2) ->
  forall g eT a T, @eap_from_eccT XR (Fin eT) g = (Fin e, a, Fin q) -> (e <> 1 -> a = Fin (q / (1 - e * e))) ->
  @get_true_anomalies XR (w_at_eccT (Fin eT) (get_eccF (eg_r1 g) (eg_r2 g) (eg_c g)) (eg_wc g)) (eg_dtheta g) = (Fin f1, Fin f2) ->
  @kepler_tof_at_eccT XR (Fin eT) (Fin mu) g = Ok (Fin T) -> 0 < T ->
  lambert_solution mu (conic_r P Q q e f1) (conic_v P Q mu q e f1) (conic_r P Q q e f2) (conic_v P Q mu q e f2) T 0.
Proof.
  intros HP HQ HPQ Hm Hq He D1 D2 Hn g eT a T EE EAx EA H HT.
  unfold kepler_tof_at_eccT in H. rewrite EE in H. cbv zeta in H. rewrite EA in H.
  assert (Z0 : @nltb XR (Fin e) (nofZ 0) = false) by (apply xltb_Ff; lra).
  assert (Z1 : @nleb XR (nofZ 0) (Fin e) = true) by (apply xleb_F; lra).
  unfold kepler_from_nu in H. rewrite !Z0, !Z1 in H. cbn [andb] in H.
  destruct (@nltb XR (Fin e) (nofZ 1)) eqn:L1.
  - (* ellipse *)
    apply xltb_F in L1. assert (HE : 0 <= e < 1) by lra. assert (ED : 0 < 1 - e * e) by nra. cbn [bind] in H. apply Ok_inj in H.
    rewrite (EAx ltac:(lra)) in H.
    assert (A0 : 0 < q / (1 - e * e)) by now apply Rdiv_lt_0_compat. set (aa := q / (1 - e * e)) in *.
    assert (C1 : cos (f1 / 2) <> 0).
    { intros Z. revert H. unfold nu_to_E. xunf. rewrite (xdiv_F f1 2), (xtan_nan f1 Z) by lra. unfold kepler_elliptic. xunf.
      match goal with |- context [xdiv (xsub (Fin 1) (Fin e)) ?d] => destruct (xsqrt (xdiv (xsub (Fin 1) (Fin e)) d)) as [k|] end; cbn [xmul xlift2 xlift1 xsub];
      destruct (xtan (xdiv (Fin f2) (Fin 2))); cbn [xmul xlift2 xlift1 xsub]; destruct (xsqrt _); discriminate. }
    assert (C2 : cos (f2 / 2) <> 0).
    { intros Z. revert H. unfold nu_to_E. xunf. rewrite (xdiv_F f2 2), (xtan_nan f2 Z) by lra. unfold kepler_elliptic. xunf.
      match goal with |- context [xdiv (xsub (Fin 1) (Fin e)) ?d] => destruct (xsqrt (xdiv (xsub (Fin 1) (Fin e)) d)) as [k|] end; cbn [xmul xlift2 xlift1 xsub];
      destruct (xsqrt _); discriminate. }
    destruct (nu_E e f1 HE C1) as (E1 & EE1 & B1 & K1). destruct (nu_E e f2 HE C2) as (E2 & EE2 & B2 & K2).
    rewrite EE1, EE2 in H. unfold kepler_elliptic, cube in H. xunf. cbn [xmul xsub xlift2 xlift1] in H.
    assert (A3 : 0 < aa * aa * aa) by exact (Rmult_lt_0_compat _ _ (Rmult_lt_0_compat _ _ A0 A0) A0).
    rewrite xdiv_F in H by lra. rewrite xsqrt_F in H by (apply Rlt_le, Rdiv_lt_0_compat; assumption). cbn [xmul xadd xlift2] in H.
    assert (S0 : 0 < sqrt (aa * aa * aa / mu)) by (apply sqrt_lt_R0, Rdiv_lt_0_compat; assumption). set (sm := sqrt _) in *.
    assert (SM : sm = sqrt ((q / (1 - e * e)) ^ 3 / mu)) by (unfold sm; f_equal; fold aa; field; lra).
    assert (NE : E1 <> E2).
    { intros Z. apply Hn. destruct K1 as [KC1 KS1], K2 as [KC2 KS2]. subst E2. unfold conic_r.
      assert (X : q / (1 + e * cos f1) * cos f1 = q / (1 + e * cos f2) * cos f2).
      { replace (q / (1 + e * cos f1) * cos f1) with (aa * ((e + cos f1) / (1 + e * cos f1) - e)) by (unfold aa; field; lra).
        replace (q / (1 + e * cos f2) * cos f2) with (aa * ((e + cos f2) / (1 + e * cos f2) - e)) by (unfold aa; field; lra).
        rewrite <- KC1, <- KC2. reflexivity. }
      destruct (sqrt_pos_facts _ ED) as [S0' _].
      assert (Y : q / (1 + e * cos f1) * sin f1 = q / (1 + e * cos f2) * sin f2).
      { replace (q / (1 + e * cos f1) * sin f1) with (q / sqrt (1 - e * e) * (sqrt (1 - e * e) * sin f1 / (1 + e * cos f1))) by (field; lra).
        replace (q / (1 + e * cos f2) * sin f2) with (q / sqrt (1 - e * e) * (sqrt (1 - e * e) * sin f2 / (1 + e * cos f2))) by (field; lra).
        rewrite <- KS1, <- KS2. reflexivity. }
      rewrite X, Y. apply vec_eq; vunf; ring. }
    pose proof PI_RGT_0 as PP.
    destruct (Rtotal_order E1 E2) as [LE|[LE|LE]]; [|contradiction|].
    + pose proof (ell_incr e _ _ HE LE) as MI.
      assert (TP : 0 < sm * (E2 - e * sin E2 - (E1 - e * sin E1))) by (apply Rmult_lt_0_compat; lra).
      assert (LT : xltb (Fin (sm * (E2 - e * sin E2 - (E1 - e * sin E1)))) (Fin 0) = false) by (apply xltb_Ff; lra).
      rewrite LT in H. injection H as <-.
      replace (sm * (E2 - e * sin E2 - (E1 - e * sin E1))) with (sm * (E2 - E1 - e * (sin E2 - sin E1))) by ring. rewrite SM.
      apply (ellipse_true P Q HP HQ HPQ mu q e Hm Hq f1 f2 E1 E2); auto. lra.
    + pose proof (ell_incr e _ _ HE LE) as MI.
      assert (TP : 0 < sm * (E1 - e * sin E1 - (E2 - e * sin E2))) by (apply Rmult_lt_0_compat; lra).
      assert (LT : xltb (Fin (sm * (E2 - e * sin E2 - (E1 - e * sin E1)))) (Fin 0) = true) by (apply xltb_F; lra).
      rewrite LT in H. injection H as <-.
      assert (S2 : sin (E2 + 2 * PI) = sin E2) by (rewrite sin_plus, sin_2PI, cos_2PI; ring).
      assert (C2' : cos (E2 + 2 * PI) = cos E2) by (rewrite cos_plus, sin_2PI, cos_2PI; ring).
      replace (sm * (E2 - e * sin E2 - (E1 - e * sin E1)) + 2 * PI * sm) with (sm * (E2 + 2 * PI - E1 - e * (sin (E2 + 2 * PI) - sin E1))) by (rewrite S2; ring). rewrite SM.
      apply (ellipse_true P Q HP HQ HPQ mu q e Hm Hq f1 f2 E1 (E2 + 2 * PI)); [exact HE|exact K1| |lra].
      destruct K2. split; congruence.
  - apply xltb_Ff in L1. destruct (@neqb XR (Fin e) (nofZ 1)) eqn:L2.
    + (* parabola *)
      apply xeqb_F in L2. subst e. cbn [bind] in H.
      assert (G : forall f, 0 < 1 + 1 * cos f -> cos (f / 2) <> 0) by (intros f Df Z; destruct (half_angle f) as (C & _); rewrite Z in C; lra).
      pose proof (G f1 D1) as C1. pose proof (G f2 D2) as C2. revert H. unfold nu_to_B. xunf. rewrite !(xdiv_F _ 2) by lra. rewrite !xtan_F by assumption.
      unfold kepler_parabolic, cube. xunf. cbn [xmul xadd xsub xlift2 xlift1]. rewrite (xdiv_F 1 3) by lra. rewrite xdiv_F by lra.
      assert (Q3 : 0 < q * q * q) by (repeat apply Rmult_lt_0_compat; assumption).
      rewrite xsqrt_F by (apply Rlt_le, Rdiv_lt_0_compat; assumption). cbn [xmul xadd xsub xlift2 xlift1].
      intros H. apply Ok_inj in H. match type of H with (if ?b then _ else _) = _ => destruct b end.
      { exfalso. revert H. unfold xdiv. destruct (Req_EM_T 0 0) as [_|Z]; [discriminate|exfalso; apply Z; reflexivity]. }
      injection H as H.
      set (b1 := tan (f1 / 2)) in *. set (b2 := tan (f2 / 2)) in *.
      assert (EQ : T = 1 / 2 * sqrt (q ^ 3 / mu) * (b2 + b2 * b2 * b2 / 3 - (b1 + b1 * b1 * b1 / 3))).
      { rewrite <- H. replace (q ^ 3) with (q * q * q) by ring. field. }
      rewrite EQ. apply (parabola_true P Q mu q f1 f2); try assumption. fold b1 b2.
      destruct (Rlt_dec b1 b2) as [L|L]; [exact L|exfalso].
      assert (S0 : 0 < sqrt (q ^ 3 / mu)) by (apply sqrt_lt_R0, Rdiv_lt_0_compat; [replace (q ^ 3) with (q * q * q) by ring|]; assumption).
      set (ss := sqrt (q ^ 3 / mu)) in *. clearbody ss b1 b2.
      assert (0 <= (b1 - b2) * (1 + (b1 * b1 + b1 * b2 + b2 * b2) / 3)) by (apply Rmult_le_pos; [lra|]; nra).
      replace (1 / 2 * ss * (b2 + b2 * b2 * b2 / 3 - (b1 + b1 * b1 * b1 / 3))) with (- (1 / 2 * ss * ((b1 - b2) * (1 + (b1 * b1 + b1 * b2 + b2 * b2) / 3)))) in EQ by field.
      assert (0 <= 1 / 2 * ss * ((b1 - b2) * (1 + (b1 * b1 + b1 * b2 + b2 * b2) / 3))) by (apply Rmult_le_pos; [lra|assumption]). lra.
    + (* hyperbola *)
      apply xeqb_Ff in L2. assert (HE : 1 < e) by lra. assert (ED : 0 < e * e - 1) by nra. cbn [bind] in H.
      rewrite (EAx ltac:(lra)) in H.
      destruct (nu_H e f1 HE D1) as (F1 & EF1 & K1). destruct (nu_H e f2 HE D2) as (F2 & EF2 & K2).
      rewrite EF1, EF2 in H. unfold kepler_hyperbolic, cube in H. xunf. cbn [xmul xsub xopp xlift2 xlift1] in H.
      apply Ok_inj in H. set (b := q / (e * e - 1)).
      assert (B0 : 0 < b) by now apply Rdiv_lt_0_compat. assert (B3 : 0 < b ^ 3) by now apply pow_lt.
      assert (EB : q / (1 - e * e) = - b) by (unfold b; field; lra).
      rewrite EB in H. replace (- (- b * - b * - b)) with (b ^ 3) in H by ring.
      rewrite xdiv_F in H by lra. rewrite xsqrt_F in H by (apply Rlt_le, Rdiv_lt_0_compat; assumption). cbn [xmul xlift2] in H. injection H as H. change (b * (b * (b * 1))) with (b ^ 3) in H.
      assert (S0 : 0 < sqrt (b ^ 3 / mu)) by (apply sqrt_lt_R0, Rdiv_lt_0_compat; assumption).
      assert (SB : sqrt (b ^ 3 / mu) = sqrt ((q / (e * e - 1)) ^ 3 / mu)) by reflexivity.
      set (ss := sqrt (b ^ 3 / mu)) in *. clearbody ss.
      assert (GG : F1 < F2).
      { destruct (Rtotal_order F1 F2) as [Z|[Z|Z]]; [exact Z| |]; exfalso.
        - subst F2. rewrite <- H in HT. replace (e * sinh F1 - F1 - (e * sinh F1 - F1)) with 0 in HT by ring. lra.
        - pose proof (hyp_incr e _ _ HE Z). assert (0 < ss * (e * sinh F1 - F1 - (e * sinh F2 - F2))) by (apply Rmult_lt_0_compat; lra). lra. }
      rewrite <- H, SB. replace (e * sinh F2 - F2 - (e * sinh F1 - F1)) with (e * (sinh F2 - sinh F1) - (F2 - F1)) by ring.
      apply (hyperbola_true P Q HP HQ HPQ mu q e Hm Hq f1 f2 F1 F2 HE K1 K2 GG).
Qed.

(** The time is a positive number, unless an end is the apocentre of an ellipse. *)
Lemma kepler_tof_value mu q e f1 f2 : 0 < mu -> 0 < q -> 0 <= e -> 0 < 1 + e * cos f1 -> 0 < 1 + e * cos f2 ->
  (e < 1 -> ~ (cos f1 = cos f2 /\ sin f1 = sin f2)) ->
  (1 <= e -> q / (1 + e * cos f1) * sin f1 < q / (1 + e * cos f2) * sin f2) ->
  forall g eT a, @eap_from_eccT XR (Fin eT) g = (Fin e, a, Fin q) -> (e <> 1 -> a = Fin (q / (1 - e * e))) ->
  @get_true_anomalies XR (w_at_eccT (Fin eT) (get_eccF (eg_r1 g) (eg_r2 g) (eg_c g)) (eg_wc g)) (eg_dtheta g) = (Fin f1, Fin f2) ->
  e < 1 /\ (cos (f1 / 2) = 0 \/ cos (f2 / 2) = 0) \/
  exists T, 0 < T /\ @kepler_tof_at_eccT XR (Fin eT) (Fin mu) g = Ok (Fin T).
Proof.
  intros Hm Hq He D1 D2 HNE HY g eT a EE EAx EA.
  destruct (Rlt_dec e 1) as [L|L].
  - destruct (Req_EM_T (cos (f1 / 2)) 0) as [C1|C1]; [left; tauto|].
    destruct (Req_EM_T (cos (f2 / 2)) 0) as [C2|C2]; [left; tauto|]. right.
    unfold kepler_tof_at_eccT. rewrite EE. cbv zeta. rewrite EA. unfold kepler_from_nu.
    replace (@nltb XR (Fin e) (nofZ 0)) with false by (symmetry; apply xltb_Ff; lra).
    replace (@nleb XR (nofZ 0) (Fin e)) with true by (symmetry; apply xleb_F; lra).
    replace (@nltb XR (Fin e) (nofZ 1)) with true by (symmetry; apply xltb_F; lra). cbn [andb bind].
    assert (HE : 0 <= e < 1) by lra. assert (ED : 0 < 1 - e * e) by nra. rewrite (EAx ltac:(lra)).
    assert (A0 : 0 < q / (1 - e * e)) by now apply Rdiv_lt_0_compat. set (aa := q / (1 - e * e)) in *. clearbody aa.
    destruct (nu_E e f1 HE C1) as (E1 & EE1 & B1 & K1). destruct (nu_E e f2 HE C2) as (E2 & EE2 & B2 & K2).
    rewrite EE1, EE2. unfold kepler_elliptic, cube. xunf. cbn [xmul xsub xlift2 xlift1].
    assert (A3 : 0 < aa * aa * aa) by exact (Rmult_lt_0_compat _ _ (Rmult_lt_0_compat _ _ A0 A0) A0).
    rewrite xdiv_F by lra. rewrite xsqrt_F by (apply Rlt_le, Rdiv_lt_0_compat; assumption). cbn [xmul xadd xlift2].
    assert (S0 : 0 < sqrt (aa * aa * aa / mu)) by (apply sqrt_lt_R0, Rdiv_lt_0_compat; assumption). set (sm := sqrt _) in *. clearbody sm.
    assert (NE : E1 <> E2).
    { intros Z. subst E2. apply (HNE L). destruct K1 as [KC1 KS1], K2 as [KC2 KS2]. rewrite KC1 in KC2. rewrite KS1 in KS2.
      assert (X : cos f1 = cos f2).
      { apply (Rmult_eq_compat_r ((1 + e * cos f1) * (1 + e * cos f2))) in KC2.
        replace ((e + cos f1) / (1 + e * cos f1) * ((1 + e * cos f1) * (1 + e * cos f2))) with ((e + cos f1) * (1 + e * cos f2)) in KC2 by (field; lra).
        replace ((e + cos f2) / (1 + e * cos f2) * ((1 + e * cos f1) * (1 + e * cos f2))) with ((e + cos f2) * (1 + e * cos f1)) in KC2 by (field; lra).
        apply (Rmult_eq_reg_l (1 - e * e)); lra. }
      split; [exact X|]. rewrite <- X in KS2, D2. destruct (sqrt_pos_facts _ ED) as [S0' _].
      apply (Rmult_eq_reg_l (sqrt (1 - e * e) / (1 + e * cos f1))).
      - transitivity (sqrt (1 - e * e) * sin f1 / (1 + e * cos f1)); [field; lra|]. rewrite KS2. field. lra.
      - apply Rgt_not_eq, Rdiv_lt_0_compat; assumption. }
    pose proof PI_RGT_0 as PP.
    match goal with |- context [if ?b then _ else _] => destruct b eqn:LT end; (eexists; split; [|reflexivity]).
    + apply xltb_F in LT. pose proof (ell_incr e E1 (E2 + 2 * PI) HE ltac:(lra)) as MI.
      assert (S2 : sin (E2 + 2 * PI) = sin E2) by (rewrite sin_plus, sin_2PI, cos_2PI; ring). rewrite S2 in MI.
      replace (sm * (E2 - e * sin E2 - (E1 - e * sin E1)) + 2 * PI * sm) with (sm * (E2 + 2 * PI - e * sin E2 - (E1 - e * sin E1))) by ring.
      apply Rmult_lt_0_compat; lra.
    + apply xltb_Ff in LT. apply Rle_lt_or_eq_dec in LT. destruct LT as [LT|LT]; [exact LT|exfalso].
      destruct (Rtotal_order E1 E2) as [LE|[LE|LE]]; [|contradiction|];
        pose proof (ell_incr e _ _ HE LE) as MI; symmetry in LT; apply Rmult_integral in LT; destruct LT; lra.
  - right. assert (L1 : 1 <= e) by lra. specialize (HY L1).
    unfold kepler_tof_at_eccT. rewrite EE. cbv zeta. rewrite EA. unfold kepler_from_nu.
    replace (@nltb XR (Fin e) (nofZ 0)) with false by (symmetry; apply xltb_Ff; lra).
    replace (@nltb XR (Fin e) (nofZ 1)) with false by (symmetry; apply xltb_Ff; lra). rewrite andb_false_r.
    destruct (@neqb XR (Fin e) (nofZ 1)) eqn:L2; cbn [bind].
    + apply xeqb_F in L2. subst e.
      assert (G : forall f, 0 < 1 + 1 * cos f -> cos (f / 2) <> 0) by (intros f Df Z; destruct (half_angle f) as (C & _); rewrite Z in C; lra).
      pose proof (G f1 D1) as C1. pose proof (G f2 D2) as C2. unfold nu_to_B. xunf. rewrite !(xdiv_F _ 2) by lra. rewrite !xtan_F by assumption.
      unfold kepler_parabolic, cube. xunf. cbn [xmul xadd xsub xlift2 xlift1]. rewrite (xdiv_F 1 3) by lra. rewrite xdiv_F by lra.
      assert (Q3 : 0 < q * q * q) by (repeat apply Rmult_lt_0_compat; assumption).
      rewrite xsqrt_F by (apply Rlt_le, Rdiv_lt_0_compat; assumption). cbn [xmul xadd xsub xlift2 xlift1].
      assert (S0 : 0 < sqrt (q * q * q / mu)) by (apply sqrt_lt_R0, Rdiv_lt_0_compat; assumption). set (ss := sqrt _) in *. clearbody ss.
      assert (TY : forall f, 0 < 1 + 1 * cos f -> q / (1 + 1 * cos f) * sin f = q * tan (f / 2)).
      { intros f Df. pose proof (G f Df) as Cf. destruct (half_angle f) as (Q1 & _ & Sn). rewrite Sn. replace (1 + 1 * cos f) with (2 * (cos (f / 2) * cos (f / 2))) by lra.
        unfold tan. field. exact Cf. }
      rewrite !TY in HY by assumption. set (b1 := tan (f1 / 2)) in *. set (b2 := tan (f2 / 2)) in *. clearbody b1 b2.
      assert (BB : b1 < b2) by (apply (Rmult_lt_reg_l q); assumption).
      assert (POS : 0 < 1 / 2 * ss * (b2 + 1 / 3 * (b2 * b2 * b2) - (b1 + 1 / 3 * (b1 * b1 * b1)))).
      { apply Rmult_lt_0_compat; [lra|].
        replace (b2 + 1 / 3 * (b2 * b2 * b2) - (b1 + 1 / 3 * (b1 * b1 * b1))) with ((b2 - b1) * (1 + (b1 * b1 + b1 * b2 + b2 * b2) / 3)) by field.
        apply Rmult_lt_0_compat; [lra|]. nra. }
      replace (xltb _ _) with false by (symmetry; apply xltb_Ff; lra). eexists. split; [exact POS|reflexivity].
    + apply xeqb_Ff in L2. assert (HE : 1 < e) by lra. assert (ED : 0 < e * e - 1) by nra. rewrite (EAx ltac:(lra)).
      destruct (nu_H e f1 HE D1) as (F1 & EF1 & K1). destruct (nu_H e f2 HE D2) as (F2 & EF2 & K2).
      rewrite EF1, EF2. unfold kepler_hyperbolic, cube. xunf. cbn [xmul xsub xopp xlift2 xlift1]. set (b := q / (e * e - 1)).
      assert (B0 : 0 < b) by now apply Rdiv_lt_0_compat. assert (B3 : 0 < b * b * b) by exact (Rmult_lt_0_compat _ _ (Rmult_lt_0_compat _ _ B0 B0) B0).
      assert (EB : q / (1 - e * e) = - b) by (unfold b; field; lra). clearbody b.
      rewrite EB. replace (- (- b * - b * - b)) with (b * b * b) by ring.
      rewrite xdiv_F by lra. rewrite xsqrt_F by (apply Rlt_le, Rdiv_lt_0_compat; assumption). cbn [xmul xlift2].
      eexists. split; [|reflexivity]. apply Rmult_lt_0_compat; [apply sqrt_lt_R0, Rdiv_lt_0_compat; assumption|].
      assert (GG : F1 < F2).
      { destruct K1 as (_ & _ & S1), K2 as (_ & _ & S2). destruct (sqrt_pos_facts _ ED) as [R0 _].
        destruct (Rlt_dec F1 F2) as [Z|Z]; [exact Z|exfalso].
        assert (SS : sinh F2 <= sinh F1).
        { destruct (Req_dec F1 F2) as [->|ZN]; [lra|]. apply Rlt_le, sinh_lt. lra. }
        assert (Y1 : q / (1 + e * cos f1) * sin f1 = q / sqrt (e * e - 1) * sinh F1) by (rewrite S1; field; lra).
        assert (Y2 : q / (1 + e * cos f2) * sin f2 = q / sqrt (e * e - 1) * sinh F2) by (rewrite S2; field; lra).
        rewrite Y1, Y2 in HY. apply Rmult_lt_reg_l in HY; [lra|]. now apply Rdiv_lt_0_compat. }
      pose proof (hyp_incr e _ _ HE GG). lra.
Qed.

(** [a] of utils.py:183-208 is [p/(1-e^2)] when the conic is no parabola. *)
Lemma eap_axis r1 r2 th wc eT : 0 < chord r1 r2 -> exists a,
  @eap_from_eccT XR (Fin eT) (@EccGeometry XR (Fin (vnorm r1)) (Fin (vnorm r2)) (Fin (chord r1 r2)) (Fin th) (Fin wc))
  = (Fin (fam_e r1 r2 eT), a, Fin (fam_p r1 r2 th eT)) /\
  (fam_e r1 r2 eT <> 1 -> a = Fin (fam_p r1 r2 th eT / (1 - fam_e r1 r2 eT * fam_e r1 r2 eT))).
Proof.
  intros Hc. eexists. split.
  - unfold eap_from_eccT. cbn [eg_r1 eg_r2 eg_c eg_dtheta eg_wc].
    unfold get_eccF, get_aF, get_pF, ecc_at_eccT, p_at_eccT, a_at_eccT, sq. xunf. cbn [xadd xsub xmul xlift1 xlift2].
    rewrite !(xdiv_F _ (chord r1 r2)) by lra. rewrite (xdiv_F _ 2) by lra. cbn [xadd xsub xmul xlift1 xlift2].
    assert (S : forall a b, 0 <= a * a + b * b) by (intros; nra).
    rewrite xsqrt_F by apply S. reflexivity.
  - intros N1. unfold fam_e in *. cbv zeta in *. set (eF := (vnorm r1 - vnorm r2) / chord r1 r2) in *.
    assert (S : 0 <= eT * eT + eF * eF) by nra. rewrite sqrt_sqrt by exact S.
    rewrite xdiv_F. 2:{ intros Z. apply N1. rewrite <- sqrt_1. f_equal. lra. }
    f_equal. unfold fam_p. cbv zeta. fold eF. f_equal. ring.
Qed.

(** ** C56 *)

(** The position is the apocentre of the orbit. *)
Definition at_apocentre (mu : R) (r v : rvec) : Prop := vdot r v = 0 /\ vdot r (ecc_vector mu r v) < 0.

Lemma apocentre_conic P Q mu q e f : vdot P P = 1 -> vdot Q Q = 1 -> vdot P Q = 0 -> 0 < mu -> 0 < q -> 0 < e < 1 ->
  0 < 1 + e * cos f -> cos (f / 2) = 0 -> at_apocentre mu (conic_r P Q q e f) (conic_v P Q mu q e f).
Proof.
  intros HP HQ HPQ Hm Hq He D Z. destruct (half_angle f) as (C & _ & S). rewrite Z in C, S.
  assert (CF : cos f = -1) by lra. assert (SF : sin f = 0) by lra.
  assert (EC : ecc_vector mu (conic_r P Q q e f) (conic_v P Q mu q e f) = vmult e P).
  { rewrite <- (ElementsXR.conic_ecc mu q e f P Q Hm Hq D HP HQ HPQ). f_equal; unfold conic_r, conic_v, planar; apply vec_eq; vunf; ring. }
  unfold at_apocentre. rewrite EC. unfold conic_r, conic_v, planar. rewrite CF, SF.
  set (s := sqrt (mu / q)). set (k := q / (1 + e * -1)). assert (K : 0 < k) by (unfold k; apply Rdiv_lt_0_compat; lra). clearbody s k.
  split.
  - transitivity (k * -1 * (s * (e + -1)) * vdot P Q); [vunf; ring|rewrite HPQ; ring].
  - replace (vdot _ _) with (- (k * e) * vdot P P) by (vunf; ring). rewrite HP. nra.
Qed.

(** The velocities the last step of avanzini2008 reconstructs from a transverse
    eccentricity are those of a transfer that takes exactly the time
    [kepler_tof_at_eccT] gives for this eccentricity, without completing a turn. *)
Theorem C56_avanzini_time : forall mu prograde r1 r2 ecc_T g v1 v2 T,
  0 < mu -> non_collinear r1 r2 -> ~ equatorial r1 r2 ->
  @get_geometry XR (vfin r1) (vfin r2) prograde = Ok g ->
  @ava_velocities XR (Fin mu) ecc_T (vfin r1) (vfin r2) prograde = Ok (vfin v1, vfin v2) ->
  @kepler_tof_at_eccT XR ecc_T (Fin mu) g = Ok (Fin T) -> 0 < T ->
  lambert_solution mu r1 v1 r2 v2 T 0.
Proof.
  intros mu p r1 r2 ecc_T g v1 v2 T Hmu Hn Hne HG HV HK HT.
  destruct (avanzini_conic mu p r1 r2 ecc_T v1 v2 Hmu Hn Hne HV) as (eT & th & wc & i & o & w & ET & EG & Hq & P1 & P2 & R1 & R2 & V1 & V2 & _).
  cbv zeta in *. rewrite HG in EG. apply Ok_inj in EG. subst g ecc_T.
  rewrite conic_r_position in R1, R2. rewrite conic_v_velocity in V1, V2.
  assert (Hc : 0 < chord r1 r2) by now apply chord_pos.
  destruct (eap_axis r1 r2 th wc eT Hc) as (a & EE & EA).
  assert (Hn' : non_collinear (conic_r (frame_P i o w) (frame_Q i o w) (fam_p r1 r2 th eT) (fam_e r1 r2 eT) (- fam_w r1 r2 wc eT))
                              (conic_r (frame_P i o w) (frame_Q i o w) (fam_p r1 r2 th eT) (fam_e r1 r2 eT) (- fam_w r1 r2 wc eT + th))) by (rewrite <- R1, <- R2; exact Hn).
  assert (He : 0 <= fam_e r1 r2 eT) by (unfold fam_e; apply sqrt_pos).
  pose proof (kepler_tof_transfer (frame_P i o w) (frame_Q i o w) mu _ _ _ _ (frame_PP i o w) (frame_QQ i o w) (frame_PQ i o w) Hmu Hq
    He P1 P2 Hn' _ eT a T EE EA) as K.
  rewrite <- R1, <- R2, <- V1, <- V2 in K. apply K; [|exact HK|exact HT].
  cbn [eg_r1 eg_r2 eg_c eg_wc eg_dtheta]. rewrite w_F by exact Hc. reflexivity.
Qed.
Print Assumptions C56_avanzini_time.

(** Transverse eccentricities below the limit leave no conic that passes through infinity. *)
Lemma family_rises p r1 r2 th wc eT : non_collinear r1 r2 -> angle_facts p r1 r2 th -> angle_facts p r1 (vminus r2 r1) wc ->
  let nu := - fam_w r1 r2 wc eT in
  fam_e r1 r2 eT * (vnorm r2 * sin (nu + th) - vnorm r1 * sin nu) = - eT * chord r1 r2.
Proof.
  intros Hn F Fc nu. destruct (chord_frame p r1 r2 th wc Hn F Fc) as (N1 & N2 & Hc & C & S & _).
  destruct (family_e r1 r2 wc eT) as [E1 E2].
  change (fam_e r1 r2 eT * cos (fam_w r1 r2 wc eT) = (vnorm r1 - vnorm r2) / chord r1 r2 * cos wc - eT * sin wc) in E1.
  change (fam_e r1 r2 eT * sin (fam_w r1 r2 wc eT) = (vnorm r1 - vnorm r2) / chord r1 r2 * sin wc + eT * cos wc) in E2.
  unfold nu. rewrite sin_plus, sin_neg, cos_neg. set (e := fam_e r1 r2 eT) in *. set (w := fam_w r1 r2 wc eT) in *.
  set (eF := (vnorm r1 - vnorm r2) / chord r1 r2) in *. clearbody e w eF.
  set (c := chord r1 r2) in *. clearbody c. set (n1 := vnorm r1) in *. set (n2 := vnorm r2) in *. clearbody n1 n2.
  transitivity ((e * cos w) * (n2 * sin th) - (e * sin w) * (n2 * cos th - n1)); [ring|].
  rewrite E1, E2, <- C, <- S. pose proof (sin2_cos2 wc) as Q. unfold Rsqr in Q.
  transitivity (- eT * c * (sin wc * sin wc + cos wc * cos wc)); [ring|rewrite Q; ring].
Qed.

(** Whatever the secant iteration ends on, the velocities returned are those of
    a transfer that takes the Kepler time of that iterate; it takes the requested
    time exactly when the residual vanishes there.  The time is missing only if
    an end is the apocentre of an ellipse, where [tan(nu/2)] has no value. *)
Theorem C56_avanzini_run : forall ev mu r1 r2 tof M prograde low_path maxiter atol rtol full_output o v1 v2,
  non_collinear r1 r2 -> ~ equatorial r1 r2 ->
  @run XR Avanzini ev (call mu r1 r2 tof M prograde low_path maxiter atol rtol full_output) = Ok o ->
  delivers o v1 v2 ->
  at_apocentre mu r1 v1 \/ at_apocentre mu r2 v2 \/
  exists g x T, @get_geometry XR (vfin r1) (vfin r2) prograde = Ok g /\ 0 < T /\
    @kepler_tof_at_eccT XR (ava_eccT_at_x g (Fin x)) (Fin mu) g = Ok (Fin T) /\
    lambert_solution mu r1 v1 r2 v2 T 0 /\
    (@ava_f XR (Fin x) (ava_eccT_at_x g) (Fin mu) g (Fin tof) = Ok (Fin 0) <-> T = tof).
Proof.
  intros ev mu r1 r2 tof M p l mi a r f o v1 v2 Hn Hne H D. cbn [run] in H.
  unfold avanzini2008 in H. skip_check H. enter H.
  apply bind_ok in H. destruct H as (g & EG & H). apply bind_ok in H. destruct H as ([x n] & _ & H).
  apply tpi_inv in H. destruct H as (tpi & H & _).
  apply bind_ok in H. destruct H as ([w1 w2] & EV & H).
  assert (X : out_v1 o = w1 /\ out_v2 o = w2).
  { apply Ok_inj in H. subst o. destruct f; split; reflexivity. }
  destruct X as [X1 X2], D as [D1 D2]. rewrite X1 in D1. rewrite X2 in D2. subst w1 w2. clear H X1 X2.
  destruct (avanzini_conic mu p r1 r2 _ v1 v2 Hmu Hn Hne EV) as (eT & th & wc & i & om & w & ET & EG' & Hq & P1 & P2 & R1 & R2 & V1 & V2 & _).
  cbv zeta in *. rewrite EG in EG'. apply Ok_inj in EG'.
  destruct (geometry_F p r1 r2 Hn) as (th' & wc' & EG'' & F & Fc).
  assert (th' = th /\ wc' = wc) as [-> ->] by (rewrite EG, EG' in EG''; apply Ok_inj in EG''; injection EG'' as -> ->; split; reflexivity). clear EG''.
  assert (Hc : 0 < chord r1 r2) by now apply chord_pos.
  assert (XF : exists y, x = Fin y).
  { destruct x as [y|]; [now exists y|exfalso]. revert ET. rewrite EG'. unfold ava_eccT_at_x, ava_eccT_limits.
    assert (M1 : forall u, xmul u NaN = NaN) by (intros []; reflexivity). assert (M2 : forall u, xmul NaN u = NaN) by (intros []; reflexivity).
    assert (M3 : forall u, xdiv u NaN = NaN) by (intros []; reflexivity). assert (M4 : forall u, xdiv NaN u = NaN) by (intros []; reflexivity).
    assert (M5 : forall u, xsub u NaN = NaN) by (intros []; reflexivity). assert (M6 : forall u, xadd u NaN = NaN) by (intros []; reflexivity).
    destruct (nltb _ _); xunf; cbn [xlift1 xopp]; rewrite ?M1, ?M4; cbn [xlift1 xsub xlift2]; rewrite ?M1, ?M5, ?M6, ?M1, ?M3; discriminate. }
  destruct XF as (y & ->).
  destruct (eccT_range p r1 r2 th wc Hn F Fc y) as (eT' & ET' & _ & LT). rewrite <- EG' in ET'. rewrite ET' in ET. injection ET as ->.
  destruct (eap_axis r1 r2 th wc eT Hc) as (ax & EE & EA).
  pose proof R1 as R1'. pose proof R2 as R2'. rewrite conic_r_position in R1', R2'. rewrite conic_v_velocity in V1, V2.
  set (e := fam_e r1 r2 eT) in *. set (q := fam_p r1 r2 th eT) in *. set (nu := - fam_w r1 r2 wc eT) in *.
  assert (He : 0 <= e) by (unfold e, fam_e; apply sqrt_pos).
  pose proof (frame_PP i om w) as PP. pose proof (frame_QQ i om w) as QQ. pose proof (frame_PQ i om w) as PQ.
  set (P := frame_P i om w) in *. set (Q := frame_Q i om w) in *.
  assert (Hn' : non_collinear (conic_r P Q q e nu) (conic_r P Q q e (nu + th))) by (rewrite <- R1', <- R2'; exact Hn).
  assert (EN : @get_true_anomalies XR (w_at_eccT (Fin eT) (get_eccF (eg_r1 g) (eg_r2 g) (eg_c g)) (eg_wc g)) (eg_dtheta g) = (Fin nu, Fin (nu + th)))
    by (rewrite EG'; cbn [eg_r1 eg_r2 eg_c eg_wc eg_dtheta]; rewrite w_F by exact Hc; reflexivity).
  rewrite <- EG' in EE.
  assert (E0 : cos (nu / 2) = 0 \/ cos ((nu + th) / 2) = 0 -> e <> 0).
  { intros Z Z0. unfold e, fam_e in Z0. cbv zeta in Z0. set (eF := (vnorm r1 - vnorm r2) / chord r1 r2) in *.
    apply sqrt_eq_0 in Z0; [|nra]. assert (eT = 0 /\ eF = 0) as [-> ZF] by (split; nra).
    assert (A0 : Ratan2 0 0 = 0) by (unfold Ratan2; destruct (Rlt_dec 0 0); lra).
    assert (NU : nu = 0).
    { unfold nu, fam_w. cbv zeta. fold eF. rewrite ZF. replace (0 * sin wc + 0 * cos wc) with 0 by ring. replace (0 * cos wc - 0 * sin wc) with 0 by ring. rewrite A0. ring. }
    rewrite NU in Z. replace (0 / 2) with 0 in Z by field. rewrite cos_0, Rplus_0_l in Z. destruct Z as [Z|Z]; [lra|].
    destruct (half_angle th) as (_ & _ & SS). rewrite Z in SS. apply (af_sin _ _ _ _ F). lra. }
  destruct (kepler_tof_value mu q e nu (nu + th) Hmu Hq He P1 P2) with (g := g) (eT := eT) (a := ax) as [[L Z]|(T & HT & EK)]; try assumption.
  { intros _ [C S]. pose proof (af_cos _ _ _ _ F) as [_ CT]. pose proof (sin2_cos2 nu) as Q2. unfold Rsqr in Q2.
    replace th with (nu + th - nu) in CT by ring. rewrite cos_minus, <- C, <- S in CT. lra. }
  { intros L. pose proof (family_rises p r1 r2 th wc eT Hn F Fc) as FR. cbv zeta in FR. fold e nu in FR.
    assert (A1 : q = vnorm r1 * (1 + e * cos nu)) by exact (family_r1 p r1 r2 th wc Hn F Fc eT).
    assert (A2 : q = vnorm r2 * (1 + e * cos (nu + th))) by exact (family_r2 p r1 r2 th wc Hn F Fc eT).
    replace (q / (1 + e * cos nu)) with (vnorm r1) by (rewrite A1; field; lra).
    replace (q / (1 + e * cos (nu + th))) with (vnorm r2) by (rewrite A2; field; lra).
    destruct (eP_facts p r1 r2 th wc Hn F Fc) as (EP & EQ & _). cbv zeta in EQ.
    assert (ETn : eT < 0).
    { assert (EE2 : e * e = eT * eT + (vnorm r1 - vnorm r2) / chord r1 r2 * ((vnorm r1 - vnorm r2) / chord r1 r2)) by (unfold e, fam_e; cbv zeta; apply sqrt_sqrt, Rplus_le_le_0_compat; apply Rle_0_sqr).
      set (eP := 2 * sqrt _ * _ / _) in *. clearbody eP. clear - EQ EE2 L LT EP. nra. }
    assert (0 < - eT * chord r1 r2) by (apply Rmult_lt_0_compat; lra). rewrite <- FR in H. clear - H L. nra. }
  - assert (EP : 0 < e < 1) by (pose proof (E0 Z); lra).
    destruct Z as [Z|Z]; [left|right; left].
    + pose proof (apocentre_conic P Q mu q e nu PP QQ PQ Hmu Hq EP P1 Z) as K. rewrite <- R1', <- V1 in K. exact K.
    + pose proof (apocentre_conic P Q mu q e (nu + th) PP QQ PQ Hmu Hq EP P2 Z) as K. rewrite <- R2', <- V2 in K. exact K.
  - right; right. exists g, y, T. split; [exact EG|]. split; [exact HT|]. rewrite ET'. split; [exact EK|]. split.
    + pose proof (kepler_tof_transfer P Q mu q e nu (nu + th) PP QQ PQ Hmu Hq He P1 P2 Hn' g eT ax T EE EA EN EK HT) as K. rewrite <- R1', <- R2', <- V1, <- V2 in K. exact K.
    + unfold ava_f. rewrite ET', EK. cbn [bind]. rewrite EG'. cbn [eg_r1]. unfold cube. xunf. cbn [xmul xlift2].
      destruct (norms_pos _ _ Hn) as [N1 _]. rewrite xdiv_F by lra.
      assert (A3 : 0 < vnorm r1 * vnorm r1 * vnorm r1 / mu) by (apply Rdiv_lt_0_compat; [repeat apply Rmult_lt_0_compat|]; assumption).
      rewrite xsqrt_F by lra. pose proof (sqrt_lt_R0 _ A3) as S3. set (tr := sqrt (vnorm r1 * vnorm r1 * vnorm r1 / mu)) in *. clearbody tr. rewrite !xdiv_F by lra.
      pose proof (Rdiv_lt_0_compat _ _ HT S3) as L1. pose proof (Rdiv_lt_0_compat _ _ Ht S3) as L2.
      unfold xln, xpart1. destruct (Rlt_dec 0 (T / tr)) as [_|Z]; [|exfalso; apply Z; exact L1]. destruct (Rlt_dec 0 (tof / tr)) as [_|Z]; [|exfalso; apply Z; assumption].
      cbn [xsub xlift2]. split.
      * intros K. apply Ok_inj in K. injection K as K. assert (LN : ln (T / tr) = ln (tof / tr)) by lra. apply ln_inv in LN; [|assumption|assumption].
        apply (Rmult_eq_reg_r (/ tr)); [exact LN|]. apply Rinv_neq_0_compat. lra.
      * intros ->. do 2 f_equal. ring.
Qed.
Print Assumptions C56_avanzini_run.

(** The inclined quarter turn on the unit circle: transverse eccentricity 0, time [PI / 2]. *)
Example C56_time_case : exists g v1 v2, @get_geometry XR (vfin ex_r1) (vfin ex_r2c) true = Ok g /\
  @ava_velocities XR (Fin 1) (Fin 0) (vfin ex_r1) (vfin ex_r2c) true = Ok (vfin v1, vfin v2) /\
  @kepler_tof_at_eccT XR (Fin 0) (Fin 1) g = Ok (Fin (PI / 2)) /\
  lambert_solution 1 ex_r1 v1 ex_r2c v2 (PI / 2) 0.
Proof.
  destruct ex_r2c_facts as (U1 & U2 & O & Hz & Hne). assert (Hn : non_collinear ex_r1 ex_r2c) by (apply vz_non_collinear; lra).
  assert (Hs : short_way true ex_r1 ex_r2c) by (unfold short_way; lra).
  destruct (geometry_F true _ _ Hn) as (th & wc & EG & F & Fc).
  pose proof (quarter_time_circle true _ _ th wc F Fc U1 U2 O Hs) as T0.
  pose proof (orbit_normal_F ex_r1 ex_r2c true Hn) as EW. set (W := vmult _ _) in EW.
  destruct (coe_F true ex_r1 ex_r2c 0 W Hn EW) as (th' & wc' & ii & oo & w & EG' & F' & Fc' & EI & EC & _). cbv zeta in EC.
  rewrite EG in EG'. apply Ok_inj in EG'. injection EG' as <- <-.
  destruct (eccT_range true _ _ th wc Hn F Fc 0) as (eT & ET & Pp & _).
  assert (Q1 : 0 < fam_p ex_r1 ex_r2c th 0) by (unfold fam_p; rewrite U1, U2; cbv zeta; replace ((1 - 1) / chord ex_r1 ex_r2c) with 0 by (unfold Rdiv; ring); replace (0 * 1 * 1 * sin th / chord ex_r1 ex_r2c) with 0 by (unfold Rdiv; ring); lra).
  assert (A1 : fam_p ex_r1 ex_r2c th 0 = vnorm ex_r1 * (1 + fam_e ex_r1 ex_r2c 0 * cos (- fam_w ex_r1 ex_r2c wc 0)))
    by exact (family_r1 true _ _ th wc Hn F Fc 0).
  assert (A2 : fam_p ex_r1 ex_r2c th 0 = vnorm ex_r2c * (1 + fam_e ex_r1 ex_r2c 0 * cos (- fam_w ex_r1 ex_r2c wc 0 + th)))
    by exact (family_r2 true _ _ th wc Hn F Fc 0).
  assert (EV : exists v1 v2, @ava_velocities XR (Fin 1) (Fin 0) (vfin ex_r1) (vfin ex_r2c) true = Ok (vfin v1, vfin v2)).
  { unfold ava_velocities. rewrite EC. cbn [bind].
    rewrite coe2rv_F; [|lra|assumption|rewrite A1, U1 in Q1; lra]. cbn [bind].
    rewrite coe2rv_F; [|lra|assumption|rewrite A2, U2 in Q1; lra]. cbn [bind]. eexists _, _. reflexivity. }
  destruct EV as (v1 & v2 & EV). eexists _, v1, v2. split; [exact EG|]. split; [exact EV|]. split; [exact T0|].
  apply (C56_avanzini_time 1 true ex_r1 ex_r2c (Fin 0) _ v1 v2 (PI / 2) Rlt_0_1 Hn Hne EG EV T0). pose proof PI_RGT_0. lra.
Qed.

(** Hypotheses of [C56_avanzini_run] met by an actual return. *)
Example C56_run_case : forall ev, non_collinear ex_r1 ex_r2c /\ ~ equatorial ex_r1 ex_r2c /\ exists o v1 v2,
  @run XR Avanzini ev (call 1 ex_r1 ex_r2c (PI / 2) 0 true true 35 (1 / 100000) (1 / 10000000) false) = Ok o /\ delivers o v1 v2.
Proof. intros ev. destruct (C11_avanzini_case ev) as (A & _ & B & C). auto. Qed.
