(** * The time of flight of pan2016 is the time of the transfer it reconstructs. *)
From Coq Require Import Reals ZArith Bool Lra Lia Psatz.
From Verif Require Import Num XReal XRealLemmas MApi ApiFacts MScipy MLinalg MAngles MPan
  Spec SpecLambert VecFacts VecXR AnglesXR Loops CallXR Godal GodalXR GodalPan UniversalKepler KeplerXR PropertiesKepler KeplerTime.
Local Open Scope R_scope.

(** ** True anomalies *)
Section True.
Variables P Q : rvec.
Hypothesis HP : vdot P P = 1.
Hypothesis HQ : vdot Q Q = 1.
Hypothesis HPQ : vdot P Q = 0.
Variables (mu q e : R).
Hypothesis Hmu : 0 < mu.
Hypothesis Hq : 0 < q.

Definition conic_r (f : R) : rvec := planar P Q (q / (1 + e * cos f) * cos f) (q / (1 + e * cos f) * sin f).
Definition conic_v (f : R) : rvec := planar P Q (- (sqrt (mu / q) * sin f)) (sqrt (mu / q) * (e + cos f)).

(** [E] is the eccentric anomaly of the true anomaly [f]. *)
Definition eccentric (f E : R) : Prop :=
  cos E = (e + cos f) / (1 + e * cos f) /\ sin E = sqrt (1 - e * e) * sin f / (1 + e * cos f).

Theorem ellipse_true f1 f2 E1 E2 : 0 <= e < 1 -> eccentric f1 E1 -> eccentric f2 E2 -> E1 < E2 < E1 + 2 * PI ->
  lambert_solution mu (conic_r f1) (conic_v f1) (conic_r f2) (conic_v f2)
    (sqrt ((q / (1 - e * e)) ^ 3 / mu) * (E2 - E1 - e * (sin E2 - sin E1))) 0.
Proof.
  intros He H1 H2 HE. assert (E0 : 0 < 1 - e * e) by nra. destruct (sqrt_pos_facts _ E0) as [S0 S]. set (s := sqrt (1 - e * e)) in *.
  set (a := q / (1 - e * e)). assert (A0 : 0 < a) by now apply Rdiv_lt_0_compat.
  assert (D : forall f, 0 < 1 + e * cos f) by (intros f; pose proof (COS_bound f); nra).
  assert (K : sqrt (mu / a) = sqrt (mu / q) * s).
  { replace (mu / a) with (mu / q * (1 - e * e)) by (unfold a; field; lra). apply sqrt_mult; [|lra]. left. now apply Rdiv_lt_0_compat. }
  assert (R : forall f E, eccentric f E -> conic_r f = planar P Q (a * (cos E - e)) (a * s * sin E)).
  { intros f E [C T]. pose proof (D f). unfold conic_r. rewrite C, T. fold s. f_equal; unfold a.
    - field. lra.
    - transitivity (q * (s * s) * sin f / ((1 - e * e) * (1 + e * cos f))); [rewrite S; field; lra|field; lra]. }
  assert (V : forall f E, eccentric f E -> conic_v f = planar P Q (- (sqrt (mu / a) / (1 - e * cos E) * sin E)) (sqrt (mu / a) / (1 - e * cos E) * (s * cos E))).
  { intros f E [C T]. pose proof (D f). unfold conic_v. rewrite K.
    replace (1 - e * cos E) with (s * s / (1 + e * cos f)) by (rewrite C, S; field; lra). rewrite C, T. fold s. f_equal; field; lra. }
  apply (ellipse_lambert P Q HP HQ HPQ mu a e E1 E2); auto.
Qed.

(** [F] is the hyperbolic anomaly of the true anomaly [f]. *)
Definition hyperbolic (f F : R) : Prop :=
  0 < 1 + e * cos f /\ cosh F = (e + cos f) / (1 + e * cos f) /\ sinh F = sqrt (e * e - 1) * sin f / (1 + e * cos f).

Theorem hyperbola_true f1 f2 F1 F2 : 1 < e -> hyperbolic f1 F1 -> hyperbolic f2 F2 -> F1 < F2 ->
  lambert_solution mu (conic_r f1) (conic_v f1) (conic_r f2) (conic_v f2)
    (sqrt ((q / (e * e - 1)) ^ 3 / mu) * (e * (sinh F2 - sinh F1) - (F2 - F1))) 0.
Proof.
  intros He H1 H2 HF. assert (E0 : 0 < e * e - 1) by nra. destruct (sqrt_pos_facts _ E0) as [S0 S]. set (s := sqrt (e * e - 1)) in *.
  set (a := q / (e * e - 1)). assert (A0 : 0 < a) by now apply Rdiv_lt_0_compat.
  assert (K : sqrt (mu / a) = sqrt (mu / q) * s).
  { replace (mu / a) with (mu / q * (e * e - 1)) by (unfold a; field; lra). apply sqrt_mult; [|lra]. left. now apply Rdiv_lt_0_compat. }
  assert (R : forall f F, hyperbolic f F -> conic_r f = planar P Q (a * (e - cosh F)) (a * s * sinh F)).
  { intros f F (D & C & T). unfold conic_r. rewrite C, T. fold s. f_equal; unfold a.
    - field. lra.
    - transitivity (q * (s * s) * sin f / ((e * e - 1) * (1 + e * cos f))); [rewrite S; field; lra|field; lra]. }
  assert (V : forall f F, hyperbolic f F -> conic_v f = planar P Q (- (sqrt (mu / a) / (e * cosh F - 1) * sinh F)) (sqrt (mu / a) / (e * cosh F - 1) * (s * cosh F))).
  { intros f F (D & C & T). unfold conic_v. rewrite K.
    replace (e * cosh F - 1) with (s * s / (1 + e * cos f)) by (rewrite C, S; field; lra). rewrite C, T. fold s. f_equal; field; lra. }
  apply (hyperbola_lambert P Q HP HQ HPQ mu a e F1 F2); auto.
Qed.
End True.

(** ** The anomalies computed by pan2016 *)
Lemma half_angle f : cos f = 2 * (cos (f / 2) * cos (f / 2)) - 1 /\ cos f = 1 - 2 * (sin (f / 2) * sin (f / 2)) /\ sin f = 2 * (sin (f / 2) * cos (f / 2)).
Proof.
  pose proof (sin2_cos2 (f / 2)) as T. unfold Rsqr in T. assert (E : f = 2 * (f / 2)) by field.
  assert (C : cos f = 2 * (cos (f / 2) * cos (f / 2)) - 1) by (rewrite E at 1; rewrite cos_2a_cos; ring).
  assert (Sn : sin f = 2 * (sin (f / 2) * cos (f / 2))) by (rewrite E at 1; rewrite sin_2a; ring). lra.
Qed.

Lemma pan_eccentric_F e f : 0 <= e < 1 -> exists E, @pan_eccentric_anomaly XR (Fin f) (Fin e) = Fin E /\ eccentric e f E.
Proof.
  intros He. unfold pan_eccentric_anomaly. xunf. cbn [xsub xadd xlift2].
  rewrite (xdiv_F f 2) by lra. rewrite !xsqrt_F by lra. cbn [xlift1 xlift2 xmul].
  set (Y := sqrt (1 - e) * sin (f / 2)). set (X := sqrt (1 + e) * cos (f / 2)).
  eexists. split; [reflexivity|]. destruct (half_angle f) as (C1 & C2 & Sn).
  assert (QX : X * X = (1 + e) * (1 + cos f) / 2).
  { unfold X. replace (sqrt (1 + e) * cos (f / 2) * (sqrt (1 + e) * cos (f / 2))) with (sqrt (1 + e) * sqrt (1 + e) * (cos (f / 2) * cos (f / 2))) by ring.
    rewrite sqrt_sqrt by lra. replace (cos (f / 2) * cos (f / 2)) with ((1 + cos f) / 2) by lra. field. }
  assert (QY : Y * Y = (1 - e) * (1 - cos f) / 2).
  { unfold Y. replace (sqrt (1 - e) * sin (f / 2) * (sqrt (1 - e) * sin (f / 2))) with (sqrt (1 - e) * sqrt (1 - e) * (sin (f / 2) * sin (f / 2))) by ring.
    rewrite sqrt_sqrt by lra. replace (sin (f / 2) * sin (f / 2)) with ((1 - cos f) / 2) by lra. field. }
  assert (QXY : X * Y = sqrt (1 - e * e) * sin f / 2).
  { unfold X, Y. rewrite Sn. replace (1 - e * e) with ((1 - e) * (1 + e)) by ring. rewrite sqrt_mult by lra. field. }
  assert (D : 0 < 1 + e * cos f) by (pose proof (COS_bound f); nra).
  assert (N : X * X + Y * Y = 1 + e * cos f) by (rewrite QX, QY; field).
  assert (H0 : X <> 0 \/ Y <> 0). { destruct (Req_EM_T X 0) as [Z|Z]; [right|left; exact Z]. intros Z'. rewrite Z, Z' in N. lra. }
  destruct (Ratan2_cos_sin X Y H0) as [A B]. destruct (sqrt_pos_facts _ D) as [W1 W2]. rewrite N in A, B. set (w := sqrt (1 + e * cos f)) in *.
  split.
  - rewrite cos_2a, A, B. replace (X / w * (X / w) - Y / w * (Y / w)) with ((X * X - Y * Y) / (w * w)) by (field; lra). rewrite QX, QY, W2. field. lra.
  - rewrite sin_2a, A, B. replace (2 * (Y / w) * (X / w)) with (2 * (X * Y) / (w * w)) by (field; lra). rewrite QXY, W2. field. lra.
Qed.

Lemma cosh_sinh_artanh u : -1 < u < 1 -> cosh (2 * artanh u) = (1 + u * u) / (1 - u * u) /\ sinh (2 * artanh u) = 2 * u / (1 - u * u).
Proof.
  intros H. pose proof (artanh_bound u _ H eq_refl) as E. unfold cosh, sinh. rewrite exp_Ropp, E. assert (1 - u * u <> 0) by nra.
  split; field; repeat split; nra.
Qed.

Lemma pan_hyperbolic_F e f F : 1 < e -> 0 < 1 + e * cos f -> @pan_hyperbolic_anomaly XR (Fin f) (Fin e) = Ok F ->
  exists G, F = Fin G /\ hyperbolic e f G.
Proof.
  intros He HD H. unfold pan_hyperbolic_anomaly in H. revert H. xunf. cbn [xsub xadd xlift2].
  rewrite (xdiv_F (e - 1)) by lra. rewrite (xdiv_F f 2) by lra. assert (K0 : 0 < (e - 1) / (e + 1)) by (apply Rdiv_lt_0_compat; lra).
  rewrite xsqrt_F by lra. unfold xtan, xpart1. destruct (tan_dom_dec (f / 2)) as [Hc|Hc].
  2: { exfalso. apply Hc. intros Z. destruct (half_angle f) as (C1 & _). rewrite Z in C1. nra. }
  cbn [xmul xlift2 xlift1]. set (u := sqrt ((e - 1) / (e + 1)) * tan (f / 2)).
  match goal with |- (if ?b then _ else _) = _ -> _ => change b with (xleb (Fin 1) (Fin (Rabs u))) end.
  destruct (xleb (Fin 1) (Fin (Rabs u))) eqn:L; [intros H; discriminate H|]. apply xleb_Ff in L.
  assert (U : -1 < u < 1). { apply Rabs_def2 in L. lra. }
  rewrite KeplerXR.xatanh_F by assumption. intros H. apply Ok_inj in H. subst F. eexists. split; [reflexivity|].
  destruct (half_angle f) as (C1 & C2 & Sn). assert (C0 : 0 < 1 + cos f).
  { assert (0 < cos (f / 2) * cos (f / 2)); [|lra]. assert (cos (f / 2) <> 0) by exact Hc. nra. }
  assert (UU : u * u = (e - 1) / (e + 1) * ((1 - cos f) / (1 + cos f))).
  { unfold u. replace (sqrt ((e - 1) / (e + 1)) * tan (f / 2) * (sqrt ((e - 1) / (e + 1)) * tan (f / 2)))
      with (sqrt ((e - 1) / (e + 1)) * sqrt ((e - 1) / (e + 1)) * (tan (f / 2) * tan (f / 2))) by ring.
    rewrite sqrt_sqrt by lra. f_equal. unfold tan. replace (1 - cos f) with (2 * (sin (f / 2) * sin (f / 2))) by lra.
    replace (1 + cos f) with (2 * (cos (f / 2) * cos (f / 2))) by lra. field. exact Hc. }
  assert (U1 : 1 - u * u = 2 * (1 + e * cos f) / ((e + 1) * (1 + cos f))) by (rewrite UU; field; lra).
  assert (D : 0 < 1 + e * cos f).
  { assert (0 < 1 - u * u) by nra. assert (0 < (e + 1) * (1 + cos f)) by nra.
    assert (2 * (1 + e * cos f) = (1 - u * u) * ((e + 1) * (1 + cos f))) by (rewrite U1; field; lra). nra. }
  destruct (cosh_sinh_artanh u U) as [CH SH]. split; [exact D|]. split.
  - rewrite CH. replace (1 + u * u) with (2 - (1 - u * u)) by ring. rewrite U1. field. lra.
  - rewrite SH, U1. unfold u.
    assert (SQ : sqrt (e * e - 1) = sqrt ((e - 1) / (e + 1)) * (e + 1)).
    { apply sqrt_lem_1; [nra| |].
      - apply Rmult_le_pos; [apply sqrt_pos|lra].
      - replace (sqrt ((e - 1) / (e + 1)) * (e + 1) * (sqrt ((e - 1) / (e + 1)) * (e + 1)))
          with (sqrt ((e - 1) / (e + 1)) * sqrt ((e - 1) / (e + 1)) * ((e + 1) * (e + 1))) by ring. rewrite sqrt_sqrt by lra. field. lra. }
    rewrite SQ. assert (T : tan (f / 2) * (1 + cos f) = sin f) by (unfold tan; rewrite C1 at 1; rewrite Sn; field; exact Hc).
    rewrite <- T. field. lra.
Qed.

Lemma floor_unique x k : IZR k <= x < IZR k + 1 -> Rfloor x = IZR k.
Proof.
  intros H. pose proof (Rfloor_bound x) as B. unfold Rfloor in *. apply f_equal.
  assert (IZR (Int_part x) < IZR (k + 1)) by (rewrite plus_IZR; lra). assert (IZR k < IZR (Int_part x + 1)) by (rewrite plus_IZR; lra).
  apply lt_IZR in H0, H1. lia.
Qed.

Lemma cos_turns x j : cos (x + 2 * PI * IZR j) = cos x /\ sin (x + 2 * PI * IZR j) = sin x.
Proof.
  destruct (Z_le_gt_dec 0 j) as [L|L].
  - replace (x + 2 * PI * IZR j) with (x + 2 * INR (Z.to_nat j) * PI) by (rewrite INR_IZR_INZ, Z2Nat.id by lia; ring).
    rewrite cos_period, sin_period. auto.
  - set (y := x + 2 * PI * IZR j). replace x with (y + 2 * INR (Z.to_nat (- j)) * PI) by (unfold y; rewrite INR_IZR_INZ, Z2Nat.id, opp_IZR by lia; ring).
    rewrite cos_period, sin_period. auto.
Qed.

(** The wrapped difference of mean anomalies is the one of the next passage. *)
Lemma wrapped e E1 E2 : 0 <= e < 1 -> (cos E1 <> cos E2 \/ sin E1 <> sin E2) ->
  exists E, E1 < E < E1 + 2 * PI /\ cos E = cos E2 /\ sin E = sin E2 /\
    xmod (Fin (E2 - e * sin E2 - (E1 - e * sin E1))) (Fin (2 * PI)) = Fin (E - E1 - e * (sin E - sin E1)).
Proof.
  intros He Hd. pose proof PI_RGT_0 as PP. set (k := Int_part ((E2 - E1) / (2 * PI))).
  pose proof (Rfloor_bound ((E2 - E1) / (2 * PI))) as B. unfold Rfloor in B. fold k in B.
  assert (D : 2 * PI * ((E2 - E1) / (2 * PI)) = E2 - E1) by (field; lra).
  destruct (cos_turns E2 (- k)) as [C S]. set (E := E2 + 2 * PI * IZR (- k)) in *.
  assert (EE : E = E2 - 2 * PI * IZR k) by (unfold E; rewrite opp_IZR; ring). clearbody E.
  assert (L : E1 <= E < E1 + 2 * PI) by (rewrite EE; split; nra).
  assert (L1 : E1 < E). { destruct (Req_dec E1 E) as [Z|Z]; [exfalso|lra]. rewrite <- Z in C, S. destruct Hd; contradiction. }
  exists E. split; [lra|]. split; [exact C|]. split; [exact S|].
  pose proof (ell_incr e _ _ He L1) as M1. pose proof (ell_incr e E (E1 + 2 * PI) He ltac:(lra)) as M2.
  replace (sin (E1 + 2 * PI)) with (sin E1) in M2 by (rewrite sin_plus, sin_2PI, cos_2PI; ring).
  rewrite xmod_F by lra. rewrite (floor_unique _ k).
  - rewrite <- S, EE. f_equal. ring.
  - rewrite <- S. replace E2 with (E + 2 * PI * IZR k) by lra.
    replace ((E + 2 * PI * IZR k - e * sin E - (E1 - e * sin E1)) / (2 * PI)) with (IZR k + (E - e * sin E - (E1 - e * sin E1)) / (2 * PI)) by (field; lra).
    set (d := E - e * sin E - (E1 - e * sin E1)). assert (0 < d < 2 * PI) by (unfold d; lra).
    assert (d = 2 * PI * (d / (2 * PI))) by (field; lra). split; nra.
Qed.

(** ** The conic pan2016 builds at [omega] *)
Definition pan_periapsis (p : bool) (r1 r2 : rvec) (om : R) : rvec :=
  let ix := vmult (/ vnorm r1) r1 in
  let iy := vcross (vmult (way p r1 r2 / vnorm (vcross r1 r2)) (vcross r1 r2)) ix in
  vplus (vmult (cos om) ix) (vmult (sin om) iy).
Definition pan_quadrature (p : bool) (r1 r2 : rvec) (om : R) : rvec :=
  let ix := vmult (/ vnorm r1) r1 in
  let iy := vcross (vmult (way p r1 r2 / vnorm (vcross r1 r2)) (vcross r1 r2)) ix in
  vplus (vmult (- sin om) ix) (vmult (cos om) iy).

Lemma pan_ixiy p r1 r2 : non_collinear r1 r2 ->
  let ix := vmult (/ vnorm r1) r1 in
  let iy := vcross (vmult (way p r1 r2 / vnorm (vcross r1 r2)) (vcross r1 r2)) ix in
  vdot ix ix = 1 /\ vdot iy iy = 1 /\ vdot ix iy = 0.
Proof.
  intros Hn ix iy. destruct (norms_pos _ _ Hn) as [N1 N2]. pose proof (vnorm_pos _ Hn) as HN.
  set (k := way p r1 r2 / vnorm (vcross r1 r2)). set (ih := vmult k (vcross r1 r2)).
  assert (Q1 : vdot r1 r1 = vnorm r1 * vnorm r1) by (symmetry; apply vnorm_sq).
  assert (Qh : vdot (vcross r1 r2) (vcross r1 r2) = vnorm (vcross r1 r2) * vnorm (vcross r1 r2)) by (symmetry; apply vnorm_sq).
  assert (W : way p r1 r2 * way p r1 r2 = 1) by (unfold way; destruct (short_way_dec p r1 r2); lra).
  assert (X1 : vdot ix ix = 1).
  { unfold ix. replace (vdot (vmult (/ vnorm r1) r1) (vmult (/ vnorm r1) r1)) with (/ vnorm r1 * / vnorm r1 * vdot r1 r1) by (vunf; ring). rewrite Q1. field. lra. }
  assert (XH : vdot ih ih = 1).
  { unfold ih. replace (vdot (vmult k (vcross r1 r2)) (vmult k (vcross r1 r2))) with (k * k * vdot (vcross r1 r2) (vcross r1 r2)) by (vunf; ring).
    rewrite Qh. unfold k. transitivity (way p r1 r2 * way p r1 r2); [field; lra|exact W]. }
  assert (XO : vdot ih ix = 0) by (unfold ih, ix; vunf; ring).
  assert (XX : vdot ix iy = 0) by (unfold iy; fold k ih; vunf; ring).
  split; [exact X1|]. split; [|exact XX].
  unfold iy. fold k ih. replace (vdot (vcross ih ix) (vcross ih ix)) with (vdot ih ih * vdot ix ix - vdot ih ix * vdot ih ix) by (vunf; ring).
  rewrite XH, X1, XO. ring.
Qed.

Lemma pan_PQ p r1 r2 om : non_collinear r1 r2 ->
  vdot (pan_periapsis p r1 r2 om) (pan_periapsis p r1 r2 om) = 1 /\
  vdot (pan_quadrature p r1 r2 om) (pan_quadrature p r1 r2 om) = 1 /\
  vdot (pan_periapsis p r1 r2 om) (pan_quadrature p r1 r2 om) = 0.
Proof.
  intros Hn. destruct (pan_ixiy p r1 r2 Hn) as (A & B & C). unfold pan_periapsis, pan_quadrature. cbn zeta in *.
  set (ix := vmult (/ vnorm r1) r1) in *. set (iy := vcross _ ix) in *. clearbody ix iy.
  pose proof (sin2_cos2 om) as T. unfold Rsqr in T. set (c := cos om) in *. set (s := sin om) in *.
  assert (G : forall a b a' b', vdot (vplus (vmult a ix) (vmult b iy)) (vplus (vmult a' ix) (vmult b' iy))
     = a * a' * vdot ix ix + (a * b' + b * a') * vdot ix iy + b * b' * vdot iy iy) by (intros; vunf; ring).
  rewrite !G, A, B, C. repeat split; lra.
Qed.

Lemma pan_elements_facts mu p r1 r2 th omega el t v1 v2 :
  non_collinear r1 r2 -> 0 < mu -> angle_facts p r1 r2 th ->
  let g := @pan_planar_geometry XR (vfin r1) (vfin r2) (Fin th) p in
  @pan_elements XR g omega = Ok el ->
  @pan_tof_from_elements XR (Fin mu) el = Ok t ->
  @pan_velocities XR (Fin mu) g el = Ok (vfin v1, vfin v2) ->
  exists a ecc om f1 f2 q, el = (Fin a, Fin ecc, Fin om, Fin f1, Fin f2) /\
    0 <= ecc /\ ecc * ecc <> 1 /\ a * (1 - ecc * ecc) = q /\ 0 < q /\ 0 < 1 + ecc * cos f1 /\ 0 < 1 + ecc * cos f2 /\
    let P := pan_periapsis p r1 r2 om in let Q := pan_quadrature p r1 r2 om in
    r1 = conic_r P Q q ecc f1 /\ r2 = conic_r P Q q ecc f2 /\ v1 = conic_v P Q mu q ecc f1 /\ v2 = conic_v P Q mu q ecc f2.
Proof.
  intros Hn Hm F g HE HT HV. destruct (norms_pos _ _ Hn) as [N1 N2].
  assert (G : g = @PanGeometry XR (Fin (vnorm r1)) (Fin (vnorm r2)) (Fin th)
      (vfin (vmult (/ vnorm r1) r1))
      (vfin (vcross (vmult (way p r1 r2 / vnorm (vcross r1 r2)) (vcross r1 r2)) (vmult (/ vnorm r1) r1)))
      (Fin (vnorm r1)) (Fin 0) (Fin (vnorm r2 * cos th)) (Fin (vnorm r2 * sin th))
      (Fin (vnorm r2 * cos th - vnorm r1)) (Fin (vnorm r2 * sin th - 0))).
  { unfold g, pan_planar_geometry. rewrite !norm_F, !vdivs_F by lra. rewrite orbit_normal_F by assumption.
    rewrite cross_F. reflexivity. }
  rewrite G in HE, HV. clear G g. pose proof (pan_frame _ _ _ _ Hn F) as R2. cbn zeta in R2.
  set (ix := vmult (/ vnorm r1) r1) in *. set (iy := vcross _ ix) in *.
  assert (R1 : r1 = vmult (vnorm r1) ix) by (unfold ix; apply vec_eq; vunf; field; lra).
  set (n1 := vnorm r1) in *. set (n2 := vnorm r2) in *.
  destruct omega as [o|].
  2:{ unfold pan_elements in HE. cbn in HE. discriminate. }
  unfold pan_elements in HE. cbn [pg_r1_norm pg_r2_norm pg_x1 pg_y1 pg_x2 pg_y2 pg_xc pg_yc] in HE.
  xunf. cbn [xmul xadd xsub xlift2 xlift1] in HE.
  set (X1 := n1 * cos o + 0 * sin o) in HE. set (X2 := n2 * cos th * cos o + n2 * sin th * sin o) in HE.
  set (proj := (n2 * cos th - n1) * cos o + (n2 * sin th - 0) * sin o) in HE.
  assert (PX : proj = X2 - X1) by (unfold proj, X1, X2; ring).
  destruct (@pan_isclose XR (Fin proj) (Fin 0)) eqn:EP; [discriminate|]. apply pan_isclose_ne in EP.
  rewrite (xdiv_F (n1 - n2)) in HE by assumption.
  set (den := (n1 - n2) * (n1 - n2) - proj * proj) in HE.
  set (ecc0 := (n1 - n2) / proj) in HE.
  assert (HF : exists ecc om, (if xltb (Fin ecc0) (Fin 0) then (Fin (o + PI), Fin (- ecc0)) else (Fin o, Fin ecc0))
       = (Fin om, Fin ecc) /\ 0 <= ecc /\ ecc * cos om = ecc0 * cos o /\ ecc * sin om = ecc0 * sin o /\ ecc * ecc = ecc0 * ecc0).
  { destruct (xltb _ _) eqn:L; eexists _, _; (split; [reflexivity|]).
    - apply xltb_F in L. rewrite neg_cos, neg_sin. repeat split; (lra || ring).
    - apply xltb_Ff in L. repeat split; (lra || ring). }
  destruct HF as (ecc & om & EF & E0 & HC & HS & H2).
  cbn [xadd xlift2 xopp xlift1] in HE. rewrite EF in HE.
  destruct (@pan_isclose XR (Fin den) (Fin 0)) eqn:ED; [discriminate|]. apply pan_isclose_ne in ED.
  rewrite xdiv_F in HE by assumption. set (a := proj * (n2 * X1 - n1 * X2) / den) in HE.
  cbn [xisfinite negb orb xsub xlift2] in HE. apply Ok_inj in HE. subst el.
  set (q := (n1 * X2 - n2 * X1) / proj).
  assert (E2 : ecc * ecc - 1 = den / (proj * proj)) by (rewrite H2; unfold ecc0, den; field; assumption).
  assert (EN : ecc * ecc <> 1).
  { intros Z. rewrite Z in E2. assert (Z' : den / (proj * proj) = 0) by lra.
    apply ED. replace den with (den / (proj * proj) * (proj * proj)) by (field; assumption). rewrite Z'. ring. }
  assert (Q : a * (1 - ecc * ecc) = q).
  { replace (1 - ecc * ecc) with (- (den / (proj * proj))) by lra. unfold a, q. field. split; assumption. }
  assert (Q1 : q = n1 * (1 + ecc * cos om)).
  { rewrite HC. unfold q, ecc0. replace (n1 * cos o) with X1 by (unfold X1; ring).
    transitivity ((n1 * proj + (n1 - n2) * X1) / proj); [replace (n1 * proj + (n1 - n2) * X1) with (n1 * X2 - n2 * X1) by (rewrite PX; ring); reflexivity|].
    replace (n1 * (1 + (n1 - n2) / proj * cos o)) with ((n1 * proj + (n1 - n2) * (n1 * cos o)) / proj) by (field; assumption).
    f_equal. unfold X1. ring. }
  assert (Q2 : q = n2 * (1 + ecc * (cos th * cos om + sin th * sin om))).
  { replace (ecc * (cos th * cos om + sin th * sin om)) with (cos th * (ecc * cos om) + sin th * (ecc * sin om)) by ring.
    rewrite HC, HS. unfold ecc0.
    transitivity ((n2 * proj + (n1 - n2) * X2) / proj); [unfold q; replace (n2 * proj + (n1 - n2) * X2) with (n1 * X2 - n2 * X1) by (rewrite PX; ring); reflexivity|].
    unfold X2. field. assumption. }
  assert (QP : 0 < q).
  { clear HV. unfold pan_tof_from_elements in HT. xunf. cbn [xmul xsub xlift2] in HT.
    destruct (xltb (Fin ecc) (Fin 1)) eqn:L1.
    - apply xltb_F in L1. destruct (xleb (Fin a) (Fin 0)) eqn:L2; [discriminate|]. apply xleb_Ff in L2.
      rewrite <- Q. apply Rmult_lt_0_compat; [assumption|]. clear - L1 E0. nra.
    - apply xltb_Ff in L1. destruct (@pan_isclose XR (Fin ecc) (Fin 1)).
      + unfold pan_parabolic_tof in HT. xunf. destruct (xleb _ _) eqn:L2; [discriminate|]. apply xleb_Ff in L2. lra.
      + destruct (xleb (Fin 0) (Fin a)) eqn:L2; [discriminate|]. apply xleb_Ff in L2.
        rewrite <- Q. assert (1 < ecc * ecc) by (clear - L1 EN; nra). clear - L2 H. nra. }
  unfold pan_velocities in HV. cbn [pg_i_x pg_i_y] in HV. xunf. cbn [xmul xsub xlift2] in HV.
  rewrite Q in HV.
  destruct (xleb (Fin q) (Fin 0)) eqn:LQ; [apply xleb_F in LQ; lra|]. rewrite LQ in HV. clear LQ.
  rewrite xdiv_F in HV by lra. rewrite xsqrt_F in HV by (apply Rlt_le; now apply Rdiv_lt_0_compat).
  cbn [xmul xadd xsub xopp xlift2 xlift1] in HV.
  apply Ok_inj in HV. apply pair_equal_spec in HV. destruct HV as [V1 V2].
  rewrite !vscale_F, vadd_F in V1. rewrite !vscale_F, vadd_F in V2. apply vfin_inj in V1, V2. subst v1 v2.
  destruct (Ratan2_scaled n1 0 N1) as [A1 B1]. rewrite sin_0, cos_0, Rmult_0_r, Rmult_1_r in A1, B1.
  destruct (Ratan2_scaled n2 th N2) as [A2 B2].
  set (f1 := Ratan2 0 n1 - om) in *. set (f2 := Ratan2 (n2 * sin th) (n2 * cos th) - om) in *.
  assert (C1 : cos f1 = cos om /\ sin f1 = - sin om) by (unfold f1; rewrite cos_minus, sin_minus, A1, B1; split; ring).
  assert (C2 : cos f2 = cos th * cos om + sin th * sin om /\ sin f2 = sin th * cos om - cos th * sin om) by (unfold f2; rewrite cos_minus, sin_minus, A2, B2; split; ring).
  clearbody f1 f2. destruct C1 as [C1 S1]. destruct C2 as [C2 S2]. rewrite <- C1 in Q1. rewrite <- C2 in Q2.
  assert (D1 : 1 + ecc * cos f1 = q / n1) by (rewrite Q1; field; lra).
  assert (D2 : 1 + ecc * cos f2 = q / n2) by (rewrite Q2; field; lra).
  exists a, ecc, om, f1, f2, q. split; [reflexivity|]. split; [exact E0|]. split; [exact EN|]. split; [exact Q|]. split; [exact QP|].
  split; [rewrite D1; now apply Rdiv_lt_0_compat|]. split; [rewrite D2; now apply Rdiv_lt_0_compat|].
  unfold conic_r, conic_v, planar, pan_periapsis, pan_quadrature. cbn zeta. fold n1. fold ix. fold iy.
  rewrite D1, D2. replace (q / (q / n1)) with n1 by (field; lra). replace (q / (q / n2)) with n2 by (field; lra).
  pose proof (sin2_cos2 om) as T. unfold Rsqr in T.
  assert (CMB : forall x y, vplus (vmult x (vplus (vmult (cos om) ix) (vmult (sin om) iy))) (vmult y (vplus (vmult (- sin om) ix) (vmult (cos om) iy)))
     = vplus (vmult (cos om * x + - sin om * y) ix) (vmult (sin om * x + cos om * y) iy)) by (intros; apply vec_eq; vunf; ring).
  rewrite !CMB. split; [|split; [|split]].
  - rewrite C1, S1. replace (cos om * (n1 * cos om) + - sin om * (n1 * - sin om)) with (n1 * (sin om * sin om + cos om * cos om)) by ring.
    replace (sin om * (n1 * cos om) + cos om * (n1 * - sin om)) with 0 by ring. rewrite T. rewrite R1 at 1. apply vec_eq; vunf; ring.
  - rewrite C2, S2. replace (cos om * (n2 * (cos th * cos om + sin th * sin om)) + - sin om * (n2 * (sin th * cos om - cos th * sin om)))
      with (n2 * cos th * (sin om * sin om + cos om * cos om)) by ring.
    replace (sin om * (n2 * (cos th * cos om + sin th * sin om)) + cos om * (n2 * (sin th * cos om - cos th * sin om)))
      with (n2 * sin th * (sin om * sin om + cos om * cos om)) by ring. rewrite T, !Rmult_1_r. exact R2.
  - f_equal; f_equal; ring.
  - f_equal; f_equal; ring.
Qed.

(** The time of flight at [omega] is the time of the transfer the velocities at
    [omega] belong to, outside the branch taken for eccentricities in [[1, 1 + 1e-5]]. *)
Lemma pan_time_is_transfer mu p r1 r2 th omega el t v1 v2 :
  non_collinear r1 r2 -> 0 < mu -> angle_facts p r1 r2 th ->
  let g := @pan_planar_geometry XR (vfin r1) (vfin r2) (Fin th) p in
  @pan_elements XR g omega = Ok el ->
  (forall a e om f1 f2, el = (a, Fin e, om, f1, f2) -> 1 <= e -> @pan_isclose XR (Fin e) (Fin 1) = false) ->
  @pan_tof_from_elements XR (Fin mu) el = Ok t ->
  @pan_velocities XR (Fin mu) g el = Ok (vfin v1, vfin v2) ->
  exists T, t = Fin T /\ lambert_solution mu r1 v1 r2 v2 T 0.
Proof.
  intros Hn Hm F g HE NP HT HV.
  destruct (pan_elements_facts mu p r1 r2 th omega el _ v1 v2 Hn Hm F HE HT HV) as (a & e & om & f1 & f2 & q & -> & E0 & EN & Q & QP & D1 & D2 & R1 & R2 & V1 & V2).
  destruct (pan_PQ p r1 r2 om Hn) as (HP & HQ & HPQ). specialize (NP _ _ _ _ _ eq_refl).
  set (P := pan_periapsis p r1 r2 om) in *. set (Qv := pan_quadrature p r1 r2 om) in *. clearbody P Qv. clear HE HV g.
  unfold pan_tof_from_elements in HT. xunf.
  destruct (xltb (Fin e) (Fin 1)) eqn:L1.
  - apply xltb_F in L1. destruct (xleb (Fin a) (Fin 0)) eqn:L2; [discriminate|]. apply xleb_Ff in L2. apply Ok_inj in HT.
    assert (He : 0 <= e < 1) by lra. assert (ED : 0 < 1 - e * e) by nra.
    destruct (pan_eccentric_F e f1 He) as (E1 & EE1 & K1). destruct (pan_eccentric_F e f2 He) as (E2 & EE2 & K2).
    unfold pan_elliptic_tof in HT. rewrite EE1, EE2 in HT. xunf. cbn [xmul xsub xlift2 xlift1] in HT.
    assert (AQ : a = q / (1 - e * e)) by (rewrite <- Q; field; lra).
    destruct (wrapped e E1 E2 He) as (E & HEr & C & S & W).
    { destruct (Req_dec (cos E1) (cos E2)) as [Z1|Z1]; [|now left]. right. intros Z2. apply Hn.
      destruct K1 as [KC1 KS1], K2 as [KC2 KS2]. rewrite R1, R2. unfold conic_r.
      pose proof (COS_bound f1). pose proof (COS_bound f2). 
      assert (X : q / (1 + e * cos f1) * cos f1 = q / (1 + e * cos f2) * cos f2).
      { replace (q / (1 + e * cos f1) * cos f1) with (q / (1 - e * e) * ((e + cos f1) / (1 + e * cos f1) - e)) by (field; lra).
        replace (q / (1 + e * cos f2) * cos f2) with (q / (1 - e * e) * ((e + cos f2) / (1 + e * cos f2) - e)) by (field; lra).
        rewrite <- KC1, <- KC2, Z1. reflexivity. }
      destruct (sqrt_pos_facts _ ED) as [S0 _].
      assert (Y : q / (1 + e * cos f1) * sin f1 = q / (1 + e * cos f2) * sin f2).
      { replace (q / (1 + e * cos f1) * sin f1) with (q / sqrt (1 - e * e) * (sqrt (1 - e * e) * sin f1 / (1 + e * cos f1))) by (field; lra).
        replace (q / (1 + e * cos f2) * sin f2) with (q / sqrt (1 - e * e) * (sqrt (1 - e * e) * sin f2 / (1 + e * cos f2))) by (field; lra).
        rewrite <- KS1, <- KS2, Z2. reflexivity. }
      rewrite X, Y. apply vec_eq; vunf; ring. }
    match type of HT with context [xmod (Fin ?x) _] => replace (Fin x) with (Fin (E2 - e * sin E2 - (E1 - e * sin E1))) in HT by reflexivity end.
    rewrite W in HT. rewrite xdiv_F in HT by lra. rewrite xsqrt_F in HT.
    2:{ apply Rlt_le, Rdiv_lt_0_compat; [|assumption]. assert (0 < a * a) by nra. nra. }
    cbn [xmul xlift2] in HT. eexists. split; [symmetry; exact HT|]. clear HT.
    rewrite R1, V1, R2, V2. rewrite AQ.
    replace (q / (1 - e * e) * (q / (1 - e * e)) * (q / (1 - e * e))) with ((q / (1 - e * e)) ^ 3) by ring.
    apply (ellipse_true P Qv HP HQ HPQ mu q e Hm QP f1 f2 E1 E He); [exact K1| |exact HEr]. destruct K2. split; congruence.
  - apply xltb_Ff in L1. rewrite (NP L1) in HT. destruct (xleb (Fin 0) (Fin a)) eqn:L2; [discriminate|]. apply xleb_Ff in L2.
    assert (He : 1 < e) by (destruct (Req_dec e 1) as [Z|Z]; [exfalso; apply EN; rewrite Z; ring|lra]). assert (ED : 0 < e * e - 1) by nra.
    unfold pan_hyperbolic_tof in HT. apply bind_ok in HT. destruct HT as (F1 & HF1 & HT). apply bind_ok in HT. destruct HT as (F2 & HF2 & HT).
    revert HT. xunf. intros HT.
    destruct (pan_hyperbolic_F e f1 F1 He D1 HF1) as (G1 & -> & K1).
    destruct (pan_hyperbolic_F e f2 F2 He D2 HF2) as (G2 & -> & K2).
    cbn [xmul xsub xopp xlift2 xlift1] in HT.
    destruct (xleb _ _) eqn:L3; [discriminate|]. apply xleb_Ff in L3. apply Ok_inj in HT.
    rewrite xdiv_F in HT by lra. rewrite xsqrt_F in HT.
    2:{ apply Rlt_le, Rdiv_lt_0_compat; [|assumption]. assert (0 < - a * - a) by nra. nra. }
    cbn [xmul xlift2] in HT. eexists. split; [symmetry; exact HT|]. clear HT.
    assert (GG : G1 < G2).
    { destruct (Rtotal_order G1 G2) as [Z|[Z|Z]]; [exact Z| |].
      - subst. lra.
      - pose proof (hyp_incr e _ _ He Z). lra. }
    assert (AQ : - a = q / (e * e - 1)) by (rewrite <- Q; field; lra).
    rewrite AQ. rewrite R1, V1, R2, V2.
    replace (q / (e * e - 1) * (q / (e * e - 1)) * (q / (e * e - 1))) with ((q / (e * e - 1)) ^ 3) by ring.
    replace (e * sinh G2 - G2 - (e * sinh G1 - G1)) with (e * (sinh G2 - sinh G1) - (G2 - G1)) by ring.
    apply (hyperbola_true P Qv HP HQ HPQ mu q e Hm QP f1 f2 G1 G2 He K1 K2 GG).
Qed.
