(** * Closed forms of the transfer time, and the inverse of [C0]. *)
From Coq Require Import Reals ZArith Bool Lra Lia Psatz.
From Verif Require Import Num Spec SpecLambert VecFacts UniversalKepler LambertUV LambertRev XReal XRealLemmas Godal GodalXR DelatorreXR.
Local Open Scope R_scope.

(** [v1] and [v2] are given by the Lagrange coefficients [f = 1 - V / r1],
    [g = A sqrt (V / mu)], [gdot = 1 - V / r2]. *)
Record fg_pair (mu : R) (r1 r2 : rvec) (A V : R) (v1 v2 : rvec) : Prop := {
  fg_A : A * A = vnorm r1 * vnorm r2 + vdot r1 r2;
  fg_V : 0 < V;
  fg_v1 : v1 = vmult (/ (A * sqrt V / sqrt mu)) (vminus r2 (vmult (1 - V / vnorm r1) r1));
  fg_v2 : v2 = vmult (/ (A * sqrt V / sqrt mu)) (vminus (vmult (1 - V / vnorm r2) r2) r1)
}.

Lemma sqrt_facts x : 0 < x -> 0 < sqrt x /\ sqrt x * sqrt x = x.
Proof. intros. split; [now apply sqrt_lt_R0|apply sqrt_sqrt; lra]. Qed.

Lemma ab_fg mu r1 r2 a b A v1 v2 :
  non_collinear r1 r2 -> 0 < mu ->
  v1 = vplus (vmult a (vminus r2 r1)) (vmult (b / vnorm r1) r1) ->
  v2 = vminus (vmult a (vminus r2 r1)) (vmult (b / vnorm r2) r2) ->
  a * b * Kgeo r1 r2 = mu -> A * A = Kgeo r1 r2 -> 0 < a * A ->
  fg_pair mu r1 r2 A (b / a) v1 v2.
Proof.
  intros Hn Hm E1 E2 Hab HA HaA. destruct (norms_pos _ _ Hn) as [N1 N2].
  pose proof (Kgeo_pos _ _ Hn) as K.
  assert (Ha : a <> 0) by (intros ->; lra).
  assert (HV : 0 < b / a).
  { replace (b / a) with (mu / (a * a * Kgeo r1 r2)) by (rewrite <- Hab; field; repeat split; lra).
    apply Rdiv_lt_0_compat; nra. }
  destruct (sqrt_facts _ HV) as [S1 S2]. destruct (sqrt_facts _ Hm) as [M1 M2].
  assert (Hg : A * sqrt (b / a) / sqrt mu * a = 1).
  { set (g := A * sqrt (b / a) / sqrt mu * a).
    assert (G0 : 0 < g).
    { unfold g. replace (A * sqrt (b / a) / sqrt mu * a) with (a * A * (sqrt (b / a) / sqrt mu)) by (field; lra).
      apply Rmult_lt_0_compat; [assumption|]. now apply Rdiv_lt_0_compat. }
    assert (G2 : g * g = 1).
    { unfold g. replace (A * sqrt (b / a) / sqrt mu * a * (A * sqrt (b / a) / sqrt mu * a))
        with (A * A * (a * a) * (sqrt (b / a) * sqrt (b / a)) / (sqrt mu * sqrt mu)) by (field; lra).
      rewrite S2, M2, HA. transitivity (a * b * Kgeo r1 r2 / mu); [field; lra|]. rewrite Hab. field. lra. }
    nra. }
  assert (Hi : / (A * sqrt (b / a) / sqrt mu) = a).
  { apply Rmult_eq_reg_l with (A * sqrt (b / a) / sqrt mu).
    - rewrite Hg. apply Rinv_r. intros E. rewrite E in Hg. lra.
    - intros E. rewrite E in Hg. lra. }
  constructor; [exact HA|exact HV| |]; rewrite Hi.
  - rewrite E1. apply vec_eq; vunf; field; lra.
  - rewrite E2. apply vec_eq; vunf; field; lra.
Qed.

Lemma fg_lambert mu r1 r2 A V v1 v2 z M :
  0 < mu -> non_collinear r1 r2 -> fg_pair mu r1 r2 A V v1 v2 ->
  z < PI * PI -> (0 <= M)%Z -> (M <> 0%Z -> 0 < z) ->
  vnorm r1 + vnorm r2 - V = sqrt 2 * A * C0 z ->
  lambert_solution mu r1 v1 r2 v2 (tz mu A V z M) M.
Proof.
  intros Hm Hn F Hz HM HMz HC. apply z_solution; try assumption; try apply F. lra.
Qed.

(** ** Values *)
Lemma sqrt_sq x : 0 <= x -> sqrt (x * x) = x.
Proof. intros. now apply sqrt_square. Qed.

Lemma C0_ell s : 0 < s -> C0 (s * s) = cos s.
Proof.
  intros H. unfold C0, U0. destruct (Rlt_dec 0 (s * s)) as [_|L]; [|exfalso; apply L; nra].
  rewrite sqrt_sq by lra. now rewrite Rmult_1_r.
Qed.
Lemma S1_ell s : 0 < s -> S1 (s * s) = sin s / s.
Proof.
  intros H. rewrite S1_U1. unfold U1. destruct (Rlt_dec 0 (s * s)) as [_|L]; [|exfalso; apply L; nra].
  rewrite sqrt_sq by lra. now rewrite Rmult_1_r.
Qed.
Lemma S3_ell s : 0 < s -> S3 (s * s) = (s - sin s) / (s * s * s).
Proof.
  intros H. unfold S3, U3. destruct (Rlt_dec 0 (s * s)) as [_|L]; [|exfalso; apply L; nra].
  rewrite sqrt_sq by lra. now rewrite Rmult_1_r.
Qed.
Lemma C0_hyp s : 0 < s -> C0 (- (s * s)) = cosh s.
Proof.
  intros H. unfold C0, U0. destruct (Rlt_dec 0 (- (s * s))) as [L|_]; [exfalso; nra|].
  destruct (Rlt_dec (- (s * s)) 0) as [_|L]; [|exfalso; apply L; nra].
  rewrite Ropp_involutive, sqrt_sq by lra. now rewrite Rmult_1_r.
Qed.
Lemma S1_hyp s : 0 < s -> S1 (- (s * s)) = sinh s / s.
Proof.
  intros H. rewrite S1_U1. unfold U1. destruct (Rlt_dec 0 (- (s * s))) as [L|_]; [exfalso; nra|].
  destruct (Rlt_dec (- (s * s)) 0) as [_|L]; [|exfalso; apply L; nra].
  rewrite Ropp_involutive, sqrt_sq by lra. now rewrite Rmult_1_r.
Qed.
Lemma S3_hyp s : 0 < s -> S3 (- (s * s)) = (sinh s - s) / (s * s * s).
Proof.
  intros H. unfold S3, U3. destruct (Rlt_dec 0 (- (s * s))) as [L|_]; [exfalso; nra|].
  destruct (Rlt_dec (- (s * s)) 0) as [_|L]; [|exfalso; apply L; nra].
  rewrite Ropp_involutive, sqrt_sq by lra. now rewrite Rmult_1_r.
Qed.
Lemma at_0 : C0 0 = 1 /\ S1 0 = 1 /\ S3 0 = 1 / 6.
Proof.
  rewrite S1_U1. unfold C0, S3, U0, U1, U3. destruct (Rlt_dec 0 0) as [L|_]; [lra|]. repeat split; field.
Qed.

(** ** The three forms of the transfer time *)
Lemma tz_0 mu A V z :
  tz mu A V z 0 = (2 * S3 (4 * z) * V * sqrt (2 * V) / (S1 z * S1 z * S1 z) + A * sqrt V) / sqrt mu.
Proof. unfold tz. unfold Rdiv at 3. rewrite !Rmult_0_l. ring. Qed.
Lemma tz_ell mu A V s M :
  0 < mu -> 0 < V -> 0 < s < PI ->
  tz mu A V (s * s) M =
  (V * sqrt V * (2 * s - sin (2 * s) + 2 * PI * IZR M) / (2 * sqrt 2 * (sin s * sin s * sin s)) + A * sqrt V) / sqrt mu.
Proof.
  intros Hm HV [Hs Hs']. destruct (sqrt_facts _ Hm) as [M1 _]. destruct (sqrt_facts 2) as [W1 W2]; [lra|].
  pose proof (sin_gt_0 s Hs Hs') as S0.
  unfold tz. rewrite S1_ell by lra. replace (4 * (s * s)) with ((2 * s) * (2 * s)) by ring.
  rewrite S3_ell, sqrt_sq by lra. rewrite sqrt_mult by lra.
  apply Rmult_eq_reg_r with (sqrt 2); [|lra].
  replace (2 * ((2 * s - sin (2 * s)) / (2 * s * (2 * s) * (2 * s))) * V * (sqrt 2 * sqrt V))
    with ((sqrt 2 * sqrt 2) * ((2 * s - sin (2 * s)) / (2 * s * (2 * s) * (2 * s))) * V * (sqrt 2 * sqrt V)) by (rewrite W2; ring).
  set (w := sqrt 2) in *. clearbody w.
  transitivity (((w * w) * (2 * s - sin (2 * s)) * V * sqrt V * 2 / (8 * (sin s * sin s * sin s)) + w * A * sqrt V) / sqrt mu * 1
    + IZR M * PI * (V * sqrt V) / (sin s * sin s * sin s * sqrt mu)).
  - rewrite W2. set (k := sin (2 * s)). clearbody k.
    replace (w * w * ((2 * s - k) / (2 * s * (2 * s) * (2 * s))) * V * (w * sqrt V)) with
      (w * (2 * ((2 * s - k) / (2 * s * (2 * s) * (2 * s))) * V * sqrt V)) by (rewrite W2; ring).
    transitivity (((w * w) * (2 * ((2 * s - k) / (2 * s * (2 * s) * (2 * s))) * V * sqrt V) / (sin s / s * (sin s / s) * (sin s / s)) + w * A * sqrt V) / sqrt mu
       + IZR M * PI * (V * sqrt V) / (sin s * sin s * sin s * sqrt mu)).
    + field. repeat split; lra.
    + rewrite W2. field. repeat split; lra.
  - rewrite W2. field. repeat split; lra.
Qed.

Lemma tz_hyp mu A V s :
  0 < mu -> 0 < V -> 0 < s ->
  tz mu A V (- (s * s)) 0 =
  (V * sqrt V * (sinh (2 * s) - 2 * s) / (2 * sqrt 2 * (sinh s * sinh s * sinh s)) + A * sqrt V) / sqrt mu.
Proof.
  intros Hm HV Hs. destruct (sqrt_facts _ Hm) as [M1 _]. destruct (sqrt_facts 2) as [W1 W2]; [lra|].
  pose proof (sinh_pos s Hs) as S0.
  rewrite tz_0, S1_hyp by lra. replace (4 * - (s * s)) with (- ((2 * s) * (2 * s))) by ring.
  rewrite S3_hyp by lra. rewrite (sqrt_mult 2 V) by lra.
  apply Rmult_eq_reg_r with (sqrt 2); [|lra].
  set (w := sqrt 2) in *. clearbody w. set (k := sinh (2 * s)). clearbody k.
  transitivity (((w * w) * (2 * ((k - 2 * s) / (2 * s * (2 * s) * (2 * s))) * V * sqrt V) / (sinh s / s * (sinh s / s) * (sinh s / s)) + w * A * sqrt V) / sqrt mu).
  - field. repeat split; lra.
  - rewrite W2. field. repeat split; lra.
Qed.

Lemma tz_par mu A V :
  0 < mu -> 0 < V -> tz mu A V 0 0 = (sqrt 2 * V * sqrt V / 3 + A * sqrt V) / sqrt mu.
Proof.
  intros Hm HV. destruct (sqrt_facts _ Hm) as [M1 _]. destruct at_0 as (_ & E1 & E3).
  rewrite tz_0, Rmult_0_r, E1, E3, (sqrt_mult 2 V) by lra.
  field. lra.
Qed.

(** ** Inverse of [C0] *)
Lemma C0_onto c : -1 < c ->
  (exists s, 0 < s < PI /\ c = cos s /\ c < 1) \/ c = 1 \/ (exists s, 0 < s /\ c = cosh s /\ 1 < c).
Proof.
  intros H. destruct (Rtotal_order c 1) as [L|[L|L]].
  - left. exists (acos c). destruct (acos_bound c) as [B1 B2]. rewrite cos_acos by lra. repeat split; try assumption.
    + destruct B1 as [|E]; [assumption|]. exfalso. assert (cos (acos c) = c) by (apply cos_acos; lra). rewrite <- E, cos_0 in *. lra.
    + destruct B2 as [|E]; [assumption|]. exfalso. assert (cos (acos c) = c) by (apply cos_acos; lra). rewrite E, cos_PI in *. lra.
  - auto.
  - right; right. destruct (cosh_arcosh c) as [C1 C2]; [lra|]. exists (arcosh c). rewrite C1. repeat split; try assumption.
    destruct C2 as [|E]; [assumption|]. exfalso. rewrite <- E in C1. unfold cosh in C1. rewrite Ropp_0, exp_0 in C1. lra.
Qed.
Lemma C0_inverse c : -1 < c -> exists z, z < PI * PI /\ C0 z = c /\ (c < 1 -> 0 < z).
Proof.
  intros H. pose proof PI_RGT_0. destruct (C0_onto c H) as [(s & Hs & E & L)|[E|(s & Hs & E & L)]].
  - exists (s * s). split; [nra|]. rewrite C0_ell by lra. split; [congruence|nra].
  - exists 0. split; [nra|]. destruct at_0 as [-> _]. split; [congruence|lra].
  - exists (- (s * s)). split; [nra|]. rewrite C0_hyp by lra. split; [congruence|lra].
Qed.

(** Energy of the pair. *)
Lemma fg_energy mu r1 r2 A V v1 v2 c :
  non_collinear r1 r2 -> 0 < mu -> fg_pair mu r1 r2 A V v1 v2 ->
  vnorm r1 + vnorm r2 - V = sqrt 2 * A * c ->
  energy mu r1 v1 = - mu * (1 - c * c) / V.
Proof.
  intros Hn Hm [HA HV E1 _] HC. destruct (norms_pos _ _ Hn) as [N1 N2]. pose proof (Kgeo_pos _ _ Hn) as K. unfold Kgeo in K.
  destruct (sqrt_facts 2) as [W1 W2]; [lra|]. destruct (sqrt_facts _ Hm) as [M1 M2]. destruct (sqrt_facts _ HV) as [R1 R2].
  assert (HA0 : A <> 0) by (intros ->; lra).
  unfold energy. set (g := A * sqrt V / sqrt mu) in *.
  assert (Hg : g <> 0). { unfold g. apply Rmult_integral_contrapositive_currified; [apply Rmult_integral_contrapositive_currified; lra|apply Rinv_neq_0_compat; lra]. }
  assert (G2 : g * g = (vnorm r1 * vnorm r2 + vdot r1 r2) * V / mu).
  { unfold g. transitivity (A * A * (sqrt V * sqrt V) / (sqrt mu * sqrt mu)); [field; lra|]. now rewrite HA, R2, M2. }
  assert (C2 : 2 * (vnorm r1 * vnorm r2 + vdot r1 r2) * (c * c) = (vnorm r1 + vnorm r2 - V) * (vnorm r1 + vnorm r2 - V)).
  { rewrite HC, <- HA. transitivity ((sqrt 2 * sqrt 2) * (A * A * (c * c))); [rewrite W2; ring|ring]. }
  clear HC HA.
  assert (Ed : vdot v1 v1 = (vdot r2 r2 - 2 * (1 - V / vnorm r1) * vdot r1 r2 + (1 - V / vnorm r1) * (1 - V / vnorm r1) * vdot r1 r1) / (g * g)).
  { rewrite E1. generalize (1 - V / vnorm r1). intros f. clear -Hg. vdes. vunf. field. assumption. }
  rewrite Ed, G2, <- !vnorm_sq. set (n1 := vnorm r1) in *. set (n2 := vnorm r2) in *. set (D := vdot r1 r2) in *. clearbody g n1 n2 D.
  assert (Ec : c * c = (n1 + n2 - V) * (n1 + n2 - V) / (2 * (n1 * n2 + D))) by (rewrite <- C2; field; lra).
  rewrite Ec. field. repeat split; lra.
Qed.
