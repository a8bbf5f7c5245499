(** * C40: the parabolic time of flight. *)
From Coq Require Import Reals ZArith Bool List Lra Lia Psatz.
From Coquelicot Require Import Coquelicot.
From Verif Require Import Num XReal XRealLemmas Spec VecFacts Godal GodalXR SpecLambert LambertRev LambertZ MAngles MKepler MAvanzini MPan MJiang MThorne MDer MMcelreath PropertiesKepler.
Local Open Scope R_scope.

(** An arc of a parabola of parameter [p] from the true anomaly [f1] to [f2]:
    [r1], [r2] are the distances at its ends, [c] the chord and [theta] the
    angle between them. *)
Definition parabolic_arc (p f1 f2 r1 r2 c theta : R) : Prop :=
  0 < p /\ - PI < f1 /\ f1 < f2 /\ f2 < PI /\
  r1 = p / (1 + cos f1) /\ r2 = p / (1 + cos f2) /\ theta = f2 - f1 /\
  0 <= c /\ c ^ 2 = r1 ^ 2 + r2 ^ 2 - 2 * r1 * r2 * cos theta.

(** Barker's equation: the time on the arc. *)
Definition barker (mu p f1 f2 : R) : R :=
  1 / 2 * sqrt (p ^ 3 / mu) *
  ((tan (f2 / 2) + tan (f2 / 2) ^ 3 / 3) - (tan (f1 / 2) + tan (f1 / 2) ^ 3 / 3)).

(** ** The arc in terms of the half-angle tangents *)
Lemma tan_half f : - PI < f < PI -> 1 + cos f = 2 / (1 + tan (f / 2) * tan (f / 2)) /\ 0 < cos (f / 2) /\ sin (f / 2) = tan (f / 2) * cos (f / 2)
  /\ cos (f / 2) * cos (f / 2) * (1 + tan (f / 2) * tan (f / 2)) = 1.
Proof.
  intros H. assert (C : 0 < cos (f / 2)) by (apply cos_gt_0; lra).
  pose proof (sin2_cos2 (f / 2)) as E. unfold Rsqr in E.
  assert (T : sin (f / 2) = tan (f / 2) * cos (f / 2)) by (unfold tan; field; lra).
  assert (Q : cos (f / 2) * cos (f / 2) * (1 + tan (f / 2) * tan (f / 2)) = 1) by (rewrite T in E; lra).
  repeat split; try assumption.
  replace (1 + cos f) with (2 * (cos (f / 2) * cos (f / 2))).
  - set (t := tan (f / 2)) in *. apply Rmult_eq_reg_r with (1 + t * t); [|nra]. unfold Rdiv. rewrite !Rmult_assoc, Rinv_l by nra. lra.
  - replace f with (2 * (f / 2)) at 3 by field. rewrite cos_2a_cos. ring.
Qed.

Record arc_facts (p D1 D2 r1 r2 c theta : R) : Prop := {
  ar_p : 0 < p;
  ar_D : D1 < D2;
  ar_r1 : r1 = p / 2 * (1 + D1 * D1);
  ar_r2 : r2 = p / 2 * (1 + D2 * D2);
  ar_half : sqrt (r1 * r2) * cos (theta / 2) = p / 2 * (1 + D1 * D2);
  ar_c : 0 <= c;
  ar_cc : (r1 + r2) * (r1 + r2) - c * c = p * p * ((1 + D1 * D2) * (1 + D1 * D2));
  ar_theta : 0 < theta < 2 * PI;
  ar_short : theta < PI -> 0 < 1 + D1 * D2;
  ar_long : PI < theta -> 1 + D1 * D2 < 0;
  ar_flat : theta = PI -> 1 + D1 * D2 = 0
}.

Lemma arc_ok p f1 f2 r1 r2 c theta : parabolic_arc p f1 f2 r1 r2 c theta ->
  arc_facts p (tan (f1 / 2)) (tan (f2 / 2)) r1 r2 c theta.
Proof.
  intros (Hp & H1 & H12 & H2 & E1 & E2 & Et & Hc & Ec).
  destruct (tan_half f1) as (A1 & C1 & T1 & Q1); [lra|]. destruct (tan_half f2) as (A2 & C2 & T2 & Q2); [lra|].
  assert (Hh : cos (theta / 2) = cos (f1 / 2) * cos (f2 / 2) * (1 + tan (f1 / 2) * tan (f2 / 2))).
  { subst theta. replace ((f2 - f1) / 2) with (f2 / 2 - f1 / 2) by field. rewrite cos_minus, T1, T2. ring. }
  assert (Hs : sin (theta / 2) = cos (f1 / 2) * cos (f2 / 2) * (tan (f2 / 2) - tan (f1 / 2))).
  { subst theta. replace ((f2 - f1) / 2) with (f2 / 2 - f1 / 2) by field. rewrite sin_minus, T1, T2. ring. }
  assert (S0 : 0 < sin (theta / 2)) by (apply sin_gt_0; lra).
  assert (CT : cos theta = 2 * (cos (theta / 2) * cos (theta / 2)) - 1).
  { replace theta with (2 * (theta / 2)) at 1 by field. rewrite cos_2a_cos. ring. }
  set (D1 := tan (f1 / 2)) in *. set (D2 := tan (f2 / 2)) in *. set (c1 := cos (f1 / 2)) in *. set (c2 := cos (f2 / 2)) in *.
  assert (P0 : 0 < c1 * c2) by (apply Rmult_lt_0_compat; assumption).
  assert (HD : D1 < D2) by nra.
  assert (R1 : r1 = p / 2 * (1 + D1 * D1)) by (rewrite E1, A1; field; nra).
  assert (R2 : r2 = p / 2 * (1 + D2 * D2)) by (rewrite E2, A2; field; nra).
  assert (RR : r1 * r2 = p / 2 / (c1 * c2) * (p / 2 / (c1 * c2))).
  { rewrite R1, R2. replace (1 + D1 * D1) with (/ (c1 * c1)); [|apply Rmult_eq_reg_l with (c1 * c1); [rewrite Rinv_r; nra|nra]].
    replace (1 + D2 * D2) with (/ (c2 * c2)); [|apply Rmult_eq_reg_l with (c2 * c2); [rewrite Rinv_r; nra|nra]]. field. split; nra. }
  assert (HH : sqrt (r1 * r2) * cos (theta / 2) = p / 2 * (1 + D1 * D2)).
  { rewrite RR, sqrt_square by (apply Rlt_le, Rdiv_lt_0_compat; lra). rewrite Hh. field. split; nra. }
  constructor; try assumption; try lra.
  - assert (X : 4 * (r1 * r2) * (cos (theta / 2) * cos (theta / 2)) = p * p * ((1 + D1 * D2) * (1 + D1 * D2))).
    { rewrite RR, Hh. field. split; nra. }
    rewrite CT in Ec. nra.
  - intros L. assert (0 < cos (theta / 2)) by (apply cos_gt_0; lra). nra.
  - intros L. assert (cos (theta / 2) < 0) by (apply cos_lt_0; lra). nra.
  - intros L. assert (cos (theta / 2) = 0) by (rewrite L; apply cos_PI2). nra.
Qed.

(** Euler's equation is Barker's. *)
Lemma euler_barker p D1 D2 s d sg :
  0 < p -> D1 < D2 -> 0 < s -> 0 <= d -> s + d = p / 2 * (2 + D1 * D1 + D2 * D2) ->
  s * d = p / 2 * (p / 2) * ((1 + D1 * D2) * (1 + D1 * D2)) ->
  (0 < 1 + D1 * D2 -> sg = 1) -> (1 + D1 * D2 < 0 -> sg = -1) -> d <= s ->
  s * sqrt s - sg * (d * sqrt d) = sqrt (p / 2) * (p / 2) * ((D2 - D1) * (3 + D1 * D1 + D2 * D2 + D1 * D2)).
Proof.
  intros Hp HD Hs Hd Esum Eprod G1 G2 Hds. destruct (sqrt_facts (p / 2)) as [P1 P2]; [lra|].
  destruct (sqrt_facts s Hs) as [S1 S2]. assert (D0 : 0 <= sqrt d) by apply sqrt_pos. assert (D3 : sqrt d * sqrt d = d) by (apply sqrt_sqrt; lra).
  set (a := sqrt s) in *. set (b := sqrt d) in *. set (q := sqrt (p / 2)) in *. set (e := 1 + D1 * D2) in *.
  assert (AB : a * b = q * q * Rabs e).
  { apply Rsqr_inj; [nra|apply Rmult_le_pos; [nra|apply Rabs_pos]|]. unfold Rsqr. rewrite P2.
    replace (p / 2 * Rabs e * (p / 2 * Rabs e)) with (p / 2 * (p / 2) * (Rabs e * Rabs e)) by ring.
    replace (Rabs e * Rabs e) with (e * e) by (unfold Rabs; destruct (Rcase_abs e); ring).
    rewrite <- Eprod, <- S2, <- D3. ring. }
  assert (SG : sg * (a * b) = q * q * e /\ (sg * sg = 1 \/ b = 0)).
  { destruct (Rtotal_order e 0) as [L|[L|L]].
    - rewrite (G2 L), AB, Rabs_left by assumption. split; [ring|left; ring].
    - rewrite L, Rabs_R0 in AB. rewrite AB, L. split; [ring|right]. apply Rmult_eq_reg_l with a; lra.
    - rewrite (G1 L), AB, Rabs_pos_eq by lra. split; [ring|left; ring]. }
  destruct SG as [SG S3].
  assert (X : (a - sg * b) = q * (D2 - D1)).
  { apply Rsqr_inj.
    - destruct S3 as [S3|S3]; [|rewrite S3; lra]. assert (b <= a).
      { apply Rsqr_incr_0; unfold Rsqr; lra. }
      assert (sg <= 1) by nra. nra.
    - nra.
    - unfold Rsqr. replace ((a - sg * b) * (a - sg * b)) with (a * a + sg * sg * (b * b) - 2 * (sg * (a * b))) by ring.
      replace (sg * sg * (b * b)) with (b * b) by (destruct S3 as [-> | ->]; ring). rewrite SG, S2, D3, Esum. unfold e.
      transitivity (q * q * (D2 - D1) * (D2 - D1)); [rewrite P2; field|ring]. }
  transitivity ((a - sg * b) * (a * a + b * b + sg * (a * b))).
  - rewrite <- S2, <- D3.
    transitivity (a * a * a - sg * (b * b * b) + (1 - sg * sg) * (a * (b * b))); [destruct S3 as [-> | ->]; ring|ring].
  - rewrite X, SG, S2, D3, Esum. unfold e. rewrite P2. field.
Qed.

Lemma arc_s p D1 D2 r1 r2 c theta : arc_facts p D1 D2 r1 r2 c theta ->
  let s := (r1 + r2 + c) / 2 in
  0 < r1 /\ 0 < r2 /\ 0 < s /\ 0 <= s - c <= s /\ s + (s - c) = p / 2 * (2 + D1 * D1 + D2 * D2) /\
  s * (s - c) = p / 2 * (p / 2) * ((1 + D1 * D2) * (1 + D1 * D2)) /\
  forall mu, 0 < mu -> forall sg, (0 < 1 + D1 * D2 -> sg = 1) -> (1 + D1 * D2 < 0 -> sg = -1) ->
    sqrt (2 / mu) * (s * sqrt s - sg * ((s - c) * sqrt (s - c))) / 3 =
    1 / 2 * sqrt (p ^ 3 / mu) * ((D2 + D2 ^ 3 / 3) - (D1 + D1 ^ 3 / 3)).
Proof.
  intros [Hp HD E1 E2 _ Hc Ec _ _ _ _] s.
  assert (0 < r1) by (rewrite E1; assert (0 < 1 + D1 * D1) by nra; nra).
  assert (0 < r2) by (rewrite E2; assert (0 < 1 + D2 * D2) by nra; nra).
  assert (Hs : 0 < s) by (unfold s; lra).
  assert (Hd : 0 <= s - c).
  { unfold s. assert (0 <= p * p * ((1 + D1 * D2) * (1 + D1 * D2))) by (apply Rmult_le_pos; [nra|apply Rle_0_sqr]). assert (c <= r1 + r2); [|lra].
    apply Rsqr_incr_0; unfold Rsqr; lra. }
  assert (Esum : s + (s - c) = p / 2 * (2 + D1 * D1 + D2 * D2)) by (unfold s; rewrite E1, E2; field).
  assert (Eprod : s * (s - c) = p / 2 * (p / 2) * ((1 + D1 * D2) * (1 + D1 * D2))) by (unfold s; nra).
  repeat split; try assumption; try lra.
  intros mu Hmu sg G1 G2. rewrite (euler_barker p D1 D2 s (s - c) sg) by (assumption || lra).
  replace (sqrt (p ^ 3 / mu)) with (p * sqrt (p / mu)).
  2:{ replace (p ^ 3 / mu) with ((p * p) * (p / mu)) by (field; lra). rewrite sqrt_mult; [|nra|apply Rlt_le, Rdiv_lt_0_compat; lra].
      rewrite sqrt_square by lra. reflexivity. }
  replace (sqrt (p / mu)) with (sqrt (2 / mu) * sqrt (p / 2)).
  2:{ rewrite <- sqrt_mult; [f_equal; field; lra|apply Rlt_le, Rdiv_lt_0_compat; lra|lra]. }
  field.
Qed.

Lemma pow_3_2 x : 0 <= x -> @npow XR (Fin x) (nlit 3 2) = Fin (x * sqrt x).
Proof.
  intros [H|H]; change (@npow XR (Fin x) (nlit 3 2)) with (xpow (Fin x) (Fin (3 / 2))).
  - rewrite xpow_F by assumption. f_equal. replace (3 / 2) with (1 + / 2) by field. rewrite Rpower_plus, Rpower_1, Rpower_sqrt by assumption. reflexivity.
  - rewrite <- H, xpow_0 by lra. f_equal. ring.
Qed.

(** ** jiang2016 and thorne2004 use Euler's form of Barker's equation *)
Theorem C40_jiang : forall mu p f1 f2 r1 r2 c theta, 0 < mu -> parabolic_arc p f1 f2 r1 r2 c theta ->
  @jia_tof_parabolic XR (Fin mu) (Fin ((r1 + r2 + c) / 2)) (Fin c) (Fin theta) = Fin (barker mu p f1 f2).
Proof.
  intros mu p f1 f2 r1 r2 c theta Hmu H. apply arc_ok in H. pose proof (arc_s _ _ _ _ _ _ _ H) as (_ & _ & Hs & [Hd _] & _ & _ & E).
  set (s := (r1 + r2 + c) / 2) in *. unfold jia_tof_parabolic.
  assert (SG : exists sg, @jia_beta_sign XR (Fin theta) = Fin sg /\ (0 < 1 + tan (f1 / 2) * tan (f2 / 2) -> sg = 1) /\ (1 + tan (f1 / 2) * tan (f2 / 2) < 0 -> sg = -1)).
  { unfold jia_beta_sign. destruct (@nleb XR (Fin theta) npi) eqn:B.
    - apply xleb_F in B. exists 1. split; [reflexivity|split; [reflexivity|intros L; exfalso]]. destruct B as [B|B]; [pose proof (ar_short _ _ _ _ _ _ _ H B)|pose proof (ar_flat _ _ _ _ _ _ _ H B)]; lra.
    - apply xleb_Ff in B. exists (-1). split; [reflexivity|split; [intros L; exfalso|reflexivity]]. pose proof (ar_long _ _ _ _ _ _ _ H B). lra. }
  destruct SG as (sg & -> & G1 & G2). rewrite pow_3_2 by lra.
  change (@nsub XR (Fin s) (Fin c)) with (Fin (s - c)). rewrite pow_3_2 by lra.
  xunf. rewrite xdiv_F by lra. rewrite xsqrt_F by (apply Rlt_le, Rdiv_lt_0_compat; lra). cbn [xmul xadd xsub xlift1 xlift2].
  rewrite xdiv_F by lra. f_equal. apply E; assumption.
Qed.
Print Assumptions C40_jiang.

Theorem C40_thorne : forall mu p f1 f2 r1 r2 c theta, 0 < mu -> parabolic_arc p f1 f2 r1 r2 c theta ->
  @tho_parabolic_tof XR (Fin mu) (Fin ((r1 + r2 + c) / 2)) (Fin c) (Fin (if Rlt_dec theta PI then -1 else 1)) = Fin (barker mu p f1 f2).
Proof.
  intros mu p f1 f2 r1 r2 c theta Hmu H. apply arc_ok in H. pose proof (arc_s _ _ _ _ _ _ _ H) as (_ & _ & Hs & [Hd _] & _ & _ & E).
  set (s := (r1 + r2 + c) / 2) in *. clearbody s. unfold tho_parabolic_tof, cube.
  set (mp := if Rlt_dec theta PI then -1 else 1).
  assert (SG : (0 < 1 + tan (f1 / 2) * tan (f2 / 2) -> - mp = 1) /\ (1 + tan (f1 / 2) * tan (f2 / 2) < 0 -> - mp = -1)).
  { unfold mp. destruct (Rlt_dec theta PI) as [B|B].
    - split; [lra|]. pose proof (ar_short _ _ _ _ _ _ _ H B). lra.
    - split; [|lra]. intros L. exfalso. destruct (Rle_lt_or_eq_dec PI theta) as [L'|L']; [lra| |].
      + pose proof (ar_long _ _ _ _ _ _ _ H L'). lra.
      + pose proof (ar_flat _ _ _ _ _ _ _ H (eq_sym L')). lra. }
  destruct SG as [G1 G2]. xunf. cbn [xmul xadd xsub xlift1 xlift2].
  assert (0 < s * s * s) by (repeat apply Rmult_lt_0_compat; lra).
  rewrite ?xdiv_F by lra. rewrite !xsqrt_F by (try lra; apply Rlt_le, Rdiv_lt_0_compat; lra). rewrite ?xdiv_F by lra.
  change (xpow (Fin ((s - c) / s)) (Fin (3 / 2))) with (@npow XR (Fin ((s - c) / s)) (nlit 3 2)).
  rewrite pow_3_2 by (apply Rmult_le_pos; [lra|left; apply Rinv_0_lt_compat; lra]).
  cbn [xmul xadd xsub xlift1 xlift2]. apply f_equal. unfold barker. rewrite <- (E mu Hmu _ G1 G2).
  destruct (sqrt_facts s Hs) as [S1 S2]. destruct (sqrt_facts mu Hmu) as [M1 M2].
  rewrite (sqrt_div_alt 2 mu), (sqrt_div_alt (s * s * s) mu), (sqrt_div_alt (s - c) s) by lra.
  replace (sqrt (s * s * s)) with (s * sqrt s) by (rewrite (sqrt_mult (s * s) s) by (try apply Rle_0_sqr; lra); rewrite sqrt_square by lra; reflexivity).
  field. repeat split; lra.
Qed.
Print Assumptions C40_thorne.

(** ** der2011, in its normalised variables *)
Theorem C40_der : forall mu p f1 f2 r1 r2 c theta, 0 < mu -> parabolic_arc p f1 f2 r1 r2 c theta ->
  @der_parabolic_time XR (@der_sigma XR (Fin r1) (Fin r2) (Fin (r1 + r2 + c)) (Fin theta)) =
  @der_normalized_time XR (Fin mu) (Fin (r1 + r2 + c)) (Fin (barker mu p f1 f2)).
Proof.
  intros mu p f1 f2 r1 r2 c theta Hmu H. apply arc_ok in H. pose proof (arc_s _ _ _ _ _ _ _ H) as (R1 & R2 & Hs & [Hd Hd'] & Esum & Ep & E).
  set (s := (r1 + r2 + c) / 2) in *. replace (r1 + r2 + c) with (2 * s) by (unfold s; field). clearbody s.
  destruct (sqrt_facts s Hs) as [S1 S2]. destruct (sqrt_facts mu Hmu) as [M1 M2].
  set (e := 1 + tan (f1 / 2) * tan (f2 / 2)) in *.
  assert (SG : exists sg, (0 < e -> sg = 1) /\ (e < 0 -> sg = -1) /\ (sg = 1 \/ sg = -1)).
  { destruct (Rlt_dec e 0); [exists (-1)|exists 1]; repeat split; try lra; auto. }
  destruct SG as (sg & G1 & G2 & G3). unfold barker. rewrite <- (E mu Hmu sg G1 G2).
  unfold der_parabolic_time, der_sigma, der_normalized_time, cube. xunf. cbn [xmul xadd xsub xlift1 xlift2].
  rewrite xsqrt_F by nra. rewrite (xdiv_F theta) by lra. cbn [xmul xadd xsub xlift1 xlift2]. rewrite !xdiv_F by nra. cbn [xmul xadd xsub xlift1 xlift2].
  rewrite xdiv_F by lra. assert (0 < 2 * s * (2 * s) * (2 * s)) by (repeat apply Rmult_lt_0_compat; lra). rewrite xdiv_F by lra. rewrite xsqrt_F by (apply Rlt_le, Rdiv_lt_0_compat; lra). cbn [xmul xlift2]. apply f_equal.
  pose proof (ar_half _ _ _ _ _ _ _ H) as HH. fold e in HH.
  assert (AB : sqrt (r1 * r2) * cos (theta / 2) = sg * (sqrt s * sqrt (s - c))).
  { rewrite HH, <- sqrt_mult, Ep by lra. pose proof (ar_p _ _ _ _ _ _ _ H).
    replace (p / 2 * (p / 2) * (e * e)) with ((p / 2 * Rabs e) * (p / 2 * Rabs e)).
    - rewrite sqrt_square by (apply Rmult_le_pos; [lra|apply Rabs_pos]). unfold Rabs. destruct (Rcase_abs e) as [L|L].
      + rewrite (G2 L). ring.
      + destruct L as [L|L]; [rewrite (G1 L); ring|rewrite L; ring].
    - unfold Rabs. destruct (Rcase_abs e); ring. }
  assert (Q : sqrt (s - c) * sqrt (s - c) = s - c) by (apply sqrt_sqrt; lra).
  rewrite (sqrt_div_alt 2 mu), (sqrt_div_alt mu) by lra.
  replace (2 * s * (2 * s) * (2 * s)) with ((2 * s) * (2 * s) * (2 * s)) by ring. rewrite (sqrt_mult (2 * s * (2 * s))), sqrt_square, (sqrt_mult 2 s) by nra.
  replace (2 * sqrt (r1 * r2) * cos (theta / 2)) with (2 * (sqrt (r1 * r2) * cos (theta / 2))) by ring. rewrite AB.
  destruct (sqrt_facts 2) as [W1 W2]; [lra|]. set (a := sqrt s) in *. set (b := sqrt (s - c)) in *. rewrite <- Q, <- S2.
  destruct G3 as [-> | ->]; field; repeat split; lra.
Qed.
Print Assumptions C40_der.

(** ** mcelreath2025, in its units with [mu = 1] *)
Theorem C40_mcelreath : forall p f1 f2 r1 r2 c theta, parabolic_arc p f1 f2 r1 r2 c theta ->
  @mce_parabolic_tof XR (Fin (r1 + r2)) (Fin (sqrt (r1 * r2) * cos (theta / 2))) = Fin (barker 1 p f1 f2).
Proof.
  intros p f1 f2 r1 r2 c theta H. apply arc_ok in H. destruct H as [Hp HD E1 E2 HH _ _ _ _ _ _]. rewrite HH.
  set (D1 := tan (f1 / 2)) in *. set (D2 := tan (f2 / 2)) in *. unfold mce_parabolic_tof, cube, barker. fold D1 D2. xunf. cbn [xmul xadd xsub xlift1 xlift2].
  destruct (sqrt_facts p Hp) as [P1 P2].
  replace (2 * (r1 + r2 - 2 * (p / 2 * (1 + D1 * D2)))) with ((sqrt p * (D2 - D1)) * (sqrt p * (D2 - D1))).
  2:{ rewrite E1, E2. transitivity (sqrt p * sqrt p * ((D2 - D1) * (D2 - D1))); [ring|]. rewrite P2. field. }
  rewrite xsqrt_F by apply Rle_0_sqr. rewrite sqrt_square by (apply Rmult_le_pos; lra). cbn [xmul xadd xsub xlift1 xlift2]. rewrite xdiv_F by lra. cbn [xadd xlift2]. apply f_equal.
  replace (sqrt (p ^ 3 / 1)) with (p * sqrt p).
  2:{ replace (p ^ 3 / 1) with (p * p * p) by field. rewrite sqrt_mult, sqrt_square by nra. reflexivity. }
  set (q := sqrt p) in *. rewrite <- P2. field.
Qed.
Print Assumptions C40_mcelreath.

(** ** avanzini2008: at eccentricity one the Kepler time is Barker's *)
Lemma nu_to_B_F nu : - PI < nu < PI -> @nu_to_B XR (Fin nu) = Fin (tan (nu / 2)).
Proof.
  intros H. unfold nu_to_B. xunf. rewrite xdiv_F by lra. apply xtan_F. destruct (tan_half nu H) as (_ & C & _). lra.
Qed.

Lemma cubic_inc a b : a < b -> 0 < b + b ^ 3 / 3 - (a + a ^ 3 / 3).
Proof.
  intros H. replace (b + b ^ 3 / 3 - (a + a ^ 3 / 3)) with ((b - a) * (1 + (a * a + a * b + b * b) / 3)) by field.
  apply Rmult_lt_0_compat; [lra|]. nra.
Qed.

Theorem C40_avanzini : forall mu eT g a p f1 f2, 0 < mu -> 0 < p -> - PI < f1 -> f1 < f2 -> f2 < PI ->
  @eap_from_eccT XR (Fin eT) g = (Fin 1, a, Fin p) ->
  @get_true_anomalies XR (w_at_eccT (Fin eT) (get_eccF (eg_r1 g) (eg_r2 g) (eg_c g)) (eg_wc g)) (eg_dtheta g) = (Fin f1, Fin f2) ->
  @kepler_tof_at_eccT XR (Fin eT) (Fin mu) g = Ok (Fin (barker mu p f1 f2)).
Proof.
  intros mu eT g a p f1 f2 Hmu Hp H1 H12 H2 EE EA. unfold kepler_tof_at_eccT. rewrite EE. cbv zeta. rewrite EA.
  assert (KN : forall f, - PI < f < PI -> @kepler_from_nu XR (Fin f) (Fin 1) = Ok (Fin (tan (f / 2) + 1 / 3 * (tan (f / 2) * tan (f / 2) * tan (f / 2))))).
  { intros f Hf. unfold kepler_from_nu. rewrite nu_to_B_F by assumption.
    replace (@nltb XR (Fin 1) (nofZ 0)) with false by (symmetry; apply xltb_Ff; lra).
    replace (@nltb XR (Fin 1) (nofZ 1)) with false by (symmetry; apply xltb_Ff; lra). rewrite andb_false_r.
    replace (@neqb XR (Fin 1) (nofZ 1)) with true by (symmetry; apply xeqb_F; lra).
    unfold kepler_parabolic, cube. xunf. cbn [xmul xadd xsub xlift1 xlift2]. rewrite xdiv_F by lra. reflexivity. }
  rewrite !KN by lra. cbn [bind].
  replace (@nltb XR (Fin 1) (nofZ 1)) with false by (symmetry; apply xltb_Ff; lra). rewrite andb_false_r.
  replace (@neqb XR (Fin 1) (nofZ 1)) with true by (symmetry; apply xeqb_F; lra).
  unfold cube. assert (0 < p * p * p) by (repeat apply Rmult_lt_0_compat; lra).
  set (t1 := tan (f1 / 2)). set (t2 := tan (f2 / 2)).
  assert (HT : t1 < t2) by (apply tan_increasing; lra).
  assert (HX : 0 < sqrt (p * p * p / mu)) by (apply sqrt_lt_R0, Rdiv_lt_0_compat; lra).
  assert (BP : barker mu p f1 f2 = 1 / 2 * sqrt (p * p * p / mu) * (t2 + 1 / 3 * (t2 * t2 * t2) - (t1 + 1 / 3 * (t1 * t1 * t1)))).
  { unfold barker. fold t1 t2. replace (p ^ 3) with (p * p * p) by ring. field. }
  assert (B0 : 0 <= barker mu p f1 f2).
  { rewrite BP. apply Rmult_le_pos; [lra|]. pose proof (cubic_inc _ _ HT). lra. }
  xunf. cbn [xmul xadd xsub xlift1 xlift2]. rewrite (xdiv_F (p * p * p)) by lra. rewrite (xdiv_F 1 2) by lra. rewrite xsqrt_F by (apply Rlt_le, Rdiv_lt_0_compat; lra).
  cbn [xmul xadd xsub xlift1 xlift2]. rewrite <- BP.
  replace (xltb (Fin (barker mu p f1 f2)) (Fin 0)) with false by (symmetry; apply xltb_Ff; lra). reflexivity.
Qed.
Print Assumptions C40_avanzini.

(** ** pan2016: the time is wrong by a factor [sqrt 2] *)
Theorem C40_pan_refuted : forall mu p f1 f2, 0 < mu -> 0 < p -> - PI < f1 -> f1 < f2 -> f2 < PI ->
  @pan_parabolic_tof XR (Fin mu) (Fin p) (Fin f1) (Fin f2) = Ok (Fin (sqrt 2 * barker mu p f1 f2)) /\
  sqrt 2 * barker mu p f1 f2 <> barker mu p f1 f2.
Proof.
  intros mu p f1 f2 Hmu Hp H1 H12 H2. destruct (sqrt_facts 2) as [W1 W2]; [lra|].
  set (t1 := tan (f1 / 2)). set (t2 := tan (f2 / 2)).
  assert (HT : t1 < t2) by (apply tan_increasing; lra).
  assert (Hp3 : 0 < p * p * p) by (repeat apply Rmult_lt_0_compat; lra).
  assert (B0 : 0 < barker mu p f1 f2).
  { unfold barker. fold t1 t2. replace (p ^ 3) with (p * p * p) by ring. assert (0 < sqrt (p * p * p / mu)) by (apply sqrt_lt_R0, Rdiv_lt_0_compat; lra).
    apply Rmult_lt_0_compat; [lra|]. exact (cubic_inc _ _ HT). }
  split; [|nra].
  unfold pan_parabolic_tof. replace (@nleb XR (Fin p) (nofZ 0)) with false by (symmetry; apply xleb_Ff; lra).
  apply f_equal. unfold cube. xunf. rewrite !(xdiv_F _ 2) by lra. destruct (tan_half f1) as (_ & C1 & _); [lra|]. destruct (tan_half f2) as (_ & C2 & _); [lra|].
  rewrite !xtan_F by lra. cbn [xmul xadd xsub xlift1 xlift2]. fold t1 t2. rewrite !xdiv_F by lra.
  rewrite xsqrt_F by (apply Rlt_le, Rdiv_lt_0_compat; lra). cbn [xmul xadd xsub xlift1 xlift2]. apply f_equal.
  unfold barker. fold t1 t2. replace (p ^ 3) with (p * p * p) by ring.
  replace (sqrt (p * p * p / mu)) with (sqrt 2 * sqrt (p * p * p / (2 * mu))).
  - transitivity (sqrt 2 * sqrt 2 * (1 / 2) * sqrt (p * p * p / (2 * mu)) * (t2 + t2 ^ 3 / 3 - (t1 + t1 ^ 3 / 3))); [rewrite W2; field|ring].
  - rewrite <- sqrt_mult; [apply f_equal; field; lra|lra|apply Rlt_le, Rdiv_lt_0_compat; lra].
Qed.
Print Assumptions C40_pan_refuted.

(** A case: the quarter turn from the vertex of a parabola. *)
Example C40_case : parabolic_arc 2 0 (PI / 2) 1 2 (sqrt 5) (PI / 2) /\ barker 1 2 0 (PI / 2) = sqrt 8 * (2 / 3).
Proof.
  pose proof PI_RGT_0. split.
  - unfold parabolic_arc. rewrite cos_0, cos_PI2. repeat split; try lra; try (apply sqrt_pos).
    replace (sqrt 5 ^ 2) with (sqrt 5 * sqrt 5) by ring. rewrite sqrt_sqrt; lra.
  - unfold barker. replace (PI / 2 / 2) with (PI / 4) by field. replace (0 / 2) with 0 by field. rewrite tan_PI4, tan_0.
    replace (2 ^ 3 / 1) with 8 by field. field.
Qed.

(** Barker's equation gives the duration of a two-body motion of zero energy. *)
Theorem C40_barker_is_the_time : forall mu r1 r2 p f1 f2 theta, 0 < mu -> non_collinear r1 r2 ->
  parabolic_arc p f1 f2 (vnorm r1) (vnorm r2) (vnorm (vminus r2 r1)) theta ->
  exists v1 v2, lambert_solution mu r1 v1 r2 v2 (barker mu p f1 f2) 0 /\ energy mu r1 v1 = 0.
Proof.
  intros mu r1 r2 p f1 f2 theta Hmu Hn H. apply arc_ok in H. destruct H as [Hp HD E1 E2 HH _ Ec _ _ _ _].
  destruct (norms_pos _ _ Hn) as [N1 N2]. pose proof (Kgeo_pos _ _ Hn) as K0. unfold Kgeo in K0.
  set (D1 := tan (f1 / 2)) in *. set (D2 := tan (f2 / 2)) in *. destruct (sqrt_facts 2) as [W1 W2]; [lra|].
  assert (DD : 2 * (vnorm r1 * vnorm r2 + vdot r1 r2) = p * p * ((1 + D1 * D2) * (1 + D1 * D2))).
  { rewrite <- Ec, vnorm_sq. pose proof (vnorm_sq r1) as Q1. pose proof (vnorm_sq r2) as Q2.
    replace (vdot (vminus r2 r1) (vminus r2 r1)) with (vdot r2 r2 + vdot r1 r1 - 2 * vdot r1 r2) by (unfold vdot, vminus; cbn [vx vy vz]; ring). lra. }
  set (A := p / sqrt 2 * (1 + D1 * D2)). set (V := p / 2 * ((D2 - D1) * (D2 - D1))).
  assert (HA : A * A = vnorm r1 * vnorm r2 + vdot r1 r2).
  { unfold A. transitivity (p * p * ((1 + D1 * D2) * (1 + D1 * D2)) / (sqrt 2 * sqrt 2)); [field; lra|]. rewrite <- DD, W2. field. }
  assert (HV : 0 < V) by (unfold V; apply Rmult_lt_0_compat; nra).
  exists (vmult (/ (A * sqrt V / sqrt mu)) (vminus r2 (vmult (1 - V / vnorm r1) r1))),
         (vmult (/ (A * sqrt V / sqrt mu)) (vminus (vmult (1 - V / vnorm r2) r2) r1)).
  assert (F : fg_pair mu r1 r2 A V (vmult (/ (A * sqrt V / sqrt mu)) (vminus r2 (vmult (1 - V / vnorm r1) r1)))
         (vmult (/ (A * sqrt V / sqrt mu)) (vminus (vmult (1 - V / vnorm r2) r2) r1))) by (constructor; auto).
  assert (HC : vnorm r1 + vnorm r2 - V = sqrt 2 * A * 1).
  { unfold A, V. rewrite E1, E2. field. lra. }
  split.
  2:{ rewrite (fg_energy _ _ _ _ _ _ _ 1 Hn Hmu F HC). field. lra. }
  replace (barker mu p f1 f2) with (tz mu A V 0 0).
  - apply fg_lambert; try assumption; try lia; [pose proof PI_RGT_0; nra|]. destruct at_0 as [-> _]. exact HC.
  - rewrite tz_par by assumption. unfold barker. fold D1 D2.
    destruct (sqrt_facts p Hp) as [P1 P2]. destruct (sqrt_facts mu Hmu) as [M1 M2].
    replace (sqrt (p ^ 3 / mu)) with (p * sqrt p / sqrt mu).
    2:{ rewrite sqrt_div_alt by assumption. replace (p ^ 3) with (p * p * p) by ring. rewrite (sqrt_mult (p * p) p), sqrt_square by (try apply Rle_0_sqr; lra). reflexivity. }
    replace (sqrt V) with (sqrt p / sqrt 2 * (D2 - D1)).
    2:{ unfold V. rewrite sqrt_mult by (try apply Rle_0_sqr; lra). rewrite sqrt_square by lra. rewrite sqrt_div_alt by lra. reflexivity. }
    unfold A, V. set (w := sqrt 2) in *. set (q := sqrt p) in *. field [W2]. split; lra.
Qed.
Print Assumptions C40_barker_is_the_time.

(** A geometry in which avanzini2008 meets the parabola: two unit radii a
    quarter turn apart, transverse eccentricity [-1]. *)
Example C40_avanzini_case :
  let g := EccGeometry (Fin 1) (Fin 1) (Fin (sqrt 2)) (Fin (PI / 2)) (Fin (3 * (PI / 4))) in
  exists a p, 0 < p /\ @eap_from_eccT XR (Fin (-1)) g = (Fin 1, a, Fin p) /\
  @get_true_anomalies XR (w_at_eccT (Fin (-1)) (get_eccF (eg_r1 g) (eg_r2 g) (eg_c g)) (eg_wc g)) (eg_dtheta g) = (Fin (- (PI / 4)), Fin (PI / 4)).
Proof.
  intros g. destruct (sqrt_facts 2) as [W1 W2]; [lra|].
  assert (EF : get_eccF (eg_r1 g) (eg_r2 g) (eg_c g) = Fin 0).
  { unfold g, get_eccF. cbn [eg_r1 eg_r2 eg_c]. xunf. cbn [xsub xlift2]. rewrite xdiv_F by lra. f_equal. field. lra. }
  assert (0 < / sqrt 2) by (apply Rinv_0_lt_compat; lra).
  exists NaN, (1 + / sqrt 2). split; [lra|]. split.
  - unfold eap_from_eccT. rewrite EF. unfold get_pF, get_aF, p_at_eccT, a_at_eccT, ecc_at_eccT, sq, g. cbn [eg_r1 eg_r2 eg_c eg_dtheta].
    xunf. cbn [xmul xadd xsub xlift1 xlift2]. rewrite (xdiv_F (1 + 1) 2) by lra. cbn [xmul xadd xsub xlift1 xlift2].
    rewrite sin_PI2. replace (-1 * -1 + 0 * 0) with 1 by ring. rewrite xsqrt_F, sqrt_1 by lra. rewrite (xdiv_F _ (sqrt 2)) by lra. cbn [xmul xadd xsub xlift1 xlift2].
    f_equal; [f_equal|].
    + unfold xdiv. match goal with |- context [Req_EM_T ?a ?b] => destruct (Req_EM_T a b) as [L|L] end; [reflexivity|exfalso; apply L; ring].
    + f_equal. field. lra.
  - rewrite EF. unfold get_true_anomalies, w_at_eccT, g. cbn [eg_wc eg_dtheta]. xunf. cbn [xmul xadd xsub xopp xlift1 xlift2].
    rewrite cos_3PI4, sin_3PI4. replace (0 * (1 / sqrt 2) + -1 * (-1 / sqrt 2)) with (/ sqrt 2) by (field; lra).
    replace (0 * (-1 / sqrt 2) - -1 * (1 / sqrt 2)) with (/ sqrt 2) by (field; lra).
    unfold Ratan2. destruct (Rlt_dec 0 (/ sqrt 2)) as [_|L]; [|lra]. replace (/ sqrt 2 / / sqrt 2) with 1 by (field; lra). rewrite atan_1.
    f_equal; f_equal; field.
Qed.
