(** * jiang2016 in exact arithmetic: Lagrange's angles determine a transfer. *)
From Coq Require Import Reals ZArith Bool Lra Lia Psatz String List.
From Verif Require Import Num XReal XRealLemmas MApi ApiFacts Loops MScipy MLinalg MAssertions MAngles MJiang
  Spec SpecLambert VecFacts VecXR UniversalKepler LambertUV LambertRev AnglesXR StumpffXR CallXR Godal GodalIzzo GodalXR
  DelatorreXR LambertZ OrbitXR.
Local Open Scope R_scope.

(** ** Geometry *)
Section Geometry.
Variables (p : bool) (r1 r2 : rvec) (th : R).
Hypothesis Hn : non_collinear r1 r2.
Hypothesis F : angle_facts p r1 r2 th.
Let n1 := vnorm r1.
Let n2 := vnorm r2.
Let c := chord r1 r2.
Let s := semiper r1 r2.
Definition way (t : R) : R := if Rle_dec t PI then 1 else -1.

Lemma way_sq t : way t * way t = 1.
Proof. unfold way. destruct (Rle_dec t PI); ring. Qed.
Lemma jia_beta_sign_F t : @jia_beta_sign XR (Fin t) = Fin (way t).
Proof.
  unfold jia_beta_sign, way. destruct (@nleb XR (Fin t) npi) eqn:E.
  - apply xleb_F in E. destruct (Rle_dec t PI); [reflexivity|contradiction].
  - apply xleb_Ff in E. destruct (Rle_dec t PI); [lra|reflexivity].
Qed.
Lemma geo_pos : 0 < n1 /\ 0 < n2 /\ 0 < c /\ c < s /\ n1 < s /\ n2 < s.
Proof.
  destruct (norms_pos _ _ Hn) as [N1 N2]. pose proof (chord_pos _ _ Hn).
  destruct (triangle _ _ Hn) as (T1 & T2 & T3). unfold n1, n2, c, s, semiper. lra.
Qed.
Lemma geo_P : n1 + n2 = s + (s - c).
Proof. unfold n1, n2, s, c, semiper. lra. Qed.
Lemma geo_s1 : (s - n1) * (s - n2) = n1 * n2 * (1 - cos th) / 2.
Proof.
  pose proof (chord_sq r1 r2) as C. pose proof (af_K _ _ _ _ F) as K. unfold Kgeo in K.
  unfold s, n1, n2, semiper. change (chord r1 r2) with c in C |- *. fold n1 n2 in C, K |- *. clearbody c n1 n2. nra.
Qed.
Lemma geo_A2 : 2 * (halfA r1 r2 th * halfA r1 r2 th) = 4 * s * (s - c).
Proof.
  rewrite (halfA_sq p) by assumption. pose proof (chord_sq r1 r2) as C.
  unfold s, semiper. change (chord r1 r2) with c in C |- *. fold n1 n2 in C |- *. clearbody c n1 n2. nra.
Qed.
Lemma geo_sign : 0 < way th * halfA r1 r2 th.
Proof.
  destruct geo_pos as (N1 & N2 & C1 & C2 & _). pose proof geo_A2 as A2.
  assert (S : 0 < s * (s - c)) by (apply Rmult_lt_0_compat; lra).
  assert (A0 : halfA r1 r2 th <> 0) by (intros E; rewrite E in A2; lra).
  assert (0 <= sqrt 2 * sqrt (vnorm r1 * vnorm r2)) by (apply Rmult_le_pos; apply sqrt_pos).
  unfold way. destruct (Rle_dec th PI) as [L|L].
  - assert (th < PI) by (pose proof (af_npi _ _ _ _ F); lra).
    assert (0 < cos (th / 2)) by (apply (af_half _ _ _ _ F), (af_pi _ _ _ _ F); assumption).
    assert (0 <= halfA r1 r2 th) by (unfold halfA; apply Rmult_le_pos; lra). lra.
  - assert (~ 0 < cos (th / 2)) by (intros Q; apply L; left; now apply (af_pi _ _ _ _ F), (af_half _ _ _ _ F)).
    assert (halfA r1 r2 th <= 0) by (unfold halfA; nra). lra.
Qed.
(** Two numbers of the same sign with the same square. *)
Lemma geo_Q q : q * q = 4 * s * (s - c) -> 0 <= way th * q -> sqrt 2 * halfA r1 r2 th = q.
Proof.
  intros Q2 Q1. pose proof geo_A2 as A2. pose proof geo_sign as A1. destruct (sqrt_facts 2) as [W1 W2]; [lra|].
  pose proof (way_sq th) as S.
  assert (E : (sqrt 2 * halfA r1 r2 th) * (sqrt 2 * halfA r1 r2 th) = q * q).
  { rewrite Q2, <- A2. transitivity ((sqrt 2 * sqrt 2) * (halfA r1 r2 th * halfA r1 r2 th)); [ring|]. rewrite W2. ring. }
  assert (P1 : 0 < way th * (sqrt 2 * halfA r1 r2 th)).
  { replace (way th * (sqrt 2 * halfA r1 r2 th)) with (sqrt 2 * (way th * halfA r1 r2 th)) by ring. now apply Rmult_lt_0_compat. }
  set (x := sqrt 2 * halfA r1 r2 th) in *. clearbody x. clear -S E P1 Q1.
  assert (way th * x = way th * q).
  { assert ((way th * x) * (way th * x) = (way th * q) * (way th * q)).
    { transitivity ((way th * way th) * (x * x)); [ring|]. rewrite E. ring. }
    set (u := way th * x) in *. set (v := way th * q) in *. clearbody u v.
    assert ((u - v) * (u + v) = 0) by (replace ((u - v) * (u + v)) with (u * u - v * v) by ring; lra).
    assert (u + v <> 0) by lra. apply Rmult_integral in H0. destruct H0; [lra|contradiction]. }
  assert (way th <> 0) by (intros Z; rewrite Z in S; lra). now apply Rmult_eq_reg_l with (way th).
Qed.

(** The velocities built from a semi-latus rectum. *)
Lemma jia_velocities_inv mu q v1 v2 : 0 < mu ->
  @jia_velocities XR (Fin mu) (vfin r1) (vfin r2) (Fin (vnorm r1)) (Fin (vnorm r2)) (Fin th) q = (vfin v1, vfin v2) ->
  exists q', q = Fin q' /\ 0 < q' /\ fg_pair mu r1 r2 (halfA r1 r2 th) (n1 * n2 * (1 - cos th) / q') v1 v2.
Proof.
  intros Hm H. destruct geo_pos as (N1 & N2 & _). unfold n1, n2 in *. clear n1 n2 c s.
  unfold jia_velocities in H. pose proof (af_sin _ _ _ _ F) as S0. pose proof (af_cos _ _ _ _ F) as Cb.
  vinv. xunf. xinv. subst.
  match goal with |- context [sqrt (mu * ?q)] => rename q into qr end.
  exists qr. split; [reflexivity|].
  assert (Hq : 0 < qr) by nra. split; [exact Hq|].
  match type of F with angle_facts _ ?a ?b _ => set (u1 := a) in *; set (u2 := b) in * end.
  set (V := vnorm u1 * vnorm u2 * (1 - cos th) / qr).
  pose proof (p_g mu p u1 u2 th qr V Hn Hm Hq F eq_refl) as G.
  assert (Hs : 0 < sqrt (mu * qr)) by (apply sqrt_lt_R0; nra).
  constructor.
  - now apply (halfA_sq p).
  - apply Rdiv_lt_0_compat; [|assumption]. repeat apply Rmult_lt_0_compat; lra.
  - rewrite <- G. apply vec_eq; unfold V; vunf; field; repeat split; lra.
  - rewrite <- G. apply vec_eq; unfold V; vunf; field; repeat split; lra.
Qed.
End Geometry.

(** ** Lagrange's angles *)
Definition lag_A (s a : R) (long : bool) : R :=
  if long then PI - asin (sqrt (s / (2 * a))) else asin (sqrt (s / (2 * a))).
Definition lag_B (w d a : R) : R := w * asin (sqrt (d / (2 * a))).
Definition lag_time (mu a A B : R) : R := a * sqrt a / sqrt mu * ((2 * A - sin (2 * A)) - (2 * B - sin (2 * B))).
Definition lagh_A (s b : R) : R := arcsinh (sqrt (s / (2 * b))).
Definition lagh_B (w d b : R) : R := w * arcsinh (sqrt (d / (2 * b))).
Definition lagh_time (mu b A B : R) : R := b * sqrt b / sqrt mu * ((sinh (2 * A) - 2 * A) - (sinh (2 * B) - 2 * B)).

Lemma asin_increasing x y : -1 <= x -> x < y -> y <= 1 -> asin x < asin y.
Proof.
  intros H1 H2 H3. destruct (asin_bound x) as [X1 X2]. destruct (asin_bound y) as [Y1 Y2].
  apply sin_increasing_0; try lra. rewrite !sin_asin by lra. exact H2.
Qed.
Lemma asin_pos x : 0 < x <= 1 -> 0 < asin x <= PI / 2.
Proof.
  intros [H1 H2]. destruct (asin_bound x) as [_ B]. split; [|exact B].
  rewrite <- asin_0. apply asin_increasing; lra.
Qed.
Lemma sin_asin' x : 0 <= x <= 1 -> sin (asin x) = x.
Proof. intros. apply sin_asin. lra. Qed.

Section Elliptic.
Variables (w s d a : R) (long : bool).
Hypothesis Hw : w = 1 \/ w = -1.
Hypothesis Hd : 0 < d.
Hypothesis Hds : d < s.
Hypothesis Ha : s <= 2 * a.
Let A := lag_A s a long.
Let B := lag_B w d a.
Lemma lag_a_pos : 0 < a. Proof. lra. Qed.
Lemma lag_bounds : 0 < d / (2 * a) < s / (2 * a) /\ s / (2 * a) <= 1.
Proof.
  pose proof lag_a_pos. assert (0 < / (2 * a)) by (apply Rinv_0_lt_compat; lra). unfold Rdiv.
  assert (2 * a * / (2 * a) = 1) by (field; lra). repeat split; nra.
Qed.
Lemma lag_sqrts : 0 < sqrt (d / (2 * a)) < sqrt (s / (2 * a)) /\ sqrt (s / (2 * a)) <= 1.
Proof.
  destruct lag_bounds as [[B1 B2] B3]. split; [split|].
  - now apply sqrt_lt_R0.
  - apply sqrt_lt_1; lra.
  - rewrite <- sqrt_1. apply sqrt_le_1; lra.
Qed.
Lemma lag_angles : 0 < asin (sqrt (d / (2 * a))) < asin (sqrt (s / (2 * a))) /\ asin (sqrt (s / (2 * a))) <= PI / 2.
Proof.
  destruct lag_sqrts as [[B1 B2] B3]. split; [split|].
  - apply asin_pos. lra.
  - apply asin_increasing; lra.
  - apply asin_pos. lra.
Qed.
Lemma lag_sinA : sin A = sqrt (s / (2 * a)).
Proof.
  destruct lag_sqrts as [[B1 B2] B3]. unfold A, lag_A. destruct long; [rewrite sin_PI_x|]; apply sin_asin'; lra.
Qed.
Lemma lag_sinB : sin B = w * sqrt (d / (2 * a)).
Proof.
  destruct lag_sqrts as [[B1 B2] B3]. unfold B, lag_B.
  destruct Hw as [-> | ->].
  - rewrite !Rmult_1_l. apply sin_asin'; lra.
  - replace (-1 * asin (sqrt (d / (2 * a)))) with (- asin (sqrt (d / (2 * a)))) by ring. rewrite sin_neg, sin_asin' by lra. ring.
Qed.
Lemma lag_sA2 : 2 * a * (sin A * sin A) = s.
Proof.
  destruct lag_bounds as [[B1 B2] B3]. pose proof lag_a_pos. rewrite lag_sinA, sqrt_sqrt by lra. field. lra.
Qed.
Lemma lag_w2 : w * w = 1. Proof. destruct Hw as [-> | ->]; ring. Qed.
Lemma lag_sB2 : 2 * a * (sin B * sin B) = d.
Proof.
  destruct lag_bounds as [[B1 B2] B3]. pose proof lag_a_pos. rewrite lag_sinB.
  transitivity (2 * a * ((w * w) * (sqrt (d / (2 * a)) * sqrt (d / (2 * a))))); [ring|]. rewrite lag_w2, sqrt_sqrt by lra. field. lra.
Qed.
Lemma lag_psi : 0 < A - B < PI.
Proof.
  destruct lag_angles as [[B1 B2] B3]. pose proof PI_RGT_0. unfold A, B, lag_A, lag_B.
  destruct Hw as [-> | ->]; destruct long; lra.
Qed.
Lemma lag_V : s + d - 4 * a * sin A * sin B * cos (A - B) = 2 * a * (sin (A - B) * sin (A - B)).
Proof.
  rewrite <- lag_sA2 at 1. rewrite <- lag_sB2 at 1. rewrite sin_minus, cos_minus.
  pose proof (sin2_cos2 A) as P1. pose proof (sin2_cos2 B) as P2. unfold Rsqr in P1, P2.
  set (x := sin A) in *. set (y := cos A) in *. set (x' := sin B) in *. set (y' := cos B) in *. clearbody x y x' y'. clear A B.
  assert (Y : y * y = 1 - x * x) by lra. assert (Y' : y' * y' = 1 - x' * x') by lra.
  replace (2 * a * ((x * y' - y * x') * (x * y' - y * x'))) with
    (2 * a * (x * x * (y' * y') + (y * y) * (x' * x') - 2 * x * x' * y * y')) by ring.
  rewrite Y, Y'. ring.
Qed.
Lemma lag_c : s - d = 2 * a * (sin (A + B) * sin (A - B)).
Proof.
  rewrite <- lag_sA2 at 1. rewrite <- lag_sB2 at 1. rewrite sin_minus, sin_plus.
  pose proof (sin2_cos2 A) as P1. pose proof (sin2_cos2 B) as P2. unfold Rsqr in P1, P2.
  set (x := sin A) in *. set (y := cos A) in *. set (x' := sin B) in *. set (y' := cos B) in *. clearbody x y x' y'. clear A B.
  assert (Y : y * y = 1 - x * x) by lra. assert (Y' : y' * y' = 1 - x' * x') by lra.
  replace (2 * a * ((x * y' + y * x') * (x * y' - y * x'))) with (2 * a * (x * x * (y' * y') - (y * y) * (x' * x'))) by ring.
  rewrite Y, Y'. ring.
Qed.
Lemma lag_tz mu H : 0 < mu -> sqrt 2 * H = 4 * a * sin A * sin B ->
  tz mu H (2 * a * (sin (A - B) * sin (A - B))) ((A - B) * (A - B)) 0 = lag_time mu a A B.
Proof.
  intros Hm HQ. pose proof lag_psi as Hp. pose proof lag_a_pos as Ha0.
  pose proof (sin_gt_0 _ (proj1 Hp) (proj2 Hp)) as S0.
  destruct (sqrt_facts _ Hm) as [M1 M2]. destruct (sqrt_facts 2) as [W1 W2]; [lra|]. destruct (sqrt_facts a Ha0) as [A1 A2].
  assert (HV : 0 < 2 * a * (sin (A - B) * sin (A - B))) by (apply Rmult_lt_0_compat; nra).
  rewrite tz_ell by assumption. rewrite (sqrt_mult (2 * a)) by nra. rewrite (sqrt_mult 2) by lra. rewrite sqrt_square by lra.
  unfold lag_time.
  set (psi := A - B) in *.
  assert (E1 : sin (2 * psi) = 2 * sin psi * cos psi) by apply sin_2a.
  assert (E2 : sin (2 * A) - sin (2 * B) = 2 * (cos (A + B) * sin psi)).
  { unfold psi. replace (2 * A) with ((A + B) + (A - B)) by ring. replace (2 * B) with ((A + B) - (A - B)) by ring.
    rewrite (sin_plus (A + B) (A - B)), (sin_minus (A + B) (A - B)). ring. }
  assert (E3 : cos psi - cos (A + B) = 2 * (sin A * sin B)). { unfold psi. rewrite cos_minus, cos_plus. ring. }
  assert (EH : H = sqrt 2 * (2 * a * sin A * sin B)).
  { apply Rmult_eq_reg_l with (sqrt 2); [|lra]. rewrite HQ. transitivity ((sqrt 2 * sqrt 2) * (2 * a * sin A * sin B)); [rewrite W2; ring|ring]. }
  replace (2 * A - sin (2 * A) - (2 * B - sin (2 * B))) with (2 * psi - 2 * (cos (A + B) * sin psi)) by (rewrite <- E2; unfold psi; ring).
  rewrite EH, E1, Rmult_0_r, Rplus_0_r.
  replace (sqrt 2 * (2 * a * sin A * sin B) * (sqrt 2 * sqrt a * sin psi))
    with ((sqrt 2 * sqrt 2) * a * sqrt a * sin psi * (2 * (sin A * sin B))) by ring.
  rewrite <- E3, W2. field. repeat split; lra.
Qed.
End Elliptic.

Section Hyperbolic.
Variables (w s d b : R).
Hypothesis Hw : w = 1 \/ w = -1.
Hypothesis Hd : 0 < d.
Hypothesis Hds : d < s.
Hypothesis Hb : 0 < b.
Let A := lagh_A s b.
Let B := lagh_B w d b.
Lemma lagh_bounds : 0 < d / (2 * b) < s / (2 * b).
Proof. assert (0 < / (2 * b)) by (apply Rinv_0_lt_compat; lra). unfold Rdiv. split; nra. Qed.
Lemma lagh_sqrts : 0 < sqrt (d / (2 * b)) < sqrt (s / (2 * b)).
Proof. destruct lagh_bounds as [B1 B2]. split; [now apply sqrt_lt_R0|apply sqrt_lt_1; lra]. Qed.
Lemma lagh_angles : 0 < arcsinh (sqrt (d / (2 * b))) < arcsinh (sqrt (s / (2 * b))).
Proof.
  destruct lagh_sqrts as [B1 B2]. split; [rewrite <- arcsinh_0|]; now apply arcsinh_lt.
Qed.
Lemma lagh_sinhB : sinh B = w * sqrt (d / (2 * b)).
Proof.
  unfold B, lagh_B. destruct Hw as [-> | ->].
  - rewrite !Rmult_1_l. apply sinh_arcsinh.
  - replace (-1 * arcsinh (sqrt (d / (2 * b)))) with (- arcsinh (sqrt (d / (2 * b)))) by ring.
    assert (N : forall x, sinh (- x) = - sinh x) by (intros x; unfold sinh; rewrite Ropp_involutive; field).
    rewrite N, sinh_arcsinh. ring.
Qed.
Lemma lagh_sA2 : 2 * b * (sinh A * sinh A) = s.
Proof.
  destruct lagh_bounds as [B1 B2]. unfold A, lagh_A. rewrite sinh_arcsinh, sqrt_sqrt by lra. field. lra.
Qed.
Lemma lagh_sB2 : 2 * b * (sinh B * sinh B) = d.
Proof.
  destruct lagh_bounds as [B1 B2]. rewrite lagh_sinhB.
  transitivity (2 * b * ((w * w) * (sqrt (d / (2 * b)) * sqrt (d / (2 * b))))); [ring|].
  replace (w * w) with 1 by (destruct Hw as [-> | ->]; ring). rewrite sqrt_sqrt by lra. field. lra.
Qed.
Lemma lagh_psi : 0 < A - B.
Proof.
  destruct lagh_angles as [B1 B2]. unfold A, B, lagh_A, lagh_B. destruct Hw as [-> | ->]; lra.
Qed.
Lemma hyp_add x y : sinh (x + y) = sinh x * cosh y + cosh x * sinh y /\ sinh (x - y) = sinh x * cosh y - cosh x * sinh y /\
  cosh (x + y) = cosh x * cosh y + sinh x * sinh y /\ cosh (x - y) = cosh x * cosh y - sinh x * sinh y /\ cosh x * cosh x = 1 + sinh x * sinh x.
Proof.
  assert (E1 : exp (x + y) = exp x * exp y) by apply exp_plus.
  assert (E2 : exp (- (x + y)) = exp (- x) * exp (- y)) by (rewrite <- exp_plus; f_equal; ring).
  assert (E3 : exp (x - y) = exp x * exp (- y)) by (rewrite <- exp_plus; f_equal; ring).
  assert (E4 : exp (- (x - y)) = exp (- x) * exp y) by (rewrite <- exp_plus; f_equal; ring).
  assert (E5 : exp x * exp (- x) = 1) by (rewrite <- exp_plus, Rplus_opp_r; apply exp_0).
  unfold sinh, cosh. rewrite E1, E2, E3, E4.
  repeat split; try field. nra.
Qed.
Lemma lagh_V : s + d - 4 * b * sinh A * sinh B * cosh (A - B) = 2 * b * (sinh (A - B) * sinh (A - B)).
Proof.
  rewrite <- lagh_sA2 at 1. rewrite <- lagh_sB2 at 1. destruct (hyp_add A B) as (_ & -> & _ & -> & P1).
  destruct (hyp_add B B) as (_ & _ & _ & _ & P2).
  set (x := sinh A) in *. set (y := cosh A) in *. set (x' := sinh B) in *. set (y' := cosh B) in *. clearbody x y x' y'. clear A B.
  replace (2 * b * ((x * y' - y * x') * (x * y' - y * x'))) with
    (2 * b * (x * x * (y' * y') + (y * y) * (x' * x') - 2 * x * x' * y * y')) by ring.
  rewrite P1, P2. ring.
Qed.
Lemma lagh_c : s - d = 2 * b * (sinh (A + B) * sinh (A - B)).
Proof.
  rewrite <- lagh_sA2 at 1. rewrite <- lagh_sB2 at 1. destruct (hyp_add A B) as (-> & -> & _ & _ & P1).
  destruct (hyp_add B B) as (_ & _ & _ & _ & P2).
  set (x := sinh A) in *. set (y := cosh A) in *. set (x' := sinh B) in *. set (y' := cosh B) in *. clearbody x y x' y'. clear A B.
  replace (2 * b * ((x * y' + y * x') * (x * y' - y * x'))) with (2 * b * (x * x * (y' * y') - (y * y) * (x' * x'))) by ring.
  rewrite P1, P2. ring.
Qed.
Lemma lagh_tz mu H : 0 < mu -> sqrt 2 * H = 4 * b * sinh A * sinh B ->
  tz mu H (2 * b * (sinh (A - B) * sinh (A - B))) (- ((A - B) * (A - B))) 0 = lagh_time mu b A B.
Proof.
  intros Hm HQ. pose proof lagh_psi as Hp. pose proof (sinh_pos _ Hp) as S0.
  destruct (sqrt_facts _ Hm) as [M1 M2]. destruct (sqrt_facts 2) as [W1 W2]; [lra|]. destruct (sqrt_facts b Hb) as [A1 A2].
  assert (HV : 0 < 2 * b * (sinh (A - B) * sinh (A - B))) by (apply Rmult_lt_0_compat; nra).
  rewrite tz_hyp by assumption. rewrite (sqrt_mult (2 * b)) by nra. rewrite (sqrt_mult 2) by lra. rewrite sqrt_square by lra.
  unfold lagh_time.
  set (psi := A - B) in *.
  assert (E1 : sinh (2 * psi) = 2 * sinh psi * cosh psi).
  { destruct (hyp_add psi psi) as (Q & _). replace (2 * psi) with (psi + psi) by ring. rewrite Q. ring. }
  assert (E2 : sinh (2 * A) - sinh (2 * B) = 2 * (cosh (A + B) * sinh psi)).
  { unfold psi. replace (2 * A) with ((A + B) + (A - B)) by ring. replace (2 * B) with ((A + B) - (A - B)) by ring.
    destruct (hyp_add (A + B) (A - B)) as (-> & -> & _). ring. }
  assert (E3 : cosh (A + B) - cosh psi = 2 * (sinh A * sinh B)). { unfold psi. destruct (hyp_add A B) as (_ & _ & -> & -> & _). ring. }
  assert (EH : H = sqrt 2 * (2 * b * sinh A * sinh B)).
  { apply Rmult_eq_reg_l with (sqrt 2); [|lra]. rewrite HQ. transitivity ((sqrt 2 * sqrt 2) * (2 * b * sinh A * sinh B)); [rewrite W2; ring|ring]. }
  replace (sinh (2 * A) - 2 * A - (sinh (2 * B) - 2 * B)) with (2 * (cosh (A + B) * sinh psi) - 2 * psi) by (rewrite <- E2; unfold psi; ring).
  rewrite EH, E1.
  replace (sqrt 2 * (2 * b * sinh A * sinh B) * (sqrt 2 * sqrt b * sinh psi))
    with ((sqrt 2 * sqrt 2) * b * sqrt b * sinh psi * (2 * (sinh A * sinh B))) by ring.
  rewrite <- E3, W2. field. repeat split; lra.
Qed.
End Hyperbolic.

(** ** The transfers on Lagrange's angles *)
Lemma way_cases t : way t = 1 \/ way t = -1.
Proof. unfold way. destruct (Rle_dec t PI); auto. Qed.

Section Transfers.
Variables (p : bool) (mu : R) (r1 r2 : rvec) (th : R).
Hypothesis Hm : 0 < mu.
Hypothesis Hn : non_collinear r1 r2.
Hypothesis F : angle_facts p r1 r2 th.
Let n1 := vnorm r1.
Let n2 := vnorm r2.
Let c := chord r1 r2.
Let s := semiper r1 r2.
Let h := halfA r1 r2 th.

Lemma fg_exists V : 0 < V -> exists v1 v2, fg_pair mu r1 r2 h V v1 v2.
Proof.
  intros HV. eexists _, _. constructor; [now apply (halfA_sq p)|exact HV|reflexivity|reflexivity].
Qed.

(** The semi-latus rectum of jiang.py:640-643 belongs to [V = 2 a sin^2 psi]. *)
Lemma ell_p a long : s <= 2 * a ->
  let A := lag_A s a long in let B := lag_B (way th) (s - c) a in
  n1 * n2 * (1 - cos th) / (4 * a * (s - n1) * (s - n2) / (c * c) * (sin (A + B) * sin (A + B)))
  = 2 * a * (sin (A - B) * sin (A - B)) /\ 0 < 4 * a * (s - n1) * (s - n2) / (c * c) * (sin (A + B) * sin (A + B)).
Proof.
  intros Ha A B. destruct (geo_pos r1 r2 Hn) as (N1 & N2 & C1 & C2 & C3 & C4). fold n1 n2 c s in N1, N2, C1, C2, C3, C4.
  assert (Dp : 0 < s - c) by lra. assert (Ds : s - c < s) by lra.
  pose proof (lag_c (way th) s (s - c) a long (way_cases th) Dp Ds Ha) as EC.
  pose proof (lag_psi (way th) s (s - c) a long (way_cases th) Dp Ds Ha) as Hp.
  fold A B in EC, Hp. replace (s - (s - c)) with c in EC by ring.
  pose proof (sin_gt_0 _ (proj1 Hp) (proj2 Hp)) as S0.
  pose proof (geo_s1 p r1 r2 th F) as G. fold n1 n2 s in G.
  assert (G' : n1 * n2 * (1 - cos th) = 2 * ((s - n1) * (s - n2))) by lra. rewrite G'.
  set (x := sin (A + B)) in *. set (y := sin (A - B)) in *. clearbody x y.
  assert (X0 : x <> 0) by (intros Z; rewrite Z in EC; lra).
  assert (Pc : 0 < c * c) by nra. assert (Px : 0 < x * x) by nra.
  assert (Pn : 0 < (s - n1) * (s - n2)) by (apply Rmult_lt_0_compat; lra).
  split.
  - rewrite EC. field. repeat split; lra.
  - apply Rmult_lt_0_compat; [|assumption]. apply Rdiv_lt_0_compat; [|assumption].
    rewrite Rmult_assoc. apply Rmult_lt_0_compat; lra.
Qed.
Lemma ell_Q a long : s <= 2 * a ->
  let A := lag_A s a long in let B := lag_B (way th) (s - c) a in sqrt 2 * h = 4 * a * sin A * sin B.
Proof.
  intros Ha A B. destruct (geo_pos r1 r2 Hn) as (N1 & N2 & C1 & C2 & C3 & C4). fold n1 n2 c s in N1, N2, C1, C2, C3, C4.
  assert (Dp : 0 < s - c) by lra. assert (Ds : s - c < s) by lra. assert (Ha0 : 0 < a) by lra.
  apply (geo_Q p r1 r2 th Hn F).
    - pose proof (lag_sA2 s (s - c) a long Dp Ds Ha) as E1. pose proof (lag_sB2 (way th) s (s - c) a (way_cases th) Dp Ds Ha) as E2.
      fold A in E1. fold B in E2. fold s c. rewrite <- E2, <- E1. ring.
    - unfold A. rewrite (lag_sinA s (s - c) a long Dp Ds Ha). unfold B. rewrite (lag_sinB (way th) s (s - c) a (way_cases th) Dp Ds Ha).
      replace (way th * (4 * a * sqrt (s / (2 * a)) * (way th * sqrt ((s - c) / (2 * a))))) with
        ((way th * way th) * (4 * a * (sqrt (s / (2 * a)) * sqrt ((s - c) / (2 * a))))) by ring.
      rewrite way_sq, Rmult_1_l. apply Rmult_le_pos; [lra|]. apply Rmult_le_pos; apply sqrt_pos.
Qed.
Lemma ell_solution a long v1 v2 : s <= 2 * a ->
  let A := lag_A s a long in let B := lag_B (way th) (s - c) a in
  fg_pair mu r1 r2 h (2 * a * (sin (A - B) * sin (A - B))) v1 v2 ->
  lambert_solution mu r1 v1 r2 v2 (lag_time mu a A B) 0 /\ semimajor mu r1 v1 = a.
Proof.
  intros Ha A B FG. destruct (geo_pos r1 r2 Hn) as (N1 & N2 & C1 & C2 & C3 & C4). fold n1 n2 c s in N1, N2, C1, C2, C3, C4.
  assert (Dp : 0 < s - c) by lra. assert (Ds : s - c < s) by lra.
  pose proof (lag_V (way th) s (s - c) a long (way_cases th) Dp Ds Ha) as EV.
  pose proof (lag_psi (way th) s (s - c) a long (way_cases th) Dp Ds Ha) as Hp. 
  fold A B in EV, Hp.
  assert (Ha0 : 0 < a) by lra.
  pose proof (ell_Q a long Ha) as HQ. cbv zeta in HQ. fold A B in HQ.
  pose proof PI_RGT_0 as Pi.
  assert (EC : n1 + n2 - 2 * a * (sin (A - B) * sin (A - B)) = sqrt 2 * h * C0 ((A - B) * (A - B))).
  { rewrite C0_ell by lra. rewrite HQ, <- EV. change (n1 + n2) with (vnorm r1 + vnorm r2). rewrite (geo_P r1 r2). fold s c. ring. }
  split.
  - unfold A, B. rewrite <- (lag_tz (way th) s (s - c) a long (way_cases th) Dp Ds Ha mu h Hm HQ). fold A B.
    apply fg_lambert; try assumption; try lia. nra.
  - unfold semimajor. rewrite (fg_energy mu r1 r2 h _ v1 v2 (cos (A - B)) Hn Hm FG) by (rewrite C0_ell in EC by lra; exact EC).
    pose proof (sin2_cos2 (A - B)) as SC. unfold Rsqr in SC.
    pose proof (sin_gt_0 _ (proj1 Hp) (proj2 Hp)) as S0.
    replace (1 - cos (A - B) * cos (A - B)) with (sin (A - B) * sin (A - B)) by lra.
    set (y := sin (A - B)) in *. clearbody y. field. repeat split; lra.
Qed.

Lemma hyp_p b : 0 < b ->
  let A := lagh_A s b in let B := lagh_B (way th) (s - c) b in
  n1 * n2 * (1 - cos th) / (4 * b * (s - n1) * (s - n2) / (c * c) * (sinh (A + B) * sinh (A + B)))
  = 2 * b * (sinh (A - B) * sinh (A - B)) /\ 0 < 4 * b * (s - n1) * (s - n2) / (c * c) * (sinh (A + B) * sinh (A + B)).
Proof.
  intros Hb A B. destruct (geo_pos r1 r2 Hn) as (N1 & N2 & C1 & C2 & C3 & C4). fold n1 n2 c s in N1, N2, C1, C2, C3, C4.
  assert (Dp : 0 < s - c) by lra. assert (Ds : s - c < s) by lra.
  pose proof (lagh_c (way th) s (s - c) b (way_cases th) Dp Ds Hb) as EC.
  pose proof (lagh_psi (way th) s (s - c) b (way_cases th) Dp Ds Hb) as Hp.
  fold A B in EC, Hp. replace (s - (s - c)) with c in EC by ring.
  pose proof (sinh_pos _ Hp) as S0.
  pose proof (geo_s1 p r1 r2 th F) as G. fold n1 n2 s in G.
  assert (G' : n1 * n2 * (1 - cos th) = 2 * ((s - n1) * (s - n2))) by lra. rewrite G'.
  set (x := sinh (A + B)) in *. set (y := sinh (A - B)) in *. clearbody x y.
  assert (X0 : x <> 0) by (intros Z; rewrite Z in EC; lra).
  assert (Pc : 0 < c * c) by nra. assert (Px : 0 < x * x) by nra.
  assert (Pn : 0 < (s - n1) * (s - n2)) by (apply Rmult_lt_0_compat; lra).
  split.
  - rewrite EC. field. repeat split; lra.
  - apply Rmult_lt_0_compat; [|assumption]. apply Rdiv_lt_0_compat; [|assumption].
    rewrite Rmult_assoc. apply Rmult_lt_0_compat; lra.
Qed.
Lemma hyp_Q b : 0 < b ->
  let A := lagh_A s b in let B := lagh_B (way th) (s - c) b in sqrt 2 * h = 4 * b * sinh A * sinh B.
Proof.
  intros Hb A B. destruct (geo_pos r1 r2 Hn) as (N1 & N2 & C1 & C2 & C3 & C4). fold n1 n2 c s in N1, N2, C1, C2, C3, C4.
  assert (Dp : 0 < s - c) by lra. assert (Ds : s - c < s) by lra.
  apply (geo_Q p r1 r2 th Hn F).
    - pose proof (lagh_sA2 s (s - c) b Dp Ds Hb) as E1. pose proof (lagh_sB2 (way th) s (s - c) b (way_cases th) Dp Ds Hb) as E2.
      fold A in E1. fold B in E2. fold s c. rewrite <- E2, <- E1. ring.
    - unfold B. rewrite (lagh_sinhB (way th) (s - c) b (way_cases th)). unfold A, lagh_A. rewrite sinh_arcsinh.
      replace (way th * (4 * b * sqrt (s / (2 * b)) * (way th * sqrt ((s - c) / (2 * b))))) with
        ((way th * way th) * (4 * b * (sqrt (s / (2 * b)) * sqrt ((s - c) / (2 * b))))) by ring.
      rewrite way_sq, Rmult_1_l. apply Rmult_le_pos; [lra|]. apply Rmult_le_pos; apply sqrt_pos.
Qed.
Lemma hyp_solution b v1 v2 : 0 < b ->
  let A := lagh_A s b in let B := lagh_B (way th) (s - c) b in
  fg_pair mu r1 r2 h (2 * b * (sinh (A - B) * sinh (A - B))) v1 v2 ->
  lambert_solution mu r1 v1 r2 v2 (lagh_time mu b A B) 0 /\ semimajor mu r1 v1 = - b.
Proof.
  intros Hb A B FG. destruct (geo_pos r1 r2 Hn) as (N1 & N2 & C1 & C2 & C3 & C4). fold n1 n2 c s in N1, N2, C1, C2, C3, C4.
  assert (Dp : 0 < s - c) by lra. assert (Ds : s - c < s) by lra.
  pose proof (lagh_V (way th) s (s - c) b (way_cases th) Dp Ds Hb) as EV.
  pose proof (lagh_psi (way th) s (s - c) b (way_cases th) Dp Ds Hb) as Hp. 
  fold A B in EV, Hp.
  pose proof (hyp_Q b Hb) as HQ. cbv zeta in HQ. fold A B in HQ.
  pose proof PI_RGT_0 as Pi.
  assert (EC : n1 + n2 - 2 * b * (sinh (A - B) * sinh (A - B)) = sqrt 2 * h * C0 (- ((A - B) * (A - B)))).
  { rewrite C0_hyp by lra. rewrite HQ, <- EV. change (n1 + n2) with (vnorm r1 + vnorm r2). rewrite (geo_P r1 r2). fold s c. ring. }
  split.
  - unfold A, B. rewrite <- (lagh_tz (way th) s (s - c) b (way_cases th) Dp Ds Hb mu h Hm HQ). fold A B.
    apply fg_lambert; try assumption; try lia. nra.
  - unfold semimajor. rewrite (fg_energy mu r1 r2 h _ v1 v2 (cosh (A - B)) Hn Hm FG) by (rewrite C0_hyp in EC by lra; exact EC).
    destruct (hyp_add (A - B) 0) as (_ & _ & _ & _ & SC).
    pose proof (sinh_pos _ Hp) as S0.
    replace (1 - cosh (A - B) * cosh (A - B)) with (- (sinh (A - B) * sinh (A - B))) by lra.
    set (y := sinh (A - B)) in *. clearbody y. field. repeat split; lra.
Qed.

Definition par_time (m x y : R) : R := sqrt 2 * (x * x * x - y * y * y) / (3 * sqrt m).
Lemma par_facts :
  let x := sqrt s in let y := way th * sqrt (s - c) in
  x * x = s /\ y * y = s - c /\ 0 < x - y /\ 0 < x + y /\ sqrt 2 * h = 2 * (x * y).
Proof.
  intros x y. destruct (geo_pos r1 r2 Hn) as (N1 & N2 & C1 & C2 & C3 & C4). fold n1 n2 c s in N1, N2, C1, C2, C3, C4.
  assert (X : x * x = s) by (apply sqrt_sqrt; lra).
  assert (Y' : sqrt (s - c) * sqrt (s - c) = s - c) by (apply sqrt_sqrt; lra).
  assert (Y : y * y = s - c).
  { unfold y. transitivity ((way th * way th) * (sqrt (s - c) * sqrt (s - c))); [ring|]. rewrite way_sq, Y'. ring. }
  assert (L : sqrt (s - c) < sqrt s) by (apply sqrt_lt_1; lra). pose proof (sqrt_pos (s - c)).
  repeat split; try assumption.
  - unfold x, y. destruct (way_cases th) as [-> | ->]; lra.
  - unfold x, y. destruct (way_cases th) as [-> | ->]; lra.
  - apply (geo_Q p r1 r2 th Hn F).
    + fold s c. rewrite <- Y. rewrite <- X at 1. ring.
    + unfold y. replace (way th * (2 * (x * (way th * sqrt (s - c))))) with ((way th * way th) * (2 * (x * sqrt (s - c)))) by ring.
      rewrite way_sq. assert (0 <= x * sqrt (s - c)) by (apply Rmult_le_pos; apply sqrt_pos). lra.
Qed.
Lemma par_p :
  let x := sqrt s in let y := way th * sqrt (s - c) in
  n1 * n2 * (1 - cos th) / (2 * (s - n1) * (s - n2) / (c * c) * ((x + y) * (x + y))) = (x - y) * (x - y) /\
  0 < 2 * (s - n1) * (s - n2) / (c * c) * ((x + y) * (x + y)).
Proof.
  intros x y. destruct (geo_pos r1 r2 Hn) as (N1 & N2 & C1 & C2 & C3 & C4). fold n1 n2 c s in N1, N2, C1, C2, C3, C4.
  destruct par_facts as (X & Y & D & P & _). fold x y in X, Y, D, P.
  pose proof (geo_s1 p r1 r2 th F) as G. fold n1 n2 s in G.
  assert (G' : n1 * n2 * (1 - cos th) = 2 * ((s - n1) * (s - n2))) by lra. rewrite G'.
  assert (EC : c = (x + y) * (x - y)) by (replace ((x + y) * (x - y)) with (x * x - y * y) by ring; rewrite X, Y; ring).
  assert (Pn : 0 < (s - n1) * (s - n2)) by (apply Rmult_lt_0_compat; lra).
  split.
  - rewrite EC. field. repeat split; lra.
  - apply Rmult_lt_0_compat; [|nra]. apply Rdiv_lt_0_compat; [|nra]. rewrite Rmult_assoc. lra.
Qed.
Lemma par_solution v1 v2 :
  let x := sqrt s in let y := way th * sqrt (s - c) in
  fg_pair mu r1 r2 h ((x - y) * (x - y)) v1 v2 ->
  lambert_solution mu r1 v1 r2 v2 (par_time mu x y) 0 /\ energy mu r1 v1 = 0.
Proof.
  intros x y FG. destruct (geo_pos r1 r2 Hn) as (N1 & N2 & C1 & C2 & C3 & C4). fold n1 n2 c s in N1, N2, C1, C2, C3, C4.
  destruct par_facts as (X & Y & D & P & HQ). fold x y in X, Y, D, P, HQ.
  destruct (sqrt_facts _ Hm) as [M1 M2]. destruct (sqrt_facts 2) as [W1 W2]; [lra|].
  pose proof PI_RGT_0 as Pi. destruct at_0 as (E0 & _).
  assert (EC : n1 + n2 - (x - y) * (x - y) = sqrt 2 * h * 1).
  { change (n1 + n2) with (vnorm r1 + vnorm r2). rewrite HQ, (geo_P r1 r2). fold s c. rewrite <- X, <- Y at 1. replace (s - c) with (y * y) by assumption. ring. }
  split.
  - replace (par_time mu x y) with (tz mu h ((x - y) * (x - y)) 0 0).
    + apply fg_lambert; try assumption; try lia; try nra. now rewrite E0.
    + rewrite tz_par by (assumption || nra). rewrite sqrt_square by lra. unfold par_time.
      assert (EH : h = sqrt 2 * (x * y)).
      { apply Rmult_eq_reg_l with (sqrt 2); [|lra]. rewrite HQ. transitivity ((sqrt 2 * sqrt 2) * (x * y)); [rewrite W2; ring|ring]. }
      rewrite EH. field. lra.
  - rewrite (fg_energy mu r1 r2 h _ v1 v2 1 Hn Hm FG EC). field. nra.
Qed.
End Transfers.
