(** * Anomalies and Kepler's equation over the reals *)
From Coq Require Import Reals ZArith String Bool Lra Lia Psatz.
From Verif Require Import Num XReal XRealLemmas MAngles MKepler.
Local Open Scope R_scope.

Lemma half_pi nu : - PI < nu < PI -> - PI / 2 < nu / 2 < PI / 2.
Proof. lra. Qed.
Lemma half_cos nu : - PI < nu < PI -> 0 < cos (nu / 2).
Proof. intros H. apply cos_gt_0; lra. Qed.

Lemma xtan_F a : cos a <> 0 -> xtan (Fin a) = Fin (tan a).
Proof. intros H. unfold xtan, xpart1. destruct (tan_dom_dec a); [reflexivity|contradiction]. Qed.
Lemma xatanh_F a : -1 < a < 1 -> xatanh (Fin a) = Fin (artanh a).
Proof. intros H. unfold xatanh, xpart1. destruct (open_unit_dec a); [reflexivity|tauto]. Qed.

(** ** Half-angle tangents *)
Lemma atan_bounds x : - PI < 2 * atan x < PI.
Proof. pose proof (atan_bound x). lra. Qed.

Lemma tan_two_atan x : tan (2 * atan x / 2) = x.
Proof. replace (2 * atan x / 2) with (atan x) by field. apply tan_atan. Qed.

Lemma two_atan_tan nu : - PI < nu < PI -> 2 * atan (tan (nu / 2)) = nu.
Proof. intros H. rewrite atan_tan; lra. Qed.

Lemma tan_half_sign nu : - PI < nu < PI -> (0 < nu <-> 0 < tan (nu / 2)) /\ (nu = 0 <-> tan (nu / 2) = 0).
Proof.
  intros H. assert (T0 : tan 0 = 0) by (unfold tan; rewrite sin_0; field; rewrite cos_0; lra).
  assert (A : forall x, - PI < x < PI -> 0 < x -> 0 < tan (x / 2)).
  { intros x Hx Px. rewrite <- T0. apply tan_increasing; lra. }
  assert (B : forall x, - PI < x < PI -> x < 0 -> tan (x / 2) < 0).
  { intros x Hx Px. rewrite <- T0. apply tan_increasing; lra. }
  destruct (Rtotal_order nu 0) as [L|[L|L]].
  - pose proof (B _ H L). split; split; intros; lra.
  - subst nu. replace (0 / 2) with 0 by field. rewrite T0. split; split; intros; lra.
  - pose proof (A _ H L). split; split; intros; lra.
Qed.

Lemma artanh_bound x y : -1 < x < 1 -> y = artanh x -> exp (2 * y) = (1 + x) / (1 - x).
Proof.
  intros H ->. unfold artanh. replace (2 * (ln ((1 + x) / (1 - x)) / 2)) with (ln ((1 + x) / (1 - x))) by field.
  apply exp_ln. apply Rdiv_lt_0_compat; lra.
Qed.

Lemma tanh_exp y : tanh y = (exp (2 * y) - 1) / (exp (2 * y) + 1).
Proof.
  unfold tanh, sinh, cosh. replace (2 * y) with (y + y) by ring. rewrite exp_plus, exp_Ropp.
  pose proof (exp_pos y). field. split; nra.
Qed.

Lemma tanh_artanh x : -1 < x < 1 -> tanh (artanh x) = x.
Proof.
  intros H. rewrite tanh_exp, (artanh_bound x _ H eq_refl). field. lra.
Qed.

Lemma tanh_bound y : -1 < tanh y < 1.
Proof.
  rewrite tanh_exp. pose proof (exp_pos (2 * y)) as P. set (e := exp _) in *. clearbody e.
  split.
  - apply (Rmult_lt_reg_r (e + 1)); [lra|]. unfold Rdiv. rewrite Rmult_assoc, Rinv_l by lra. lra.
  - apply (Rmult_lt_reg_r (e + 1)); [lra|]. unfold Rdiv. rewrite Rmult_assoc, Rinv_l by lra. lra.
Qed.

Lemma artanh_tanh y : artanh (tanh y) = y.
Proof.
  unfold artanh. rewrite tanh_exp. pose proof (exp_pos (2 * y)) as P.
  replace ((1 + (exp (2 * y) - 1) / (exp (2 * y) + 1)) / (1 - (exp (2 * y) - 1) / (exp (2 * y) + 1))) with (exp (2 * y))
    by (field; lra).
  rewrite ln_exp. field.
Qed.

Lemma artanh_incr x y : -1 < x -> x < y -> y < 1 -> artanh x < artanh y.
Proof.
  intros H1 H2 H3. unfold artanh.
  assert (ln ((1 + x) / (1 - x)) < ln ((1 + y) / (1 - y))); [|lra].
  apply ln_increasing; [apply Rdiv_lt_0_compat; lra|].
  apply (Rmult_lt_reg_r ((1 - x) * (1 - y))); [nra|].
  replace ((1 + x) / (1 - x) * ((1 - x) * (1 - y))) with ((1 + x) * (1 - y)) by (field; lra).
  replace ((1 + y) / (1 - y) * ((1 - x) * (1 - y))) with ((1 + y) * (1 - x)) by (field; lra). nra.
Qed.

Lemma artanh_0 : artanh 0 = 0.
Proof. unfold artanh. replace ((1 + 0) / (1 - 0)) with 1 by field. rewrite ln_1. field. Qed.

Lemma artanh_odd x : -1 < x < 1 -> artanh (- x) = - artanh x.
Proof.
  intros H. unfold artanh. replace ((1 + - x) / (1 - - x)) with (/ ((1 + x) / (1 - x))) by (field; lra).
  rewrite ln_Rinv by (apply Rdiv_lt_0_compat; lra). field.
Qed.

(** ** Eccentricity factors *)
Definition kE (e : R) : R := sqrt ((1 - e) / (1 + e)).
Definition kH (e : R) : R := sqrt ((e - 1) / (e + 1)).

Lemma kE_pos e : 0 <= e < 1 -> 0 < kE e /\ kE e * kE e = (1 - e) / (1 + e) /\ sqrt ((1 + e) / (1 - e)) = / kE e.
Proof.
  intros H. assert (P : 0 < (1 - e) / (1 + e)) by (apply Rdiv_lt_0_compat; lra).
  split; [now apply sqrt_lt_R0|]. split; [apply sqrt_sqrt; lra|].
  unfold kE. rewrite inv_sqrt by assumption. f_equal. field. lra.
Qed.
Lemma kH_pos e : 1 < e -> 0 < kH e /\ kH e * kH e = (e - 1) / (e + 1) /\ sqrt ((e + 1) / (e - 1)) = / kH e.
Proof.
  intros H. assert (P : 0 < (e - 1) / (e + 1)) by (apply Rdiv_lt_0_compat; lra).
  split; [now apply sqrt_lt_R0|]. split; [apply sqrt_sqrt; lra|].
  unfold kH. rewrite inv_sqrt by assumption. f_equal. field. lra.
Qed.

Lemma nu_to_E_F nu e : 0 <= e < 1 -> cos (nu / 2) <> 0 ->
  @nu_to_E XR (Fin nu) (Fin e) = Fin (2 * atan (kE e * tan (nu / 2))).
Proof.
  intros He Hc. unfold nu_to_E. xunf. cbn [xadd xsub xmul xlift2]. rewrite !xdiv_F by lra.
  rewrite xtan_F by assumption. rewrite xsqrt_F by (apply Rlt_le, Rdiv_lt_0_compat; lra). reflexivity.
Qed.
Lemma E_to_nu_F E e : 0 <= e < 1 -> cos (E / 2) <> 0 ->
  @E_to_nu XR (Fin E) (Fin e) = Fin (2 * atan (/ kE e * tan (E / 2))).
Proof.
  intros He Hc. unfold E_to_nu. xunf. cbn [xadd xsub xmul xlift2]. rewrite !xdiv_F by lra.
  rewrite xtan_F by assumption. rewrite xsqrt_F by (apply Rlt_le, Rdiv_lt_0_compat; lra).
  destruct (kE_pos e He) as (_ & _ & ->). reflexivity.
Qed.
Lemma nu_to_H_F nu e : 1 < e -> cos (nu / 2) <> 0 -> -1 < kH e * tan (nu / 2) < 1 ->
  @nu_to_H XR (Fin nu) (Fin e) = Fin (2 * artanh (kH e * tan (nu / 2))).
Proof.
  intros He Hc Hb. unfold nu_to_H. xunf. cbn [xadd xsub xmul xlift2]. rewrite !xdiv_F by lra.
  rewrite xtan_F by assumption. rewrite xsqrt_F by (apply Rlt_le, Rdiv_lt_0_compat; lra).
  fold (kH e). cbn [xmul xlift2]. rewrite xatanh_F by assumption. reflexivity.
Qed.
Lemma H_to_nu_F H e : 1 < e -> @H_to_nu XR (Fin H) (Fin e) = Fin (2 * atan (/ kH e * tanh (H / 2))).
Proof.
  intros He. unfold H_to_nu. xunf. cbn [xadd xsub xmul xlift1 xlift2]. rewrite !xdiv_F by lra.
  rewrite xsqrt_F by (apply Rlt_le, Rdiv_lt_0_compat; lra).
  destruct (kH_pos e He) as (_ & _ & ->). reflexivity.
Qed.

(** On a hyperbola: [1 + e cos nu > 0] is the branch around the focus. *)
Lemma hyperbolic_range nu e : 1 < e -> - PI < nu < PI -> (0 < 1 + e * cos nu <-> -1 < kH e * tan (nu / 2) < 1).
Proof.
  intros He Hnu. destruct (kH_pos e He) as (K & K2 & _). pose proof (half_cos nu Hnu) as C.
  set (c := cos (nu / 2)) in *. set (s := sin (nu / 2)).
  assert (S : s * s + c * c = 1) by (pose proof (sin2_cos2 (nu / 2)) as Q; exact Q).
  assert (CN : cos nu = c * c - s * s) by (replace nu with (2 * (nu / 2)) by field; rewrite cos_2a; reflexivity).
  assert (T : tan (nu / 2) = s / c) by reflexivity. rewrite T.
  assert (E : (1 + e * cos nu) = (e + 1) * (c * c) * (1 - (kH e * (s / c)) * (kH e * (s / c)))).
  { transitivity ((e + 1) * (c * c) * (1 - (kH e * kH e) * (s / c * (s / c)))); [|ring].
    rewrite K2, CN.
    transitivity ((s * s + c * c) + e * (c * c - s * s)); [rewrite S; ring|]. field. split; lra. }
  rewrite E. set (t := kH e * (s / c)). clearbody t.
  assert (P : 0 < (e + 1) * (c * c)) by nra. split; intros H.
  - assert (0 < 1 - t * t) by nra. split; nra.
  - apply Rmult_lt_0_compat; [assumption|nra].
Qed.
