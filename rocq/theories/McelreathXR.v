(** * mcelreath2025's time equation and its derivatives over the reals. *)
From Coq Require Import Reals ZArith Bool Lra Lia Psatz.
From Coquelicot Require Import Coquelicot.
From Verif Require Import Num XReal XRealLemmas MApi MComplex MMcelreath ComplexXR.
Local Open Scope R_scope.

Lemma one_minus_cos x : 1 - cos x = 2 * (sin (x / 2) * sin (x / 2)).
Proof. replace x with (2 * (x / 2)) at 1 by field. rewrite cos_2a_sin. ring. Qed.
Lemma sin_half x : sin x = 2 * (sin (x / 2) * cos (x / 2)).
Proof. replace x with (2 * (x / 2)) at 1 by field. rewrite sin_2a. ring. Qed.
Lemma cosh_half x : 1 - cosh x = - (2 * (sinh (x / 2) * sinh (x / 2))).
Proof.
  unfold cosh, sinh. replace x with (x / 2 + x / 2) at 1 by field. replace (- x) with (- (x / 2) + - (x / 2)) by field. rewrite !exp_plus.
  assert (E : exp (x / 2) * exp (- (x / 2)) = 1) by (rewrite <- exp_plus, Rplus_opp_r; apply exp_0).
  set (a := exp (x / 2)) in *. set (b := exp (- (x / 2))) in *. clearbody a b.
  replace (- (2 * ((a - b) / 2 * ((a - b) / 2)))) with (a * b - (a * a + b * b) / 2) by field. lra.
Qed.
Lemma sinh_half x : sinh x = 2 * (sinh (x / 2) * cosh (x / 2)).
Proof.
  unfold cosh, sinh. replace x with (x / 2 + x / 2) at 1 by field. replace (- x) with (- (x / 2) + - (x / 2)) by field. rewrite !exp_plus. field.
Qed.

Section Time.
Variables Rs m : R.

Definition my (x : R) : R := Rs - 2 * m * cos (x / 2).
Definition ma (x : R) : R := 2 * (sin (x / 2) * sin (x / 2)) / my x.
Definition mq (x : R) : R := sqrt (ma x).
Definition mt (x : R) : R := 2 * m * (sin (x / 2) / mq x) + (x - sin x) / (mq x * mq x * mq x).
(** The same along the imaginary axis. *)
Definition hy (w : R) : R := Rs - 2 * m * cosh (w / 2).
Definition ha (w : R) : R := 2 * (sinh (w / 2) * sinh (w / 2)) / hy w.
Definition hq (w : R) : R := sqrt (ha w).
Definition ht (w : R) : R := 2 * m * (sinh (w / 2) / hq w) + (sinh w - w) / (hq w * hq w * hq w).

Lemma mce_half_r x : @cscale XR (nlit 1 2) (cr x) = cr (x / 2).
Proof. change (@nlit XR 1 2) with (Fin (1 / 2)). rewrite cr_scale. apply cc_eq; [field|reflexivity]. Qed.
Lemma mce_half_i x : @cscale XR (nlit 1 2) (ci x) = ci (x / 2).
Proof. change (@nlit XR 1 2) with (Fin (1 / 2)). rewrite ci_scale. apply cc_eq; [reflexivity|field]. Qed.

Section Real.
Variable x : R.
Hypothesis Hy : 0 < my x.
Hypothesis Hs : sin (x / 2) <> 0.

Lemma ma_pos : 0 < ma x.
Proof. unfold ma. apply Rdiv_lt_0_compat; [|assumption]. assert (0 < sin (x / 2) * sin (x / 2)) by nra. lra. Qed.
Lemma mq_facts : 0 < mq x /\ mq x * mq x = ma x.
Proof. split; [now apply sqrt_lt_R0, ma_pos|apply sqrt_sqrt; left; apply ma_pos]. Qed.

Lemma mce_alpha_r : @mce_alpha XR (cr x) (Fin Rs) (Fin m) = cr (ma x).
Proof.
  unfold mce_alpha. rewrite mce_half_r, !cr_cos. change (@creal XR (nofZ 1)) with (cr 1). rewrite creal_F.
  change (@nmul XR (nofZ 2) (Fin m)) with (Fin (2 * m)). rewrite cr_scale, !cr_sub. fold (my x). rewrite cr_div by lra. unfold ma. now rewrite one_minus_cos.
Qed.
Lemma mce_tof_r : @mce_tof_equation XR (cr x) (Fin Rs) (Fin m) = cr (mt x).
Proof.
  destruct mq_facts as [Q1 Q2]. pose proof ma_pos as P. unfold mce_tof_equation. rewrite mce_alpha_r, mce_half_r, !cr_sin.
  rewrite cr_sqrt by lra. fold (mq x). rewrite !cr_inv by lra. rewrite !cr_mul, cr_sub, cr_mul.
  change (@nmul XR (nofZ 2) (Fin m)) with (Fin (2 * m)). rewrite cr_scale, cr_add. apply cc_eq; [|reflexivity]. unfold mt. rewrite <- Q2. field. lra.
Qed.
End Real.

Section Imag.
Variable w : R.
Hypothesis Hy : 0 < hy w.
Hypothesis Hs : w <> 0.

Lemma sinh_nonzero : sinh (w / 2) <> 0.
Proof.
  intros E. unfold sinh in E. assert (E' : exp (w / 2) = exp (- (w / 2))) by lra. apply exp_inv in E'. lra.
Qed.
Lemma ha_pos : 0 < ha w.
Proof. pose proof sinh_nonzero. unfold ha. apply Rdiv_lt_0_compat; [|assumption]. assert (0 < sinh (w / 2) * sinh (w / 2)) by nra. lra. Qed.
Lemma hq_facts : 0 < hq w /\ hq w * hq w = ha w.
Proof. split; [now apply sqrt_lt_R0, ha_pos|apply sqrt_sqrt; left; apply ha_pos]. Qed.

Lemma mce_alpha_i : @mce_alpha XR (ci w) (Fin Rs) (Fin m) = cr (- ha w).
Proof.
  unfold mce_alpha. rewrite mce_half_i, !ci_cos. change (@creal XR (nofZ 1)) with (cr 1). rewrite creal_F.
  change (@nmul XR (nofZ 2) (Fin m)) with (Fin (2 * m)). rewrite cr_scale, !cr_sub. fold (hy w). rewrite cr_div by lra. unfold ha. rewrite cosh_half.
  apply cc_eq; [field; lra|reflexivity].
Qed.
Lemma mce_tof_i : @mce_tof_equation XR (ci w) (Fin Rs) (Fin m) = cr (ht w).
Proof.
  destruct hq_facts as [Q1 Q2]. pose proof ha_pos as P. unfold mce_tof_equation. rewrite mce_alpha_i, mce_half_i, !ci_sin.
  rewrite cr_sqrt_neg by lra. rewrite Ropp_involutive. fold (hq w). rewrite cr_inv, !ci_inv by lra. rewrite !ci_mul, cr_sub, cr_mul.
  change (@nmul XR (nofZ 2) (Fin m)) with (Fin (2 * m)). rewrite cr_scale, cr_add. apply cc_eq; [|reflexivity]. unfold ht. rewrite <- Q2. field. lra.
Qed.
End Imag.
End Time.
