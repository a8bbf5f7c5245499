(** * Complex arithmetic of the model over the reals, on the two axes. *)
From Coq Require Import Reals ZArith Bool Lra Lia Psatz.
From Verif Require Import Num XReal XRealLemmas MComplex.
Local Open Scope R_scope.

(** A complex number with finite parts; a real one; an imaginary one. *)
Definition cc (a b : R) : @cplx XR := @C XR (Fin a) (Fin b).
Definition cr (a : R) : @cplx XR := cc a 0.
Definition ci (b : R) : @cplx XR := cc 0 b.

Lemma cc_eq a b a' b' : a = a' -> b = b' -> cc a b = cc a' b'.
Proof. now intros -> ->. Qed.

Lemma creal_F a : @creal XR (Fin a) = cr a. Proof. reflexivity. Qed.
Lemma cimag_F a : @cimag XR (Fin a) = ci a. Proof. reflexivity. Qed.
Lemma cadd_F a b c d : @cadd XR (cc a b) (cc c d) = cc (a + c) (b + d). Proof. reflexivity. Qed.
Lemma csub_F a b c d : @csub XR (cc a b) (cc c d) = cc (a - c) (b - d). Proof. reflexivity. Qed.
Lemma copp_F a b : @copp XR (cc a b) = cc (- a) (- b). Proof. reflexivity. Qed.
Lemma cmul_F a b c d : @cmul XR (cc a b) (cc c d) = cc (a * c - b * d) (a * d + b * c). Proof. reflexivity. Qed.
Lemma cscale_F k a b : @cscale XR (Fin k) (cc a b) = cc (k * a) (k * b). Proof. reflexivity. Qed.
Lemma cdiv_F a b c d : c * c + d * d <> 0 ->
  @cdiv XR (cc a b) (cc c d) = cc ((a * c + b * d) / (c * c + d * d)) ((b * c - a * d) / (c * c + d * d)).
Proof.
  intros H. unfold cdiv, cc. cbn [cre cim]. xunf. cbn [xmul xadd xsub xlift2]. rewrite !xdiv_F by assumption. reflexivity.
Qed.

Lemma cr_add a b : @cadd XR (cr a) (cr b) = cr (a + b).
Proof. apply cc_eq; ring. Qed.
Lemma cr_sub a b : @csub XR (cr a) (cr b) = cr (a - b).
Proof. apply cc_eq; ring. Qed.
Lemma cr_opp a : @copp XR (cr a) = cr (- a).
Proof. apply cc_eq; ring. Qed.
Lemma cr_mul a b : @cmul XR (cr a) (cr b) = cr (a * b).
Proof. apply cc_eq; ring. Qed.
Lemma cr_scale k a : @cscale XR (Fin k) (cr a) = cr (k * a).
Proof. apply cc_eq; ring. Qed.
Lemma cr_div a b : b <> 0 -> @cdiv XR (cr a) (cr b) = cr (a / b).
Proof. intros H. unfold cr at 1 2. rewrite cdiv_F by nra. apply cc_eq; field; nra. Qed.
Lemma ci_scale k a : @cscale XR (Fin k) (ci a) = ci (k * a).
Proof. apply cc_eq; ring. Qed.
Lemma ci_add a b : @cadd XR (ci a) (ci b) = ci (a + b).
Proof. apply cc_eq; ring. Qed.
Lemma ci_opp a : @copp XR (ci a) = ci (- a).
Proof. apply cc_eq; ring. Qed.
Lemma ci_sub a b : @csub XR (ci a) (ci b) = ci (a - b).
Proof. apply cc_eq; ring. Qed.
Lemma cr_ci_mul a b : @cmul XR (cr a) (ci b) = ci (a * b).
Proof. apply cc_eq; ring. Qed.
Lemma ci_cr_mul a b : @cmul XR (ci a) (cr b) = ci (a * b).
Proof. apply cc_eq; ring. Qed.
Lemma ci_mul a b : @cmul XR (ci a) (ci b) = cr (- (a * b)).
Proof. apply cc_eq; ring. Qed.
Lemma ci_div a b : b <> 0 -> @cdiv XR (ci a) (ci b) = cr (a / b).
Proof. intros H. unfold ci at 1 2. rewrite cdiv_F by nra. apply cc_eq; field; nra. Qed.
Lemma ci_cr_div a b : b <> 0 -> @cdiv XR (ci a) (cr b) = ci (a / b).
Proof. intros H. unfold ci at 1, cr at 1. rewrite cdiv_F by nra. apply cc_eq; field; nra. Qed.
Lemma cr_ci_div a b : b <> 0 -> @cdiv XR (cr a) (ci b) = ci (- (a / b)).
Proof. intros H. unfold ci at 1, cr at 1. rewrite cdiv_F by nra. apply cc_eq; field; nra. Qed.

Lemma cr_abs a : @cabs XR (cr a) = Fin (Rabs a).
Proof.
  unfold cabs, cr, cc. cbn [cre cim]. change (xsqrt (Fin (a * a + 0 * 0)) = Fin (Rabs a)). rewrite xsqrt_F by nra.
  replace (a * a + 0 * 0) with (Rsqr a) by (unfold Rsqr; ring). now rewrite sqrt_Rsqr_abs.
Qed.
Lemma cr_sqrt a : 0 <= a -> @csqrt XR (cr a) = cr (sqrt a).
Proof.
  intros H. unfold csqrt. rewrite cr_abs, Rabs_pos_eq by assumption. cbn [cre cim cr cc].
  change (@nltb XR (Fin 0) (nofZ 0)) with (xltb (Fin 0) (Fin 0)). rewrite (proj2 (xltb_Ff 0 0)) by lra.
  change (@nofZ XR 2) with (Fin 2).
  change (@nadd XR (Fin a) (Fin a)) with (Fin (a + a)). change (@nsub XR (Fin a) (Fin a)) with (Fin (a - a)).
  change (@ndiv XR (Fin (a + a)) (Fin 2)) with (xdiv (Fin (a + a)) (Fin 2)). change (@ndiv XR (Fin (a - a)) (Fin 2)) with (xdiv (Fin (a - a)) (Fin 2)).
  rewrite !xdiv_F by lra. replace ((a + a) / 2) with a by field. replace ((a - a) / 2) with 0 by field.
  change (@nsqrt XR) with xsqrt. rewrite !xsqrt_F by lra. rewrite sqrt_0. reflexivity.
Qed.
Lemma cr_sqrt_neg a : a < 0 -> @csqrt XR (cr a) = ci (sqrt (- a)).
Proof.
  intros H. unfold csqrt. rewrite cr_abs, Rabs_left by assumption. cbn [cre cim cr cc].
  change (@nltb XR (Fin 0) (nofZ 0)) with (xltb (Fin 0) (Fin 0)). rewrite (proj2 (xltb_Ff 0 0)) by lra.
  change (@nofZ XR 2) with (Fin 2).
  change (@nadd XR (Fin (- a)) (Fin a)) with (Fin (- a + a)). change (@nsub XR (Fin (- a)) (Fin a)) with (Fin (- a - a)).
  change (@ndiv XR (Fin (- a + a)) (Fin 2)) with (xdiv (Fin (- a + a)) (Fin 2)). change (@ndiv XR (Fin (- a - a)) (Fin 2)) with (xdiv (Fin (- a - a)) (Fin 2)).
  rewrite !xdiv_F by lra. replace ((- a + a) / 2) with 0 by field. replace ((- a - a) / 2) with (- a) by field.
  change (@nsqrt XR) with xsqrt. rewrite !xsqrt_F by lra. rewrite sqrt_0. reflexivity.
Qed.
Lemma cr_cos a : @ccos XR (cr a) = cr (cos a).
Proof. change (cc (cos a * cosh 0) (- (sin a * sinh 0)) = cr (cos a)). rewrite cosh_0, sinh_0. apply cc_eq; ring. Qed.
Lemma cr_sin a : @csin XR (cr a) = cr (sin a).
Proof. change (cc (sin a * cosh 0) (cos a * sinh 0) = cr (sin a)). rewrite cosh_0, sinh_0. apply cc_eq; ring. Qed.
Lemma ci_cos a : @ccos XR (ci a) = cr (cosh a).
Proof. change (cc (cos 0 * cosh a) (- (sin 0 * sinh a)) = cr (cosh a)). rewrite cos_0, sin_0. apply cc_eq; ring. Qed.
Lemma ci_sin a : @csin XR (ci a) = ci (sinh a).
Proof. change (cc (sin 0 * cosh a) (cos 0 * sinh a) = ci (sinh a)). rewrite cos_0, sin_0. apply cc_eq; ring. Qed.
Lemma cr_inv a : a <> 0 -> @cinv XR (cr a) = cr (/ a).
Proof. intros H. unfold cinv. change (@creal XR (nofZ 1)) with (cr 1). rewrite cr_div by assumption. apply cc_eq; [field; assumption|reflexivity]. Qed.
Lemma ci_inv a : a <> 0 -> @cinv XR (ci a) = ci (- / a).
Proof. intros H. unfold cinv. change (@creal XR (nofZ 1)) with (cr 1). rewrite cr_ci_div by assumption. apply cc_eq; [reflexivity|field; assumption]. Qed.
Lemma cr_inj a b : cr a = cr b -> a = b.
Proof. intros H. injection H. auto. Qed.

(** The principal square root of a square. *)
Lemma csqrt_square p q : @csqrt XR (cc (p * p - q * q) (2 * (p * q))) = cc p q \/ @csqrt XR (cc (p * p - q * q) (2 * (p * q))) = cc (- p) (- q).
Proof.
  unfold csqrt, cabs, cc. cbn [cre cim].
  change (@nsqrt XR (@nadd XR (@nmul XR (Fin (p * p - q * q)) (Fin (p * p - q * q))) (@nmul XR (Fin (2 * (p * q))) (Fin (2 * (p * q))))))
    with (xsqrt (Fin ((p * p - q * q) * (p * p - q * q) + 2 * (p * q) * (2 * (p * q))))).
  rewrite xsqrt_F by nra.
  replace ((p * p - q * q) * (p * p - q * q) + 2 * (p * q) * (2 * (p * q))) with ((p * p + q * q) * (p * p + q * q)) by ring. rewrite sqrt_square by nra.
  change (@nofZ XR 2) with (Fin 2).
  change (@nadd XR (Fin (p * p + q * q)) (Fin (p * p - q * q))) with (Fin (p * p + q * q + (p * p - q * q))).
  change (@nsub XR (Fin (p * p + q * q)) (Fin (p * p - q * q))) with (Fin (p * p + q * q - (p * p - q * q))).
  change (@ndiv XR) with xdiv. rewrite !xdiv_F by lra.
  replace ((p * p + q * q + (p * p - q * q)) / 2) with (Rsqr p) by (unfold Rsqr; field).
  replace ((p * p + q * q - (p * p - q * q)) / 2) with (Rsqr q) by (unfold Rsqr; field).
  change (@nsqrt XR) with xsqrt. rewrite !xsqrt_F by apply Rle_0_sqr. rewrite !sqrt_Rsqr_abs.
  change (@nltb XR (Fin (2 * (p * q))) (nofZ 0)) with (xltb (Fin (2 * (p * q))) (Fin 0)).
  change (@nopp XR (Fin (Rabs q))) with (Fin (- Rabs q)).
  destruct (xltb _ _) eqn:E; [apply xltb_F in E|apply xltb_Ff in E]; unfold Rabs;
    destruct (Rcase_abs p) as [P|P]; destruct (Rcase_abs q) as [Q|Q];
    try (left; apply cc_eq; lra); try (right; apply cc_eq; lra); try (exfalso; nra).
  - assert (q = 0) by nra. subst q. right. apply cc_eq; lra.
  - assert (p = 0) by nra. subst p. right. apply cc_eq; lra.
Qed.
