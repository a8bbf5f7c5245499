(** * Kepler's equation gives the time of flight, in a perifocal frame.

    Independent of the model. *)
From Coq Require Import Reals ZArith Lra Lia Psatz.
From Verif Require Import Num Spec SpecLambert VecFacts UniversalKepler LambertUV PropertiesKepler.
Local Open Scope R_scope.

Definition planar (P Q : rvec) (x y : R) : rvec := vplus (vmult x P) (vmult y Q).

Section Frame.
Variables P Q : rvec.
Hypothesis HP : vdot P P = 1.
Hypothesis HQ : vdot Q Q = 1.
Hypothesis HPQ : vdot P Q = 0.

Lemma planar_dot x y x' y' : vdot (planar P Q x y) (planar P Q x' y') = x * x' + y * y'.
Proof.
  transitivity (x * x' * vdot P P + y * y' * vdot Q Q + (x * y' + y * x') * vdot P Q); [|rewrite HP, HQ, HPQ; ring].
  unfold planar. destruct P, Q. vunf. ring.
Qed.
Lemma planar_norm x y n : 0 <= n -> x * x + y * y = n * n -> vnorm (planar P Q x y) = n.
Proof. intros H E. unfold vnorm. rewrite planar_dot, E. now apply sqrt_square. Qed.
Lemma planar_cross x y x' y' : x * y' - y * x' <> 0 -> vcross (planar P Q x y) (planar P Q x' y') <> vzero.
Proof.
  intros H E. assert (L : vdot (vcross (planar P Q x y) (planar P Q x' y')) (vcross (planar P Q x y) (planar P Q x' y')) = 0)
    by (rewrite E; vunf; ring).
  rewrite lagrange, !planar_dot in L. apply H. assert ((x * y' - y * x') * (x * y' - y * x') = 0) by (rewrite <- L; ring). nra.
Qed.
Lemma planar_comb f g x y x' y' : vcomb f (planar P Q x y) g (planar P Q x' y') = planar P Q (f * x + g * x') (f * y + g * y').
Proof. unfold planar, vcomb. destruct P, Q. vunf. f_equal; ring. Qed.

(** ** Ellipse: eccentric anomalies [E1 < E2] less than a turn apart. *)
Section Ellipse.
Variables (mu a e E1 E2 : R) (r1 v1 r2 v2 : rvec).
Hypothesis Hmu : 0 < mu.
Hypothesis Ha : 0 < a.
Hypothesis He : 0 <= e < 1.
Let s := sqrt (1 - e * e).
Let n (E : R) := 1 - e * cos E.
Let k (E : R) := sqrt (mu / a) / n E.
Hypothesis HE : E1 < E2 < E1 + 2 * PI.
Hypothesis Hr1 : r1 = planar P Q (a * (cos E1 - e)) (a * s * sin E1).
Hypothesis Hv1 : v1 = planar P Q (- (k E1 * sin E1)) (k E1 * (s * cos E1)).
Hypothesis Hr2 : r2 = planar P Q (a * (cos E2 - e)) (a * s * sin E2).
Hypothesis Hv2 : v2 = planar P Q (- (k E2 * sin E2)) (k E2 * (s * cos E2)).

Let Hs : 0 < s /\ s * s = 1 - e * e.
Proof. apply sqrt_pos_facts. nra. Qed.
Let Hn E : 0 < n E.
Proof. unfold n. pose proof (COS_bound E). nra. Qed.
Let sc E : sin E * sin E = 1 - cos E * cos E.
Proof. pose proof (sin2_cos2 E) as H. unfold Rsqr in H. lra. Qed.

Lemma ell_norm E : vnorm (planar P Q (a * (cos E - e)) (a * s * sin E)) = a * n E.
Proof.
  pose proof (Hn E). apply planar_norm; [nra|]. destruct Hs as [_ S].
  replace (a * s * sin E * (a * s * sin E)) with (a * a * (s * s) * (sin E * sin E)) by ring. rewrite S, sc. unfold n. ring.
Qed.

Let al := 2 / vnorm r1 - vdot v1 v1 / mu.
Lemma ell_al : al = / a.
Proof.
  unfold al. rewrite Hr1, ell_norm, Hv1, planar_dot. pose proof (Hn E1) as N. destruct Hs as [_ S].
  replace (- (k E1 * sin E1) * - (k E1 * sin E1) + k E1 * (s * cos E1) * (k E1 * (s * cos E1)))
    with (k E1 * k E1 * (sin E1 * sin E1 + (s * s) * (cos E1 * cos E1))) by ring.
  rewrite S, sc. replace (1 - cos E1 * cos E1 + (1 - e * e) * (cos E1 * cos E1)) with (n E1 * (2 - n E1)) by (unfold n; ring).
  assert (K : k E1 * k E1 = mu / a / (n E1 * n E1)).
  { unfold k. replace (sqrt (mu / a) / n E1 * (sqrt (mu / a) / n E1)) with (sqrt (mu / a) * sqrt (mu / a) / (n E1 * n E1)) by (field; lra).
    rewrite sqrt_sqrt; [reflexivity|]. left. now apply Rdiv_lt_0_compat. }
  rewrite K. field. lra.
Qed.

Let W : 0 < sqrt a /\ sqrt a * sqrt a = a := sqrt_pos_facts a Ha.
Let SM : 0 < sqrt mu /\ sqrt mu * sqrt mu = mu := sqrt_pos_facts mu Hmu.
Let kE E : k E = sqrt mu / (sqrt a * n E).
Proof. unfold k. rewrite sqrt_div by lra. pose proof (Hn E). field. lra. Qed.

Lemma ell_sg : vdot r1 v1 / sqrt mu = sqrt a * e * sin E1.
Proof.
  rewrite Hr1, Hv1, planar_dot, kE. pose proof (Hn E1) as N. destruct Hs as [_ S]. destruct W as [W1 W2]. destruct SM as [M1 M2].
  transitivity (a / (sqrt a * n E1) * (- (cos E1 - e) * sin E1 + (s * s) * sin E1 * cos E1)); [field; lra|].
  rewrite S. replace (- (cos E1 - e) * sin E1 + (1 - e * e) * sin E1 * cos E1) with (e * sin E1 * n E1) by (unfold n; ring).
  transitivity (sqrt a * sqrt a / sqrt a * e * sin E1); [rewrite W2|]; field; lra.
Qed.

Lemma ell_cross : vcross r1 v1 <> vzero.
Proof.
  rewrite Hr1, Hv1. apply planar_cross. pose proof (Hn E1) as N. destruct Hs as [S0 S].
  assert (K0 : 0 < k E1) by (apply Rdiv_lt_0_compat; [apply sqrt_lt_R0, Rdiv_lt_0_compat; assumption|apply Hn]).
  replace (a * (cos E1 - e) * (k E1 * (s * cos E1)) - a * s * sin E1 * - (k E1 * sin E1))
    with (a * k E1 * s * (cos E1 * cos E1 - e * cos E1 + sin E1 * sin E1)) by ring. rewrite sc.
  replace (cos E1 * cos E1 - e * cos E1 + (1 - cos E1 * cos E1)) with (n E1) by (unfold n; ring).
  apply Rgt_not_eq. exact (Rmult_lt_0_compat _ _ (Rmult_lt_0_compat _ _ (Rmult_lt_0_compat _ _ Ha K0) S0) N).
Qed.

Let D := E2 - E1.
Let x := sqrt a * D.
Lemma ell_U : U0 al x = cos D /\ U1 al x = sqrt a * sin D /\ U2 al x = a * (1 - cos D) /\ U3 al x = a * sqrt a * (D - sin D).
Proof.
  rewrite ell_al. destruct W as [W1 W2]. assert (I : 0 < / a) by now apply Rinv_0_lt_compat.
  assert (Q1 : sqrt (/ a) = / sqrt a) by (apply sqrt_inv). assert (Q2 : sqrt (/ a) * x = D) by (rewrite Q1; unfold x; field; lra).
  unfold U0, U1, U2, U3. destruct (Rlt_dec 0 (/ a)); [|lra]. rewrite Q2, Q1. repeat split; field; lra.
Qed.
Let E2D : E2 = E1 + D. Proof. unfold D; ring. Qed.

Lemma ell_time : ut mu r1 v1 x = sqrt (a ^ 3 / mu) * (D - e * (sin E2 - sin E1)).
Proof.
  unfold ut. fold al. destruct ell_U as (_ & -> & -> & ->). rewrite ell_sg. rewrite Hr1, ell_norm.
  destruct W as [W1 W2]. destruct SM as [M1 M2].
  assert (Q3 : sqrt (a ^ 3 / mu) = a * sqrt a / sqrt mu).
  { rewrite sqrt_div_alt by assumption. f_equal. replace (a ^ 3) with ((a * a) * a) by ring. rewrite sqrt_mult by nra. now rewrite sqrt_square by lra. }
  rewrite Q3, E2D, sin_plus. unfold n. field. lra.
Qed.

Lemma ell_transfer : transfer mu r1 v1 r2 v2 (sqrt (a ^ 3 / mu) * (D - e * (sin E2 - sin E1))).
Proof.
  destruct W as [W1 W2]. destruct SM as [M1 M2]. destruct Hs as [S0 S]. pose proof (Hn E1) as N1. pose proof (Hn E2) as N2.
  destruct ell_U as (UU0 & UU1 & UU2 & UU3).
  assert (UR : ur mu r1 v1 x = a * n E2).
  { unfold ur. fold al. rewrite UU0, UU1, UU2, ell_sg. rewrite Hr1, ell_norm, E2D. unfold n. rewrite cos_plus.
    transitivity (a * (1 - e * cos E1) * cos D + (sqrt a * sqrt a) * e * sin E1 * sin D + a * (1 - cos D)); [ring|rewrite W2; ring]. }
  assert (X : upos mu r1 v1 x = r2).
  { unfold upos, uf, ug. fold al. rewrite UU1, UU2, ell_sg, Hr2. rewrite Hr1, Hv1. rewrite ell_norm, planar_comb.
    assert (G : forall u, (a * n E1 * (sqrt a * sin D) + sqrt a * e * sin E1 * (a * (1 - cos D))) / sqrt mu * (k E1 * u)
      = a * u * (sin D + e * sin E1 * (1 - cos D) / n E1)) by (intros u; rewrite kE; field; repeat split; lra).
    replace (- (k E1 * sin E1)) with (k E1 * - sin E1) by ring. rewrite !G, E2D, cos_plus, sin_plus. f_equal.
    - apply Rmult_eq_reg_r with (n E1); [|lra]. unfold Rdiv.
      transitivity (a * ((n E1 - (1 - cos D)) * (cos E1 - e) - sin E1 * n E1 * sin D - e * (sin E1 * sin E1) * (1 - cos D))); [field; lra|]. rewrite sc. unfold n. ring.
    - apply Rmult_eq_reg_r with (n E1); [|lra].
      transitivity (a * s * sin E1 * (n E1 - (1 - cos D)) + a * s * cos E1 * (n E1 * sin D + e * sin E1 * (1 - cos D))); [field; lra|]. unfold n.
      ring. }
  assert (V : uvel mu r1 v1 x = v2).
  { unfold uvel, ufd, ugd. rewrite UR. fold al. rewrite UU1, UU2, Hv2. rewrite Hr1, Hv1. rewrite ell_norm, planar_comb, !kE. f_equal.
    - apply Rmult_eq_reg_r with (sqrt a * n E1 * n E2 / sqrt mu); [|apply Rgt_not_eq, Rdiv_lt_0_compat; [exact (Rmult_lt_0_compat _ _ (Rmult_lt_0_compat _ _ W1 N1) N2)|assumption]].
      transitivity (- (sqrt a * sqrt a) / a * sin D * (cos E1 - e) - (n E2 - (1 - cos D)) * sin E1); [field; lra|].
      transitivity (- (n E1 * sin E2)); [|field; lra]. rewrite W2, E2D. unfold n. rewrite sin_plus, cos_plus.
      transitivity (- sin D * (cos E1 - e) - (1 - e * (cos E1 * cos D) - 1 + cos D) * sin E1 - e * (sin E1 * sin E1) * sin D); [field; lra|]. rewrite sc. ring.
    - apply Rmult_eq_reg_r with (sqrt a * n E1 * n E2 / sqrt mu); [|apply Rgt_not_eq, Rdiv_lt_0_compat; [exact (Rmult_lt_0_compat _ _ (Rmult_lt_0_compat _ _ W1 N1) N2)|assumption]].
      transitivity (s * (- (sqrt a * sqrt a) / a * sin D * sin E1 + (n E2 - (1 - cos D)) * cos E1)); [field; lra|].
      transitivity (s * (n E1 * cos E2)); [|field; lra]. f_equal. rewrite W2, E2D. unfold n. rewrite cos_plus. field. lra. }
  rewrite <- ell_time. rewrite <- X, <- V. apply universal_transfer; [exact Hmu|exact ell_cross|]. unfold x, D. apply Rmult_lt_0_compat; lra.
Qed.

Theorem ellipse_lambert : lambert_solution mu r1 v1 r2 v2 (sqrt (a ^ 3 / mu) * (E2 - E1 - e * (sin E2 - sin E1))) 0.
Proof.
  split; [exact ell_transfer|]. destruct W as [W1 W2]. destruct SM as [M1 M2].
  assert (EN : energy mu r1 v1 = - mu * / a / 2).
  { pose proof ell_al as A. unfold al in A. unfold energy. rewrite <- A. field. rewrite Hr1, ell_norm. pose proof (Hn E1). nra. }
  split; [|lia]. intros _. unfold period, semimajor. rewrite EN.
  replace (- mu / (2 * (- mu * / a / 2))) with a by (field; lra).
  assert (QP : 0 < sqrt (a ^ 3 / mu)) by (apply sqrt_lt_R0, Rdiv_lt_0_compat; [apply pow_lt|]; assumption).
  pose proof (ell_incr e E1 E2 He ltac:(lra)) as K1.
  pose proof (ell_incr e E2 (E1 + 2 * PI) He ltac:(lra)) as K2.
  rewrite sin_plus, cos_2PI, sin_2PI in K2. cbn [IZR]. set (q := sqrt (a ^ 3 / mu)) in *. clearbody q. split; nra.
Qed.
End Ellipse.

(** ** Hyperbola: hyperbolic anomalies [F1 < F2]; [a] is the distance from the
    centre to the vertex. *)
Section Hyperbola.
Variables (mu a e F1 F2 : R) (r1 v1 r2 v2 : rvec).
Hypothesis Hmu : 0 < mu.
Hypothesis Ha : 0 < a.
Hypothesis He : 1 < e.
Let s := sqrt (e * e - 1).
Let n (E : R) := e * cosh E - 1.
Let k (E : R) := sqrt (mu / a) / n E.
Hypothesis HE : F1 < F2.
Hypothesis Hr1 : r1 = planar P Q (a * (e - cosh F1)) (a * s * sinh F1).
Hypothesis Hv1 : v1 = planar P Q (- (k F1 * sinh F1)) (k F1 * (s * cosh F1)).
Hypothesis Hr2 : r2 = planar P Q (a * (e - cosh F2)) (a * s * sinh F2).
Hypothesis Hv2 : v2 = planar P Q (- (k F2 * sinh F2)) (k F2 * (s * cosh F2)).

Let Hs : 0 < s /\ s * s = e * e - 1.
Proof. apply sqrt_pos_facts. nra. Qed.
Let sc E : sinh E * sinh E = cosh E * cosh E - 1.
Proof. pose proof (cosh_sinh_sq E). lra. Qed.
Let Hn E : 0 < n E.
Proof. unfold n. pose proof (sc E). pose proof (Rle_0_sqr (sinh E)) as Z. unfold Rsqr in Z.
  assert (0 < cosh E) by (unfold cosh; pose proof (exp_pos E); pose proof (exp_pos (- E)); lra). assert (1 <= cosh E) by nra. nra. Qed.

Lemma hyp_norm E : vnorm (planar P Q (a * (e - cosh E)) (a * s * sinh E)) = a * n E.
Proof.
  pose proof (Hn E). apply planar_norm; [nra|]. destruct Hs as [_ S].
  replace (a * s * sinh E * (a * s * sinh E)) with (a * a * (s * s) * (sinh E * sinh E)) by ring. rewrite S, sc. unfold n. ring.
Qed.
Let al := 2 / vnorm r1 - vdot v1 v1 / mu.
Lemma hyp_al : al = - / a.
Proof.
  unfold al. rewrite Hr1, hyp_norm, Hv1, planar_dot. pose proof (Hn F1) as N. destruct Hs as [_ S].
  replace (- (k F1 * sinh F1) * - (k F1 * sinh F1) + k F1 * (s * cosh F1) * (k F1 * (s * cosh F1)))
    with (k F1 * k F1 * (sinh F1 * sinh F1 + (s * s) * (cosh F1 * cosh F1))) by ring.
  rewrite S, sc. replace (cosh F1 * cosh F1 - 1 + (e * e - 1) * (cosh F1 * cosh F1)) with (n F1 * (n F1 + 2)) by (unfold n; ring).
  assert (K : k F1 * k F1 = mu / a / (n F1 * n F1)).
  { unfold k. replace (sqrt (mu / a) / n F1 * (sqrt (mu / a) / n F1)) with (sqrt (mu / a) * sqrt (mu / a) / (n F1 * n F1)) by (field; lra).
    rewrite sqrt_sqrt; [reflexivity|]. left. now apply Rdiv_lt_0_compat. }
  rewrite K. field. lra.
Qed.
Let W : 0 < sqrt a /\ sqrt a * sqrt a = a := sqrt_pos_facts a Ha.
Let SM : 0 < sqrt mu /\ sqrt mu * sqrt mu = mu := sqrt_pos_facts mu Hmu.
Let kE E : k E = sqrt mu / (sqrt a * n E).
Proof. unfold k. rewrite sqrt_div by lra. pose proof (Hn E). field. lra. Qed.
Lemma hyp_sg : vdot r1 v1 / sqrt mu = sqrt a * e * sinh F1.
Proof.
  rewrite Hr1, Hv1, planar_dot, kE. pose proof (Hn F1) as N. destruct Hs as [_ S]. destruct W as [W1 W2]. destruct SM as [M1 M2].
  transitivity (a / (sqrt a * n F1) * (- (e - cosh F1) * sinh F1 + (s * s) * sinh F1 * cosh F1)); [field; lra|].
  rewrite S. replace (- (e - cosh F1) * sinh F1 + (e * e - 1) * sinh F1 * cosh F1) with (e * sinh F1 * n F1) by (unfold n; ring).
  transitivity (sqrt a * sqrt a / sqrt a * e * sinh F1); [rewrite W2|]; field; lra.
Qed.
Lemma hyp_cross : vcross r1 v1 <> vzero.
Proof.
  rewrite Hr1, Hv1. apply planar_cross. pose proof (Hn F1) as N. destruct Hs as [S0 S].
  assert (K0 : 0 < k F1) by (apply Rdiv_lt_0_compat; [apply sqrt_lt_R0, Rdiv_lt_0_compat; assumption|apply Hn]).
  replace (a * (e - cosh F1) * (k F1 * (s * cosh F1)) - a * s * sinh F1 * - (k F1 * sinh F1))
    with (a * k F1 * s * (e * cosh F1 - cosh F1 * cosh F1 + sinh F1 * sinh F1)) by ring. rewrite sc.
  replace (e * cosh F1 - cosh F1 * cosh F1 + (cosh F1 * cosh F1 - 1)) with (n F1) by (unfold n; ring).
  apply Rgt_not_eq. exact (Rmult_lt_0_compat _ _ (Rmult_lt_0_compat _ _ (Rmult_lt_0_compat _ _ Ha K0) S0) N).
Qed.
Let D := F2 - F1.
Let x := sqrt a * D.
Lemma hyp_U : U0 al x = cosh D /\ U1 al x = sqrt a * sinh D /\ U2 al x = a * (cosh D - 1) /\ U3 al x = a * sqrt a * (sinh D - D).
Proof.
  rewrite hyp_al. destruct W as [W1 W2]. assert (I : 0 < / a) by now apply Rinv_0_lt_compat.
  assert (Q1 : sqrt (/ a) = / sqrt a) by (apply sqrt_inv). assert (Q2 : sqrt (/ a) * x = D) by (rewrite Q1; unfold x; field; lra).
  unfold U0, U1, U2, U3. destruct (Rlt_dec 0 (- / a)); [lra|]. destruct (Rlt_dec (- / a) 0); [|lra]. rewrite Ropp_involutive, Q2, Q1. repeat split; field; lra.
Qed.
Let E2D : F2 = F1 + D. Proof. unfold D; ring. Qed.
Lemma cosh_plus u w : cosh (u + w) = cosh u * cosh w + sinh u * sinh w.
Proof. unfold cosh, sinh. rewrite Ropp_plus_distr, !exp_plus. field. Qed.
Lemma sinh_plus u w : sinh (u + w) = sinh u * cosh w + cosh u * sinh w.
Proof. unfold cosh, sinh. rewrite Ropp_plus_distr, !exp_plus. field. Qed.

Lemma hyp_time : ut mu r1 v1 x = sqrt (a ^ 3 / mu) * (e * (sinh F2 - sinh F1) - D).
Proof.
  unfold ut. fold al. destruct hyp_U as (_ & -> & -> & ->). rewrite hyp_sg. rewrite Hr1, hyp_norm.
  destruct W as [W1 W2]. destruct SM as [M1 M2].
  assert (Q3 : sqrt (a ^ 3 / mu) = a * sqrt a / sqrt mu).
  { rewrite sqrt_div_alt by assumption. f_equal. replace (a ^ 3) with ((a * a) * a) by ring. rewrite sqrt_mult by nra. now rewrite sqrt_square by lra. }
  rewrite Q3, E2D, sinh_plus. unfold n. field. lra.
Qed.

Lemma hyp_transfer : transfer mu r1 v1 r2 v2 (sqrt (a ^ 3 / mu) * (e * (sinh F2 - sinh F1) - D)).
Proof.
  destruct W as [W1 W2]. destruct SM as [M1 M2]. destruct Hs as [S0 S]. pose proof (Hn F1) as N1. pose proof (Hn F2) as N2.
  destruct hyp_U as (UU0 & UU1 & UU2 & UU3).
  assert (UR : ur mu r1 v1 x = a * n F2).
  { unfold ur. fold al. rewrite UU0, UU1, UU2, hyp_sg. rewrite Hr1, hyp_norm, E2D. unfold n. rewrite cosh_plus.
    transitivity (a * (e * cosh F1 - 1) * cosh D + (sqrt a * sqrt a) * e * sinh F1 * sinh D + a * (cosh D - 1)); [ring|rewrite W2; ring]. }
  assert (X : upos mu r1 v1 x = r2).
  { unfold upos, uf, ug. fold al. rewrite UU1, UU2, hyp_sg, Hr2. rewrite Hr1, Hv1. rewrite hyp_norm, planar_comb.
    assert (G : forall u, (a * n F1 * (sqrt a * sinh D) + sqrt a * e * sinh F1 * (a * (cosh D - 1))) / sqrt mu * (k F1 * u)
      = a * u * (sinh D + e * sinh F1 * (cosh D - 1) / n F1)) by (intros u; rewrite kE; field; repeat split; lra).
    replace (- (k F1 * sinh F1)) with (k F1 * - sinh F1) by ring. rewrite !G, E2D, cosh_plus, sinh_plus. f_equal.
    - apply Rmult_eq_reg_r with (n F1); [|lra]. unfold Rdiv.
      transitivity (a * ((n F1 - (cosh D - 1)) * (e - cosh F1) - sinh F1 * n F1 * sinh D - e * (sinh F1 * sinh F1) * (cosh D - 1))); [field; lra|]. rewrite sc. unfold n. ring.
    - apply Rmult_eq_reg_r with (n F1); [|lra].
      transitivity (a * s * sinh F1 * (n F1 - (cosh D - 1)) + a * s * cosh F1 * (n F1 * sinh D + e * sinh F1 * (cosh D - 1))); [field; lra|]. unfold n.
      ring. }
  assert (V : uvel mu r1 v1 x = v2).
  { unfold uvel, ufd, ugd. rewrite UR. fold al. rewrite UU1, UU2, Hv2. rewrite Hr1, Hv1. rewrite hyp_norm, planar_comb, !kE. f_equal.
    - apply Rmult_eq_reg_r with (sqrt a * n F1 * n F2 / sqrt mu); [|apply Rgt_not_eq, Rdiv_lt_0_compat; [exact (Rmult_lt_0_compat _ _ (Rmult_lt_0_compat _ _ W1 N1) N2)|assumption]].
      transitivity (- (sqrt a * sqrt a) / a * sinh D * (e - cosh F1) - (n F2 - (cosh D - 1)) * sinh F1); [field; lra|].
      transitivity (- (n F1 * sinh F2)); [|field; lra]. rewrite W2, E2D. unfold n. rewrite sinh_plus, cosh_plus.
      transitivity (- sinh D * (e - cosh F1) - (e * (cosh F1 * cosh D) - 1 - cosh D + 1) * sinh F1 - e * (sinh F1 * sinh F1) * sinh D); [field; lra|]. rewrite sc. ring.
    - apply Rmult_eq_reg_r with (sqrt a * n F1 * n F2 / sqrt mu); [|apply Rgt_not_eq, Rdiv_lt_0_compat; [exact (Rmult_lt_0_compat _ _ (Rmult_lt_0_compat _ _ W1 N1) N2)|assumption]].
      transitivity (s * (- (sqrt a * sqrt a) / a * sinh D * sinh F1 + (n F2 - (cosh D - 1)) * cosh F1)); [field; lra|].
      transitivity (s * (n F1 * cosh F2)); [|field; lra]. f_equal. rewrite W2, E2D. unfold n. rewrite cosh_plus. field. lra. }
  rewrite <- hyp_time. rewrite <- X, <- V. apply universal_transfer; [exact Hmu|exact hyp_cross|]. unfold x, D. apply Rmult_lt_0_compat; lra.
Qed.

Theorem hyperbola_lambert : lambert_solution mu r1 v1 r2 v2 (sqrt (a ^ 3 / mu) * (e * (sinh F2 - sinh F1) - (F2 - F1))) 0.
Proof.
  split; [exact hyp_transfer|]. destruct W as [W1 W2]. destruct SM as [M1 M2].
  assert (EN : energy mu r1 v1 = mu * / a / 2).
  { pose proof hyp_al as A. unfold al in A. unfold energy. replace (/ a) with (- - / a) by ring. rewrite <- A. field. rewrite Hr1, hyp_norm. pose proof (Hn F1). nra. }
  split; [|lia]. intros H. exfalso. rewrite EN in H. assert (0 < mu * / a) by (apply Rmult_lt_0_compat; [assumption|now apply Rinv_0_lt_compat]). lra.
Qed.
End Hyperbola.
(** ** Parabola: [D1 < D2] tangents of half the true anomalies. *)
Section Parabola.
Variables (mu q D1 D2 : R) (r1 v1 r2 v2 : rvec).
Hypothesis Hmu : 0 < mu.
Hypothesis Hq : 0 < q.
Let n (D : R) := 1 + D * D.
Let k (D : R) := 2 * sqrt (mu / q) / n D.
Hypothesis HD : D1 < D2.
Hypothesis Hr1 : r1 = planar P Q (q / 2 * (1 - D1 * D1)) (q * D1).
Hypothesis Hv1 : v1 = planar P Q (- (k D1 * D1)) (k D1).
Hypothesis Hr2 : r2 = planar P Q (q / 2 * (1 - D2 * D2)) (q * D2).
Hypothesis Hv2 : v2 = planar P Q (- (k D2 * D2)) (k D2).

Let Hn D : 0 < n D.
Proof. unfold n. nra. Qed.
Lemma par_norm D : vnorm (planar P Q (q / 2 * (1 - D * D)) (q * D)) = q / 2 * n D.
Proof. pose proof (Hn D). apply planar_norm; [nra|]. unfold n. field. Qed.

Let W : 0 < sqrt q /\ sqrt q * sqrt q = q := sqrt_pos_facts q Hq.
Let SM : 0 < sqrt mu /\ sqrt mu * sqrt mu = mu := sqrt_pos_facts mu Hmu.
Let kD D : k D = 2 * sqrt mu / (sqrt q * n D).
Proof. unfold k. rewrite sqrt_div by lra. pose proof (Hn D). field. lra. Qed.

Let al := 2 / vnorm r1 - vdot v1 v1 / mu.
Lemma par_al : al = 0.
Proof.
  unfold al. rewrite Hr1, par_norm, Hv1, planar_dot, kD. pose proof (Hn D1) as N. destruct W as [W1 W2]. destruct SM as [M1 M2].
  replace (- (2 * sqrt mu / (sqrt q * n D1) * D1) * - (2 * sqrt mu / (sqrt q * n D1) * D1) + 2 * sqrt mu / (sqrt q * n D1) * (2 * sqrt mu / (sqrt q * n D1)))
    with (4 * (sqrt mu * sqrt mu) / ((sqrt q * sqrt q) * n D1 * n D1) * (1 + D1 * D1)) by (field; lra).
  rewrite W2, M2. fold (n D1). field. lra.
Qed.

Lemma par_sg : vdot r1 v1 / sqrt mu = sqrt q * D1.
Proof.
  rewrite Hr1, Hv1, planar_dot, kD. pose proof (Hn D1) as N. destruct W as [W1 W2]. destruct SM as [M1 M2].
  transitivity (q * D1 * (1 + D1 * D1) / (sqrt q * n D1)); [field; lra|]. fold (n D1).
  transitivity (sqrt q * sqrt q * D1 / sqrt q); [rewrite W2|]; field; lra.
Qed.

Lemma par_cross : vcross r1 v1 <> vzero.
Proof.
  rewrite Hr1, Hv1. apply planar_cross. pose proof (Hn D1) as N.
  assert (K0 : 0 < k D1) by (unfold k; apply Rdiv_lt_0_compat; [|exact N]; assert (0 < sqrt (mu / q)) by (apply sqrt_lt_R0, Rdiv_lt_0_compat; assumption); lra).
  replace (q / 2 * (1 - D1 * D1) * k D1 - q * D1 * - (k D1 * D1)) with (q / 2 * n D1 * k D1) by (unfold n; field).
  apply Rgt_not_eq. assert (Hq2 : 0 < q / 2) by lra. exact (Rmult_lt_0_compat _ _ (Rmult_lt_0_compat _ _ Hq2 N) K0).
Qed.

Let x := sqrt q * (D2 - D1).
Lemma par_U : U0 al x = 1 /\ U1 al x = x /\ U2 al x = x * x / 2 /\ U3 al x = x * x * x / 6.
Proof.
  rewrite par_al. unfold U0, U1, U2, U3. destruct (Rlt_dec 0 0); [lra|]. destruct (Rlt_dec 0 0); [lra|]. repeat split; field.
Qed.

Let qq : sqrt q * sqrt q = q. Proof. apply W. Qed.

Lemma par_time : ut mu r1 v1 x = 1 / 2 * sqrt (q ^ 3 / mu) * (D2 + D2 * D2 * D2 / 3 - (D1 + D1 * D1 * D1 / 3)).
Proof.
  unfold ut. fold al. destruct par_U as (_ & -> & -> & ->). rewrite par_sg. rewrite Hr1, par_norm.
  destruct W as [W1 W2]. destruct SM as [M1 M2].
  assert (Q3 : sqrt (q ^ 3 / mu) = q * sqrt q / sqrt mu).
  { rewrite sqrt_div_alt by assumption. f_equal. replace (q ^ 3) with ((q * q) * q) by ring. rewrite sqrt_mult by nra. now rewrite sqrt_square by lra. }
  rewrite Q3. unfold n, x. set (w := sqrt q) in *. rewrite <- W2. field. lra.
Qed.

Lemma par_transfer : transfer mu r1 v1 r2 v2 (1 / 2 * sqrt (q ^ 3 / mu) * (D2 + D2 * D2 * D2 / 3 - (D1 + D1 * D1 * D1 / 3))).
Proof.
  destruct W as [W1 W2]. destruct SM as [M1 M2]. pose proof (Hn D1) as N1. pose proof (Hn D2) as N2.
  destruct par_U as (UU0 & UU1 & UU2 & UU3).
  assert (UR : ur mu r1 v1 x = q / 2 * n D2).
  { unfold ur. fold al. rewrite UU0, UU1, UU2, par_sg. rewrite Hr1, par_norm. unfold n, x. set (w := sqrt q) in *. rewrite <- W2. field. }
  assert (X : upos mu r1 v1 x = r2).
  { unfold upos, uf, ug. fold al. rewrite UU1, UU2, par_sg, Hr2. rewrite Hr1, Hv1. rewrite par_norm, planar_comb, kD. unfold x.
    set (w := sqrt q) in *. set (m := sqrt mu) in *. rewrite <- W2. f_equal; unfold n in *; field; repeat split; lra. }
  assert (V : uvel mu r1 v1 x = v2).
  { unfold uvel, ufd, ugd. rewrite UR. fold al. rewrite UU1, UU2, Hv2. rewrite Hr1, Hv1. rewrite par_norm, planar_comb, !kD. unfold x.
    set (w := sqrt q) in *. set (m := sqrt mu) in *. rewrite <- W2. f_equal; unfold n in *; field; repeat split; lra. }
  rewrite <- par_time. rewrite <- X, <- V. apply universal_transfer; [exact Hmu|exact par_cross|]. unfold x. apply Rmult_lt_0_compat; lra.
Qed.

Theorem parabola_lambert : lambert_solution mu r1 v1 r2 v2 (1 / 2 * sqrt (q ^ 3 / mu) * (D2 + D2 * D2 * D2 / 3 - (D1 + D1 * D1 * D1 / 3))) 0.
Proof.
  split; [exact par_transfer|]. assert (EN : energy mu r1 v1 = 0).
  { pose proof par_al as A. unfold al in A. unfold energy. replace (vdot v1 v1) with (mu * (2 / vnorm r1)); [field|].
    - rewrite Hr1, par_norm. pose proof (Hn D1). nra.
    - replace (2 / vnorm r1) with (vdot v1 v1 / mu) by lra. field. lra. }
  split; [intros L; lra|lia].
Qed.
End Parabola.

End Frame.
