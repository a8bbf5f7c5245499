(** * Lambert's problem in universal variables.

    If [y = r1 + r2 - A c1 / sqrt c2] with [A^2 = |r1||r2| + r1.r2] the
    velocities built from the Lagrange coefficients [1 - y/r1],
    [A sqrt (y/mu)], [1 - y/r2] belong to a motion from [r1] to [r2], and the
    time it takes is [(chi^3 c3 + A sqrt y) / sqrt mu]. *)
From Coq Require Import Reals Lra Psatz.
From Coquelicot Require Import Coquelicot.
From Verif Require Import Num Spec VecFacts UniversalKepler.
Local Open Scope R_scope.

(** Real Stumpff functions. *)
Definition S2 (psi : R) : R := U2 psi 1.
Definition S3 (psi : R) : R := U3 psi 1.
Definition S1 (psi : R) : R := 1 - psi * S3 psi.

Lemma S_identity psi : 2 * S2 psi = psi * S2 psi * S2 psi + S1 psi * S1 psi.
Proof.
  unfold S1, S2, S3. pose proof (U1_sq psi 1) as E. rewrite U1_U3 in E.
  set (u2 := U2 psi 1) in *. set (u3 := U3 psi 1) in *. lra.
Qed.

Lemma sqrt_scale a x : 0 < x -> 0 < a -> sqrt (a * (x * x)) = sqrt a * x.
Proof. intros. rewrite sqrt_mult; [|lra|nra]. rewrite sqrt_square; lra. Qed.

Lemma U2_scale a x : 0 < x -> U2 a x = x * x * S2 (a * (x * x)).
Proof.
  intros Hx. unfold S2, U2. assert (0 < x * x) by nra.
  destruct (Rlt_dec 0 a), (Rlt_dec 0 (a * (x * x))); try nra.
  - rewrite sqrt_scale by assumption. rewrite Rmult_1_r. field. lra.
  - destruct (Rlt_dec a 0), (Rlt_dec (a * (x * x)) 0); try nra.
    replace (- (a * (x * x))) with ((- a) * (x * x)) by ring.
    rewrite sqrt_scale by lra. rewrite Rmult_1_r. field. lra.
Qed.
Lemma U3_scale a x : 0 < x -> U3 a x = x * x * x * S3 (a * (x * x)).
Proof.
  intros Hx. unfold S3, U3. assert (0 < x * x) by nra.
  destruct (Rlt_dec 0 a), (Rlt_dec 0 (a * (x * x))); try nra.
  - destruct (sqrt_pos_facts a); [assumption|].
    rewrite sqrt_scale by assumption. rewrite Rmult_1_r. field. lra.
  - destruct (Rlt_dec a 0), (Rlt_dec (a * (x * x)) 0); try nra.
    destruct (sqrt_pos_facts (- a)); [lra|].
    replace (- (a * (x * x))) with ((- a) * (x * x)) by ring.
    rewrite sqrt_scale by lra. rewrite Rmult_1_r. field. lra.
Qed.
Lemma U1_scale a x : 0 < x -> U1 a x = x * S1 (a * (x * x)).
Proof. intros Hx. rewrite U1_U3, U3_scale by assumption. unfold S1. ring. Qed.

Lemma S2_nonneg psi : 0 <= S2 psi.
Proof.
  unfold S2, U2. destruct (Rlt_dec 0 psi); [|destruct (Rlt_dec psi 0)].
  - apply Rmult_le_pos; [|left; apply Rinv_0_lt_compat; lra].
    pose proof (COS_bound (sqrt psi * 1)). lra.
  - apply Rmult_le_pos; [|left; apply Rinv_0_lt_compat; lra].
    pose proof (cosh_sinh_sq (sqrt (- psi) * 1)) as E.
    assert (0 < cosh (sqrt (- psi) * 1)).
    { unfold cosh. pose proof (exp_pos (sqrt (- psi) * 1)).
      pose proof (exp_pos (- (sqrt (- psi) * 1))). lra. }
    set (c := cosh _) in *. set (s := sinh _) in *. nra.
  - lra.
Qed.

Section Lambert.
Variables (mu : R) (r1v r2v v1v v2v : rvec) (A psi y : R).
Hypothesis Hmu : 0 < mu.
Let r1 := vnorm r1v.
Let r2 := vnorm r2v.
Let sm := sqrt mu.
Hypothesis Hnc : non_collinear r1v r2v.
Hypothesis HA : A * A = r1 * r2 + vdot r1v r2v.
Hypothesis Hc2 : S2 psi <> 0.
Hypothesis Hy : y = r1 + r2 - A * S1 psi / sqrt (S2 psi).
Hypothesis Hypos : 0 < y.
Let g := A * sqrt y / sm.
Hypothesis Hv1 : v1v = vmult (/ g) (vminus r2v (vmult (1 - y / r1) r1v)).
Hypothesis Hv2 : v2v = vmult (/ g) (vminus (vmult (1 - y / r2) r2v) r1v).

Let chi := sqrt (y / S2 psi).
Let T := (chi * chi * chi * S3 psi + A * sqrt y) / sm.

Lemma uv_r1 : 0 < r1.
Proof. apply vnorm_pos. eapply vcross_nonzero_l; eauto. Qed.
Lemma uv_r2 : 0 < r2.
Proof. apply vnorm_pos. eapply vcross_nonzero_r; eauto. Qed.
Lemma uv_A : A <> 0.
Proof.
  intros E. rewrite E in HA. pose proof (cauchy_strict _ _ Hnc) as C.
  rewrite <- !vnorm_sq in C. fold r1 r2 in C.
  assert (W : vdot r1v r2v = - (r1 * r2)) by lra. rewrite W in C. lra.
Qed.
Lemma uv_c2 : 0 < S2 psi.
Proof. pose proof (S2_nonneg psi). lra. Qed.
Lemma uv_sm : 0 < sm /\ sm * sm = mu.
Proof. apply sqrt_pos_facts; assumption. Qed.
Lemma uv_chi : 0 < chi /\ chi * chi = y / S2 psi.
Proof. apply sqrt_pos_facts. apply Rdiv_lt_0_compat; [assumption|apply uv_c2]. Qed.
Lemma uv_sy : 0 < sqrt y /\ sqrt y * sqrt y = y.
Proof. apply sqrt_pos_facts; assumption. Qed.
Lemma uv_sc : 0 < sqrt (S2 psi) /\ sqrt (S2 psi) * sqrt (S2 psi) = S2 psi.
Proof. apply sqrt_pos_facts; apply uv_c2. Qed.
Lemma uv_chi_eq : chi = sqrt y / sqrt (S2 psi).
Proof. unfold chi. apply sqrt_div; [lra|apply uv_c2]. Qed.
Lemma uv_g : g <> 0.
Proof.
  unfold g. destruct uv_sm, uv_sy. pose proof uv_A.
  apply Rmult_integral_contrapositive_currified; [|apply Rinv_neq_0_compat; lra].
  apply Rmult_integral_contrapositive_currified; lra.
Qed.

Lemma v1_comb : v1v = vcomb (- (1 - y / r1) / g) r1v (/ g) r2v.
Proof.
  rewrite Hv1. pose proof uv_g as G. clear - G. revert G. generalize g, (1 - y / r1).
  intros. unfold vcomb. destruct r1v, r2v; vunf; f_equal; field; assumption.
Qed.

Lemma uv_cross : vcross r1v v1v = vmult (/ g) (vcross r1v r2v).
Proof. rewrite v1_comb. apply vcross_comb_r. Qed.
Lemma uv_cross_nonzero : vcross r1v v1v <> vzero.
Proof.
  rewrite uv_cross. intros E. apply vmult_zero in E; [|assumption].
  pose proof uv_g as G. apply (Rinv_neq_0_compat _ G). assumption.
Qed.

Lemma uv_fr : (1 - y / r1) * r1 + r2 = A * S1 psi / sqrt (S2 psi).
Proof. pose proof uv_r1. rewrite Hy at 1. destruct uv_sc. field. lra. Qed.

Lemma uv_dot : vdot r1v v1v / sm = (A - r1 * S1 psi / sqrt (S2 psi)) / sqrt y.
Proof.
  pose proof uv_r1. pose proof uv_g. pose proof uv_A. destruct uv_sm, uv_sy, uv_sc.
  pose proof uv_fr as E.
  rewrite v1_comb. unfold vcomb.
  replace (vdot r1v _) with (/ g * (vdot r1v r2v - (1 - y / r1) * vdot r1v r1v)).
  2:{ generalize (1 - y / r1). intros. destruct r1v, r2v; vunf; field; assumption. }
  rewrite <- (vnorm_sq r1v). fold r1. replace (vdot r1v r2v) with (A * A - r1 * r2) by lra.
  replace (A * A - r1 * r2 - (1 - y / r1) * (r1 * r1)) with (A * A - r1 * (A * S1 psi / sqrt (S2 psi)))
    by (rewrite <- E; field; lra).
  unfold g. field. repeat split; lra.
Qed.

Lemma uv_alpha : 2 / r1 - vdot v1v v1v / mu = psi * S2 psi / y.
Proof.
  pose proof uv_r1. pose proof uv_g. pose proof uv_A. pose proof uv_c2.
  destruct uv_sm as [M1 M2], uv_sy as [Y1 Y2], uv_sc as [C1 C2].
  pose proof uv_fr as E. pose proof (S_identity psi) as I.
  rewrite v1_comb, vcomb_sq. rewrite <- (vnorm_sq r1v), <- (vnorm_sq r2v). fold r1 r2.
  replace (vdot r1v r2v) with (A * A - r1 * r2) by lra.
  set (f := 1 - y / r1) in *.
  match goal with |- 2 / r1 - ?n / mu = _ =>
    replace n with (((f * r1 + r2) * (f * r1 + r2) - 2 * f * (A * A)) / (g * g))
      by (field; assumption) end.
  rewrite E.
  replace (g * g) with (A * A * y / mu).
  2:{ unfold g. remember (sqrt y) as sy. rewrite <- Y2, <- M2. field. lra. }
  replace (A * S1 psi / sqrt (S2 psi) * (A * S1 psi / sqrt (S2 psi)))
    with (A * A * (2 * S2 psi - psi * S2 psi * S2 psi) / S2 psi).
  2:{ rewrite I. remember (sqrt (S2 psi)) as sc. rewrite <- C2. field. lra. }
  unfold f. field. repeat split; lra.
Qed.

Lemma uv_param : psi * S2 psi / y * (chi * chi) = psi.
Proof. destruct uv_chi as [_ ->]. pose proof uv_c2. field. lra. Qed.

Lemma uv_time : ut mu r1v v1v chi = T.
Proof.
  pose proof uv_r1. pose proof uv_r2. pose proof uv_g. pose proof uv_A. pose proof uv_c2.
  destruct uv_sm as [M1 M2], uv_sy as [Y1 Y2], uv_sc as [C1 C2], uv_chi as [X1 X2].
  assert (E1 : U1 (2 / r1 - vdot v1v v1v / mu) chi = chi * S1 psi).
  { rewrite uv_alpha, U1_scale, uv_param by assumption. reflexivity. }
  assert (E2 : U2 (2 / r1 - vdot v1v v1v / mu) chi = y).
  { rewrite uv_alpha, U2_scale, uv_param, X2 by assumption. field. lra. }
  assert (E3 : U3 (2 / r1 - vdot v1v v1v / mu) chi = chi * chi * chi * S3 psi).
  { rewrite uv_alpha, U3_scale, uv_param by assumption. reflexivity. }
  unfold ut. fold r1 sm. rewrite E1, E2, E3, uv_dot. unfold T. rewrite uv_chi_eq.
  remember (sqrt y) as sy. rewrite <- Y2. field. repeat split; lra.
Qed.

Theorem uv_transfer : transfer mu r1v v1v r2v v2v T.
Proof.
  pose proof uv_r1. pose proof uv_r2. pose proof uv_g. pose proof uv_A. pose proof uv_c2.
  destruct uv_sm as [M1 M2], uv_sy as [Y1 Y2], uv_sc as [C1 C2], uv_chi as [X1 X2].
  pose proof (universal_transfer mu r1v v1v Hmu uv_cross_nonzero chi X1) as K.
  assert (E1 : U1 (2 / r1 - vdot v1v v1v / mu) chi = chi * S1 psi).
  { rewrite uv_alpha, U1_scale, uv_param by assumption. reflexivity. }
  assert (E2 : U2 (2 / r1 - vdot v1v v1v / mu) chi = y).
  { rewrite uv_alpha, U2_scale, uv_param, X2 by assumption. field. lra. }
  assert (E3 : U3 (2 / r1 - vdot v1v v1v / mu) chi = chi * chi * chi * S3 psi).
  { rewrite uv_alpha, U3_scale, uv_param by assumption. reflexivity. }
  assert (Ef : uf mu r1v v1v chi = 1 - y / r1).
  { unfold uf. fold r1. rewrite E2. reflexivity. }
  assert (Eg : ug mu r1v v1v chi = g).
  { unfold ug. fold r1 sm. rewrite E1, E2, uv_dot, uv_chi_eq. unfold g.
    remember (sqrt y) as sy. rewrite <- Y2. field. repeat split; lra. }
  assert (Ep : upos mu r1v v1v chi = r2v).
  { unfold upos. rewrite Ef, Eg, v1_comb. unfold vcomb.
    generalize (1 - y / r1). intros. destruct r1v, r2v; vunf; f_equal; field; assumption. }
  assert (Er : ur mu r1v v1v chi = r2).
  { rewrite <- upos_norm by (auto using uv_cross_nonzero). now rewrite Ep. }
  assert (Egd : ugd mu r1v v1v chi = 1 - y / r2).
  { unfold ugd. rewrite Er. fold r1. rewrite E2. reflexivity. }
  assert (Efd : ufd mu r1v v1v chi = ((1 - y / r1) * (1 - y / r2) - 1) / g).
  { unfold ufd. rewrite Er. fold r1 sm. rewrite E1.
    assert (F : r1 + r2 - y = A * S1 psi / sqrt (S2 psi)) by lra.
    replace (((1 - y / r1) * (1 - y / r2) - 1) / g) with (- (y * (r1 + r2 - y)) / (r1 * r2 * g))
      by (field; repeat split; lra).
    rewrite F, uv_chi_eq. unfold g. remember (sqrt y) as sy. rewrite <- Y2. field. repeat split; lra. }
  assert (Ev : uvel mu r1v v1v chi = v2v).
  { unfold uvel. rewrite Efd, Egd, v1_comb, Hv2. unfold vcomb.
    generalize (1 - y / r1), (1 - y / r2). intros.
    destruct r1v, r2v; vunf; f_equal; field; assumption. }
  assert (Et : ut mu r1v v1v chi = T).
  { unfold ut. fold r1 sm. rewrite E1, E2, E3, uv_dot. unfold T. rewrite uv_chi_eq.
    remember (sqrt y) as sy. rewrite <- Y2. field. repeat split; lra. }
  rewrite Ep, Ev, Et in K. exact K.
Qed.
End Lambert.
