(** * Number of revolutions of a universal-variable transfer, and the transfer
    written with the half angle: [z = psi / 4]. *)
From Coq Require Import Reals ZArith Lra Lia Psatz.
From Verif Require Import Num Spec SpecLambert VecFacts UniversalKepler LambertUV.
Local Open Scope R_scope.

Section Rev.
Variables (mu : R) (r1v r2v v1v v2v : rvec) (A psi y : R) (M : Z).
Hypothesis Hmu : 0 < mu.
Let r1 := vnorm r1v.
Let r2 := vnorm r2v.
Let sm := sqrt mu.
Hypothesis Hnc : non_collinear r1v r2v.
Hypothesis HA : A * A = r1 * r2 + vdot r1v r2v.
Hypothesis Hc2 : S2 psi <> 0.
Hypothesis Hy : y = r1 + r2 - A * S1 psi / sqrt (S2 psi).
Hypothesis Hypos : 0 < y.
Let g := A * sqrt y / sm.
Hypothesis Hv1 : v1v = vmult (/ g) (vminus r2v (vmult (1 - y / r1) r1v)).
Hypothesis Hv2 : v2v = vmult (/ g) (vminus (vmult (1 - y / r2) r2v) r1v).
Let chi := sqrt (y / S2 psi).
Let T := (chi * chi * chi * S3 psi + A * sqrt y) / sm.
Hypothesis Hpsi :
  (psi <= 0 /\ M = 0%Z) \/ (0 < psi /\ 2 * PI * IZR M < sqrt psi < 2 * PI * (IZR M + 1)).
Hypothesis HM : (0 <= M)%Z.

Let al := 2 / r1 - vdot v1v v1v / mu.

Lemma rev_energy : energy mu r1v v1v = - mu * al / 2.
Proof. unfold energy, al. fold r1. pose proof (uv_r1 r1v r2v Hnc). fold r1 in H. field. lra. Qed.

Lemma rev_at_turn k : 0 < al -> ut mu r1v v1v (2 * PI * IZR k / sqrt al) = IZR k * period mu r1v v1v.
Proof.
  intros Ha. destruct (sqrt_pos_facts al Ha) as [Q1 Q2].
  destruct (sqrt_pos_facts mu Hmu) as [M1 M2].
  unfold ut. fold r1. fold al. fold sm in M1, M2 |- *.
  assert (E : sqrt al * (2 * PI * IZR k / sqrt al) = 2 * PI * IZR k) by (field; lra).
  assert (Es : sin (2 * PI * IZR k) = 0).
  { apply sin_eq_0_1. exists (2 * k)%Z. rewrite mult_IZR. ring. }
  assert (Ec : cos (2 * PI * IZR k) = 1).
  { replace (2 * PI * IZR k) with (2 * (IZR k * PI)) by ring. rewrite cos_2a_sin.
    rewrite (sin_eq_0_1 (IZR k * PI)) by (exists k; reflexivity). ring. }
  unfold U1, U2, U3. destruct (Rlt_dec 0 al); [|lra]. rewrite E, Es, Ec.
  unfold period, semimajor. rewrite rev_energy.
  assert (E3 : sqrt ((- mu / (2 * (- mu * al / 2))) ^ 3 / mu) = / (al * sqrt al * sm)).
  { apply sqrt_lem_1.
    - replace (- mu / (2 * (- mu * al / 2))) with (/ al) by (field; lra).
      apply Rmult_le_pos; [apply pow_le; left; now apply Rinv_0_lt_compat | left; now apply Rinv_0_lt_compat].
    - left. apply Rinv_0_lt_compat. apply Rmult_lt_0_compat; [now apply Rmult_lt_0_compat|assumption].
    - replace (/ (al * sqrt al * sm) * / (al * sqrt al * sm)) with (/ (al * al * (sqrt al * sqrt al) * (sm * sm))) by (field; lra).
      rewrite Q2. fold sm in M2. rewrite M2. field. lra. }
  rewrite E3. field. lra.
Qed.

Theorem uv_solution : lambert_solution mu r1v v1v r2v v2v T M.
Proof.
  split; [now apply (uv_transfer mu r1v r2v v1v v2v A psi y)|].
  assert (E : ut mu r1v v1v chi = T) by (now apply (uv_time mu r1v r2v v1v v2v A psi y)).
  assert (Ea : al = psi * S2 psi / y) by (now apply (uv_alpha mu r1v r2v v1v A psi y)).
  assert (P2 : 0 < S2 psi) by (pose proof (S2_nonneg psi); lra).
  assert (I : 0 < S2 psi / y) by (now apply Rdiv_lt_0_compat).
  assert (Ea' : al = psi * (S2 psi / y)) by (rewrite Ea; field; lra).
  assert (Hcn : vcross r1v v1v <> vzero) by (apply (uv_cross_nonzero mu r1v r2v v1v A y); auto).
  unfold completes. rewrite rev_energy. split.
  - intros He. assert (Ha : 0 < al) by nra.
    assert (Hp : 0 < psi) by (rewrite Ea' in Ha; nra).
    destruct Hpsi as [[? _]|[_ Hs]]; [lra|].
    destruct (sqrt_pos_facts al Ha) as [Q1 Q2].
    assert (Ec : chi = sqrt psi / sqrt al).
    { unfold chi. rewrite <- sqrt_div by lra. f_equal. rewrite Ea. field. repeat split; lra. }
    rewrite <- E. replace (IZR M + 1) with (IZR (M + 1)) in Hs |- * by (rewrite plus_IZR; reflexivity).
    rewrite <- !rev_at_turn by assumption.
    assert (Iq : 0 < / sqrt al) by now apply Rinv_0_lt_compat.
    rewrite Ec. split; apply ut_increasing; auto; unfold Rdiv; nra.
  - intros HM0. destruct Hpsi as [[_ ?]|[Hp _]]; [contradiction|].
    assert (0 < al) by (rewrite Ea'; nra). nra.
Qed.
End Rev.

(** ** Half angles *)
Definition C0 (z : R) : R := U0 z 1.

Lemma S1_U1 z : S1 z = U1 z 1.
Proof. unfold S1, S3. rewrite U1_U3. ring. Qed.
Lemma sqrt_4 z : 0 < z -> sqrt (4 * z) = 2 * sqrt z.
Proof.
  intros. rewrite sqrt_mult by lra. replace 4 with (2 * 2) by ring. rewrite sqrt_square by lra. reflexivity.
Qed.
Lemma cosh_double x : cosh (2 * x) = 1 + 2 * (sinh x * sinh x).
Proof.
  unfold cosh, sinh. replace (2 * x) with (x + x) by ring. replace (- (x + x)) with (- x + - x) by ring.
  rewrite !exp_plus. assert (E : exp x * exp (- x) = 1) by (rewrite <- exp_plus, Rplus_opp_r; apply exp_0).
  set (u := exp x) in *. set (v := exp (- x)) in *. nra.
Qed.
Lemma sinh_double x : sinh (2 * x) = 2 * (sinh x * cosh x).
Proof.
  unfold cosh, sinh. replace (2 * x) with (x + x) by ring. replace (- (x + x)) with (- x + - x) by ring.
  rewrite !exp_plus. field.
Qed.
Lemma S2_double z : S2 (4 * z) = S1 z * S1 z / 2.
Proof.
  rewrite S1_U1. unfold S2, U2, U1. rewrite !Rmult_1_r.
  destruct (Rlt_dec 0 z) as [P|P].
  - destruct (Rlt_dec 0 (4 * z)); [|lra]. rewrite sqrt_4 by assumption. rewrite cos_2a_sin.
    destruct (sqrt_pos_facts z P) as [Q1 Q2]. set (s := sqrt z) in *. clearbody s. subst z. field. lra.
  - destruct (Rlt_dec 0 (4 * z)); [lra|]. destruct (Rlt_dec z 0) as [Q|Q].
    + destruct (Rlt_dec (4 * z) 0); [|lra]. replace (- (4 * z)) with (4 * (- z)) by ring.
      rewrite sqrt_4 by lra. rewrite cosh_double.
      destruct (sqrt_pos_facts (- z)) as [Q1 Q2]; [lra|]. set (s := sqrt (- z)) in *. clearbody s.
      rewrite <- Q2. field. lra.
    + destruct (Rlt_dec (4 * z) 0); [lra|]. field.
Qed.
Lemma S1_double z : S1 (4 * z) = S1 z * C0 z.
Proof.
  rewrite !S1_U1. unfold C0, U0, U1. rewrite !Rmult_1_r.
  destruct (Rlt_dec 0 z) as [P|P].
  - destruct (Rlt_dec 0 (4 * z)); [|lra]. rewrite sqrt_4 by assumption. rewrite sin_2a.
    pose proof (sqrt_lt_R0 z P). field. lra.
  - destruct (Rlt_dec 0 (4 * z)); [lra|]. destruct (Rlt_dec z 0) as [Q|Q].
    + destruct (Rlt_dec (4 * z) 0); [|lra]. replace (- (4 * z)) with (4 * (- z)) by ring.
      rewrite sqrt_4 by lra. rewrite sinh_double. assert (0 < sqrt (- z)) by (apply sqrt_lt_R0; lra). field. lra.
    + destruct (Rlt_dec (4 * z) 0); [lra|]. ring.
Qed.
Lemma sinh_pos x : 0 < x -> 0 < sinh x.
Proof. intros. unfold sinh. assert (exp (- x) < exp x) by (apply exp_increasing; lra). lra. Qed.
Lemma sinh_gt_self x : 0 < x -> x < sinh x.
Proof.
  intros Hx. pose proof (exp_ineq1 x ltac:(lra)) as E1.
  destruct (MVT_cor2 (fun t => sinh t - t) (fun t => cosh t - 1) 0 x Hx) as (c & E & Hc).
  - intros c _. apply derivable_pt_lim_minus; [apply derivable_pt_lim_sinh|apply derivable_pt_lim_id].
  - rewrite sinh_0 in E. assert (1 < cosh c); [|nra].
    pose proof (cosh_sinh_sq c). pose proof (sinh_pos c ltac:(lra)).
    assert (0 < cosh c) by (unfold cosh; pose proof (exp_pos c); pose proof (exp_pos (- c)); lra). nra.
Qed.
Lemma sqrt_below_PI z : 0 < z -> z < PI * PI -> 0 < sqrt z < PI.
Proof.
  intros. pose proof PI_RGT_0. split; [now apply sqrt_lt_R0|].
  rewrite <- (sqrt_square PI) by lra. apply sqrt_lt_1; nra.
Qed.
Lemma S1_pos z : z < PI * PI -> 0 < S1 z.
Proof.
  intros H. rewrite S1_U1. unfold U1. rewrite !Rmult_1_r. ucase z.
  - destruct (sqrt_below_PI z) as [A B]; [assumption..|]. apply Rdiv_lt_0_compat; [apply sin_gt_0; lra|assumption].
  - assert (0 < sqrt (- z)) by (apply sqrt_lt_R0; lra). apply Rdiv_lt_0_compat; [now apply sinh_pos|assumption].
  - lra.
Qed.

(** ** The transfer with half angle parameter [z] and [M] revolutions *)
Definition tz (mu A V z : R) (M : Z) : R :=
  (2 * S3 (4 * z) * V * sqrt (2 * V) / (S1 z * S1 z * S1 z) + A * sqrt V) / sqrt mu
  + IZR M * PI * (V * sqrt V) / (sqrt 2 * (z * sqrt z) * (S1 z * S1 z * S1 z) * sqrt mu).

Theorem z_solution mu r1 r2 v1 v2 A V z M :
  0 < mu -> non_collinear r1 r2 -> A * A = vnorm r1 * vnorm r2 + vdot r1 r2 ->
  z < PI * PI -> (0 <= M)%Z -> (M <> 0%Z -> 0 < z) ->
  V = vnorm r1 + vnorm r2 - sqrt 2 * A * C0 z -> 0 < V ->
  v1 = vmult (/ (A * sqrt V / sqrt mu)) (vminus r2 (vmult (1 - V / vnorm r1) r1)) ->
  v2 = vmult (/ (A * sqrt V / sqrt mu)) (vminus (vmult (1 - V / vnorm r2) r2) r1) ->
  lambert_solution mu r1 v1 r2 v2 (tz mu A V z M) M.
Proof.
  intros Hmu Hnc HA Hz HM HMz HV HV0 E1 E2.
  pose proof (S1_pos z Hz) as HS. pose proof PI_RGT_0 as HP.
  destruct (sqrt_pos_facts 2) as [W1 W2]; [lra|].
  destruct (sqrt_pos_facts mu Hmu) as [N1 N2]. destruct (sqrt_pos_facts V HV0) as [V1 V2].
  assert (V3' : sqrt (2 * V) = sqrt 2 * sqrt V) by (apply sqrt_mult; lra).
  destruct (Z.eq_dec M 0) as [->|NM].
  - assert (D2 : S2 (4 * z) = S1 z * S1 z / 2) by apply S2_double.
    assert (Hs2 : sqrt (S2 (4 * z)) = S1 z / sqrt 2).
    { rewrite D2. rewrite sqrt_div by nra. now rewrite sqrt_square by lra. }
    assert (D2p : 0 < S2 (4 * z)) by (rewrite D2; nra).
    assert (Hy : V = vnorm r1 + vnorm r2 - A * S1 (4 * z) / sqrt (S2 (4 * z))).
    { rewrite Hs2, S1_double, HV. set (w := sqrt 2) in *. field. lra. }
    assert (Hchi : sqrt (V / S2 (4 * z)) = sqrt 2 * sqrt V / S1 z).
    { rewrite sqrt_div by lra. rewrite Hs2. field. lra. }
    replace (tz mu A V z 0) with ((sqrt (V / S2 (4 * z)) * sqrt (V / S2 (4 * z)) * sqrt (V / S2 (4 * z)) * S3 (4 * z) + A * sqrt V) / sqrt mu).
    + apply (uv_solution mu r1 r2 v1 v2 A (4 * z) V 0); auto; try lra; try lia.
      destruct (Rlt_dec 0 z) as [P|P]; [right|left; split; [lra|reflexivity]].
      split; [lra|]. rewrite sqrt_4 by assumption. destruct (sqrt_below_PI z P Hz). lra.
    + unfold tz. rewrite Hchi, V3'.
      replace (0 * PI * (V * sqrt V) / (sqrt 2 * (z * sqrt z) * (S1 z * S1 z * S1 z) * sqrt mu)) with 0
        by (unfold Rdiv; ring).
      rewrite Rplus_0_r. f_equal. f_equal.
      set (w := sqrt 2) in *. set (sv := sqrt V) in *. clearbody w sv. rewrite <- V2.
      replace (w * sv / S1 z * (w * sv / S1 z) * (w * sv / S1 z)) with ((w * w) * w * (sv * sv * sv) / (S1 z * S1 z * S1 z)) by (field; lra).
      rewrite W2. field. lra.
  - specialize (HMz NM). destruct (sqrt_below_PI z HMz Hz) as [X1 X2].
    pose proof (sqrt_sqrt z (Rlt_le _ _ HMz)) as X3. set (x := sqrt z) in *.
    assert (HM1 : 1 <= IZR M) by (apply (IZR_le 1); lia).
    set (w := 2 * x + 2 * PI * IZR M). assert (Hw : 0 < w) by (unfold w; nra).
    assert (Hp : sqrt (w * w) = w) by (apply sqrt_square; lra).
    assert (Es : sin w = sin (2 * x)).
    { unfold w. replace (2 * PI * IZR M) with (2 * IZR M * PI) by ring.
      replace (2 * IZR M) with (2 * INR (Z.to_nat M)) by (rewrite INR_IZR_INZ, Z2Nat.id by assumption; reflexivity).
      apply sin_period. }
    assert (Ec : cos w = cos (2 * x)).
    { unfold w. replace (2 * PI * IZR M) with (2 * IZR M * PI) by ring.
      replace (2 * IZR M) with (2 * INR (Z.to_nat M)) by (rewrite INR_IZR_INZ, Z2Nat.id by assumption; reflexivity).
      apply cos_period. }
    rewrite cos_2a_sin in Ec. rewrite sin_2a in Es.
    assert (Sx : 0 < sin x) by (apply sin_gt_0; lra).
    assert (F1 : S1 z = sin x / x).
    { rewrite S1_U1. unfold U1. destruct (Rlt_dec 0 z); [|lra]. now rewrite Rmult_1_r. }
    assert (F0 : C0 z = cos x).
    { unfold C0, U0. destruct (Rlt_dec 0 z); [|lra]. now rewrite Rmult_1_r. }
    assert (F3 : S3 (4 * z) = (2 * x - 2 * sin x * cos x) / (8 * (z * x))).
    { unfold S3, U3. destruct (Rlt_dec 0 (4 * z)); [|lra]. rewrite Rmult_1_r, sqrt_4 by assumption. fold x.
      rewrite sin_2a. f_equal. ring. }
    assert (ww : 0 < w * w) by nra.
    assert (G2 : S2 (w * w) = 2 * (sin x * sin x) / (w * w)).
    { unfold S2, U2. destruct (Rlt_dec 0 (w * w)); [|lra]. rewrite Rmult_1_r, Hp, Ec. field. lra. }
    assert (G3 : S3 (w * w) = (w - 2 * sin x * cos x) / (w * w * w)).
    { unfold S3, U3. destruct (Rlt_dec 0 (w * w)); [|lra]. rewrite Rmult_1_r, Hp, Es. reflexivity. }
    assert (G1 : S1 (w * w) = 2 * sin x * cos x / w).
    { rewrite S1_U1. unfold U1. destruct (Rlt_dec 0 (w * w)); [|lra]. now rewrite Rmult_1_r, Hp, Es. }
    assert (Q : 0 < 2 * (sin x * sin x)) by nra.
    assert (G2p : 0 < S2 (w * w)) by (rewrite G2; now apply Rdiv_lt_0_compat).
    assert (Hs2 : sqrt (S2 (w * w)) = sqrt 2 * sin x / w).
    { rewrite G2. rewrite sqrt_div by lra. rewrite Hp. rewrite sqrt_mult by nra. now rewrite sqrt_square by lra. }
    assert (Hy : V = vnorm r1 + vnorm r2 - A * S1 (w * w) / sqrt (S2 (w * w))).
    { rewrite Hs2, G1, HV, F0. set (q := sqrt 2) in *.
      replace (A * (2 * sin x * cos x / w) / (q * sin x / w)) with (A * ((q * q) * cos x) / q) by (rewrite W2; field; lra).
      field. lra. }
    assert (Hchi : sqrt (V / S2 (w * w)) = sqrt V * w / (sqrt 2 * sin x)).
    { rewrite sqrt_div by lra. rewrite Hs2. field. lra. }
    replace (tz mu A V z M) with ((sqrt (V / S2 (w * w)) * sqrt (V / S2 (w * w)) * sqrt (V / S2 (w * w)) * S3 (w * w) + A * sqrt V) / sqrt mu).
    + apply (uv_solution mu r1 r2 v1 v2 A (w * w) V M); auto; try lra.
      right. split; [lra|]. rewrite Hp. unfold w. lra.
    + unfold tz. fold x. rewrite Hchi, V3', G3, F3, F1. unfold w.
      set (q := sqrt 2) in *. set (sv := sqrt V) in *. set (sm := sqrt mu) in *. rewrite <- V2, <- X3.
      assert (w <> 0) by lra. unfold w in H. clearbody q sv x sm.
      replace (sv * (2 * x + 2 * PI * IZR M) / (q * sin x) * (sv * (2 * x + 2 * PI * IZR M) / (q * sin x)) * (sv * (2 * x + 2 * PI * IZR M) / (q * sin x)) * ((2 * x + 2 * PI * IZR M - 2 * sin x * cos x) / ((2 * x + 2 * PI * IZR M) * (2 * x + 2 * PI * IZR M) * (2 * x + 2 * PI * IZR M)))) with
        (sv * sv * sv * (2 * x + 2 * PI * IZR M - 2 * sin x * cos x) / ((q * q) * q * (sin x * sin x * sin x))) by (field; repeat split; lra).
      replace (2 * ((2 * x - 2 * sin x * cos x) / (8 * (x * x * x))) * (sv * sv) * (q * sv) / (sin x / x * (sin x / x) * (sin x / x))) with
        ((q * q) * (2 * x - 2 * sin x * cos x) * (sv * sv * sv) / (4 * q * (sin x * sin x * sin x))) by (field; repeat split; lra).
      rewrite W2. field. repeat split; lra.
Qed.
