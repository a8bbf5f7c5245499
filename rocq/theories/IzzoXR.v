(** * izzo2015: the time-of-flight function over the reals. *)
From Coq Require Import Reals ZArith Bool Lra Lia Psatz.
From Coquelicot Require Import Coquelicot.
From Verif Require Import Num XReal XRealLemmas MApi MLinalg MIzzo RDerive UniversalKepler LambertUV LambertRev Spec SpecLambert
  VecFacts VecXR Godal GodalXR GodalIzzo DelatorreXR LambertZ Hyp2F1.
Local Open Scope R_scope.

(** ** The hypergeometric series *)
Lemma hyp_term_F x n : @hyp_term XR (Fin x) n = Fin (hyp_a n * x ^ n).
Proof.
  induction n as [|n IH]; [cbn; f_equal; ring|]. cbn [hyp_term]. rewrite IH.
  pose proof (pos_INR n) as P.
  xunf. cbn [nofZ XR xadd xmul xlift2]. rewrite (xdiv_F 5 2) by lra. cbn [xadd xmul xlift2].
  rewrite !plus_IZR, <- INR_IZR_INZ. rewrite xdiv_F by lra. cbn [xmul xlift2]. rewrite xdiv_F by lra.
  f_equal. cbn [hyp_a pow]. field. lra.
Qed.
Lemma hyp_partial_F x n : @hyp_partial XR (Fin x) n = Fin (sum_n (fun k => hyp_a k * x ^ k) n).
Proof.
  induction n as [|n IH].
  - rewrite sum_O. cbn. f_equal. ring.
  - change (@hyp_partial XR (Fin x) (S n)) with (xadd (@hyp_partial XR (Fin x) n) (@hyp_term XR (Fin x) (S n))).
    rewrite IH, hyp_term_F, sum_Sn. reflexivity.
Qed.
Lemma hyp2f1b_F x : Rabs x < 1 -> @hyp2f1b XR (Fin x) = Fin (hyp_f x).
Proof.
  intros H. unfold hyp2f1b. destruct (Rabs_def2 _ _ H) as [H1 H2].
  replace (@nleb XR (nofZ 1) (Fin x)) with false by (symmetry; apply xleb_Ff; exact H1).
  apply (xlim_is_lim _ (sum_n (fun k => hyp_a k * x ^ k))); [apply hyp_partial_F|].
  assert (E : ex_pseries hyp_a x) by (apply CV_radius_inside; rewrite hyp_radius; exact H).
  apply PSeries_correct in E. apply is_pseries_R in E. exact E.
Qed.

(** ** Geometry of [x], [y] *)
Section XY.
Variables (ll x y : R).
Hypothesis Hl : -1 < ll < 1.
Hypothesis Hy0 : 0 <= y.
Hypothesis Hy : y * y = 1 - ll * ll * (1 - x * x).
Let eta := y - ll * x.
Let c := x * y + ll * (1 - x * x).

Lemma xy_eta : 0 < eta.
Proof.
  assert (P : (y + ll * x) * (y - ll * x) = 1 - ll * ll) by (rewrite <- (Rplus_0_r (y * y)) in *; nra).
  assert (0 < 1 - ll * ll) by nra. unfold eta. nra.
Qed.
Lemma xy_y : 0 < y.
Proof. assert (0 < y * y) by nra. nra. Qed.
Lemma xy_c2 : c * c = 1 - (1 - x * x) * (eta * eta).
Proof.
  unfold c, eta. replace (y - ll * x) with (y - ll * x) by ring.
  transitivity (x * x * (y * y) + 2 * x * y * ll * (1 - x * x) + ll * ll * (1 - x * x) * (1 - x * x)); [ring|].
  transitivity (1 - (1 - x * x) * (y * y - 2 * y * ll * x + ll * ll * (x * x))); [|ring]. rewrite Hy. ring.
Qed.
Lemma xy_V : 1 + ll * ll - eta * eta = 2 * ll * c.
Proof.
  unfold c, eta. transitivity (1 + ll * ll - (y * y - 2 * y * ll * x + ll * ll * (x * x))); [ring|]. rewrite Hy. ring.
Qed.
Lemma xy_S : 1 - ll - x * eta = 1 - c.
Proof. unfold c, eta. ring. Qed.
Lemma xy_time : - (eta * c) + 2 * ll * eta * (1 - x * x) = - x + ll * y.
Proof.
  unfold c, eta.
  transitivity (- (x * (y * y)) + ll * y * (1 - x * x) + ll * x * x * y - ll * ll * x * (1 - x * x)); [ring|]. rewrite Hy. ring.
Qed.
Lemma xy_c_ell : -1 < x < 1 -> -1 < c < 1.
Proof.
  intros Hx. pose proof xy_c2 as E. pose proof xy_eta as P. assert (0 < (1 - x * x) * (eta * eta)) by (apply Rmult_lt_0_compat; nra).
  split; nra.
Qed.
Lemma xy_c_par : x = 1 -> c = 1.
Proof. intros E. unfold c. rewrite E in *. assert (y = 1) by nra. nra. Qed.
Lemma xy_c_hyp : 1 < x -> 1 < c.
Proof.
  intros Hx. pose proof xy_c2 as E. pose proof xy_eta as P. assert (0 < (x * x - 1) * (eta * eta)) by (apply Rmult_lt_0_compat; nra).
  assert (C0' : 0 < c).
  { pose proof xy_y. unfold c. assert (L : ll * (x * x - 1) < x * y); [|nra].
    apply Rle_lt_trans with (Rabs ll * (x * x - 1)); [apply Rmult_le_compat_r; [nra|apply Rle_abs]|].
    pose proof (Rabs_pos ll) as A0. assert (A2 : Rabs ll * Rabs ll = ll * ll) by (rewrite <- Rabs_mult; apply Rabs_right; nra).
    assert (A1 : Rabs ll < 1) by (apply Rabs_def1; lra). set (l := Rabs ll) in *. rewrite <- A2 in *.
    assert (0 <= l * (x * x - 1)) by (apply Rmult_le_pos; [exact A0|nra]).
    assert (l * (x * x - 1) * (l * (x * x - 1)) < x * y * (x * y)); [|apply Rsqr_incrst_0; [unfold Rsqr; assumption|assumption|apply Rmult_le_pos; lra]].
    replace (x * y * (x * y)) with (x * x * (y * y)) by ring. rewrite Hy.
    assert (0 <= l * l < 1) by nra. set (q := x * x) in *. assert (1 < q) by (unfold q; nra).
    replace (l * (q - 1) * (l * (q - 1))) with (l * l * ((q - 1) * (q - 1))) by ring.
    assert (0 <= (l * l) * (q - 1)) by (apply Rmult_le_pos; lra). set (p := l * l) in *. nra. }
  nra.
Qed.
Lemma xy_c_gt : -1 < x -> -1 < c.
Proof.
  intros Hx. destruct (Rtotal_order x 1) as [L|[L|L]].
  - apply xy_c_ell. lra.
  - rewrite xy_c_par by assumption. lra.
  - pose proof (xy_c_hyp L). lra.
Qed.
Lemma xy_c_small : -1 < x -> x * x < 14 / 10 -> c < 3.
Proof.
  intros Hx Hx2. pose proof xy_c2 as E. pose proof xy_eta as P.
  destruct (Rle_dec x 1) as [L|L].
  - assert (0 <= (1 - x * x) * (eta * eta)) by (apply Rmult_le_pos; nra). nra.
  - assert (y <= x).
    { assert (Q : 0 < (1 - ll * ll) * (x * x - 1)) by (apply Rmult_lt_0_compat; nra).
      apply Rsqr_incr_0; unfold Rsqr; nra. }
    assert (eta < 2 * x) by (unfold eta in *; nra).
    assert (eta * eta < 4 * (x * x)) by nra.
    assert ((x * x - 1) * (eta * eta) <= (4 / 10) * (4 * (14 / 10))) by (apply Rmult_le_compat; nra). nra.
Qed.
End XY.

(** ** The time of flight *)
Lemma sqrt_cube s : 0 < s -> sqrt (s * s * s) = s * sqrt s.
Proof. intros. rewrite sqrt_mult by nra. now rewrite sqrt_square by lra. Qed.

Section Time.
Variables (mu s ll x y z : R) (M : Z).
Hypothesis Hmu : 0 < mu.
Hypothesis Hs : 0 < s.
Hypothesis Hl : -1 < ll < 1.
Hypothesis Hx : -1 < x.
Hypothesis Hy0 : 0 <= y.
Hypothesis Hy : y * y = 1 - ll * ll * (1 - x * x).
Hypothesis Hz : z < PI * PI.
Hypothesis HC : C0 z = x * y + ll * (1 - x * x).

Let A := sqrt 2 * s * ll.
Let V := s * ((y - ll * x) * (y - ll * x)).
Let k := sqrt (2 * mu / (s * s * s)).

Lemma sqrt_V : sqrt V = sqrt s * (y - ll * x).
Proof. pose proof (xy_eta ll x y Hl Hy0 Hy). unfold V. rewrite sqrt_mult by nra. now rewrite sqrt_square by lra. Qed.
Lemma V_pos : 0 < V.
Proof. pose proof (xy_eta ll x y Hl Hy0 Hy). unfold V. assert (0 < (y - ll * x) * (y - ll * x)) by nra. nra. Qed.
Lemma k_val : k = sqrt 2 * sqrt mu / (s * sqrt s).
Proof.
  unfold k. assert (0 < s * s * s) by (apply Rmult_lt_0_compat; nra).
  rewrite sqrt_div by lra. rewrite sqrt_cube by assumption. rewrite sqrt_mult by lra. reflexivity.
Qed.

Lemma izzo_time_ell w : x < 1 -> z = w * w -> 0 < w < PI ->
  k * tz mu A V z M = ((w + IZR M * PI) / sqrt (1 - x * x) - x + ll * y) / (1 - x * x).
Proof.
  intros Hx1 -> Hw. pose proof (xy_eta ll x y Hl Hy0 Hy) as He. pose proof V_pos as HV.
  rewrite tz_ell by assumption. rewrite C0_ell in HC by lra.
  assert (Q : 0 < 1 - x * x) by nra. destruct (sqrt_facts _ Q) as [Q1 Q2].
  destruct (sqrt_facts _ Hmu) as [M1 M2]. destruct (sqrt_facts _ Hs) as [R1 R2]. destruct (sqrt_facts 2) as [W1 W2]; [lra|].
  pose proof (sin_gt_0 w (proj1 Hw) (proj2 Hw)) as Sp.
  assert (ES : sin w = sqrt (1 - x * x) * (y - ll * x)).
  { pose proof (sin2_cos2 w) as SC. unfold Rsqr in SC. rewrite HC in SC. rewrite (xy_c2 ll x y Hy) in SC.
    rewrite <- Q2 in SC at 1. set (q := sqrt (1 - x * x)) in *. set (e := y - ll * x) in *.
    assert (sin w * sin w = (q * e) * (q * e)) by (rewrite <- Q2 in *; nra).
    assert (0 < q * e) by nra. nra. }
  rewrite k_val, sqrt_V, sin_2a, ES, HC. unfold V, A.
  pose proof (xy_time ll x y Hy) as XT.
  set (c := x * y + ll * (1 - x * x)) in *. clearbody c.
  set (q := sqrt (1 - x * x)) in *. set (e := y - ll * x) in *. set (r := sqrt s) in *. set (m := sqrt mu) in *. set (W := sqrt 2) in *.
  transitivity ((w + IZR M * PI) / (q * q * q) - e * c / (q * q) + (W * W) * ll * e).
  - clearbody q e r m W. field. repeat split; lra.
  - rewrite W2.
    replace ((w + IZR M * PI) / q - x + ll * y) with ((w + IZR M * PI) / q + (- (e * c) + 2 * ll * e * (1 - x * x))) by (rewrite XT; ring).
    rewrite <- Q2. field. lra.
Qed.

Lemma izzo_time_hyp w : 1 < x -> z = - (w * w) -> 0 < w -> M = 0%Z ->
  k * tz mu A V z M = (w / sqrt (x * x - 1) - x + ll * y) / (1 - x * x)
  /\ sinh w = sqrt (x * x - 1) * (y - ll * x).
Proof.
  intros Hx1 -> Hw ->. pose proof (xy_eta ll x y Hl Hy0 Hy) as He. pose proof V_pos as HV.
  rewrite tz_hyp by assumption. rewrite C0_hyp in HC by lra.
  assert (Q : 0 < x * x - 1) by nra. destruct (sqrt_facts _ Q) as [Q1 Q2].
  destruct (sqrt_facts _ Hmu) as [M1 M2]. destruct (sqrt_facts _ Hs) as [R1 R2]. destruct (sqrt_facts 2) as [W1 W2]; [lra|].
  pose proof (sinh_pos w Hw) as Sp.
  assert (ES : sinh w = sqrt (x * x - 1) * (y - ll * x)).
  { pose proof (cosh_sinh_sq w) as SC. rewrite HC in SC. rewrite (xy_c2 ll x y Hy) in SC.
    set (q := sqrt (x * x - 1)) in *. set (e := y - ll * x) in *.
    assert (sinh w * sinh w = (q * e) * (q * e)).
    { transitivity ((q * q) * (e * e)); [rewrite Q2; lra|ring]. }
    assert (0 < q * e) by nra. nra. }
  split; [|exact ES].
  rewrite k_val, sqrt_V, sinh_double, ES, HC. unfold V, A.
  pose proof (xy_time ll x y Hy) as XT.
  set (c := x * y + ll * (1 - x * x)) in *. clearbody c.
  set (q := sqrt (x * x - 1)) in *. set (e := y - ll * x) in *. set (r := sqrt s) in *. set (m := sqrt mu) in *. set (W := sqrt 2) in *.
  transitivity (- w / (q * q * q) + e * c / (q * q) + (W * W) * ll * e).
  - clearbody q e r m W. field. repeat split; lra.
  - rewrite W2.
    replace (w / q - x + ll * y) with (w / q + (- (e * c) + 2 * ll * e * (1 - x * x))) by (rewrite XT; ring).
    replace (1 - x * x) with (- (q * q)) by lra. field. lra.
Qed.

Lemma izzo_time_hyp2f1 : M = 0%Z -> C0 z < 3 ->
  let e := y - ll * x in
  k * tz mu A V z M = (e * e * e * (4 / 3 * hyp_f ((1 - ll - x * e) * (1 / 2))) + 4 * ll * e) * (1 / 2).
Proof.
  intros -> H3 e. pose proof (xy_eta ll x y Hl Hy0 Hy) as He. pose proof V_pos as HV. pose proof (S1_pos z Hz) as HS.
  destruct (sqrt_facts _ Hmu) as [M1 M2]. destruct (sqrt_facts _ Hs) as [R1 R2]. destruct (sqrt_facts 2) as [W1 W2]; [lra|].
  unfold e. rewrite (xy_S ll x y), <- HC. fold e.
  replace ((1 - C0 z) * (1 / 2)) with ((1 - C0 z) / 2) by field. rewrite hyp_z by assumption.
  rewrite tz_0, (sqrt_mult 2 V), k_val, sqrt_V by lra. unfold V, A. fold e in He |- *. clearbody e.
  set (r := sqrt s) in *. set (m := sqrt mu) in *. set (W := sqrt 2) in *.
  transitivity ((W * W) * (2 * S3 (4 * z) * (e * e * e) / (S1 z * S1 z * S1 z)) + (W * W) * ll * e).
  - clearbody r m W. field. repeat split; lra.
  - rewrite W2. field. lra.
Qed.
End Time.

Lemma sqrt_lt_sq a x : 0 <= a -> sqrt a < x -> a < x * x.
Proof. intros Ha H. pose proof (sqrt_pos a). pose proof (sqrt_sqrt a Ha). nra. Qed.
Lemma lt_sqrt_sq a x : 0 <= a -> 0 <= x -> x < sqrt a -> x * x < a.
Proof. intros Ha Hx H. pose proof (sqrt_pos a). pose proof (sqrt_sqrt a Ha). nra. Qed.

Lemma izzo_tof_y_F mu s ll x y z M T0 :
  0 < mu -> 0 < s -> -1 < ll < 1 -> -1 < x -> 0 <= y -> y * y = 1 - ll * ll * (1 - x * x) ->
  z < PI * PI -> C0 z = x * y + ll * (1 - x * x) -> (M = 0%Z \/ x < 1) ->
  @izzo_tof_y XR (Fin x) (Fin y) (Fin T0) (Fin ll) (Fin (IZR M)) =
  Fin (sqrt (2 * mu / (s * s * s)) * tz mu (sqrt 2 * s * ll) (s * ((y - ll * x) * (y - ll * x))) z M - T0).
Proof.
  intros Hmu Hs Hl Hx Hy0 Hy Hz HC HM. unfold izzo_tof_y.
  replace (@nlit XR 6 10) with (Fin (6 / 10)) by reflexivity.
  replace (@nlit XR 14 10) with (Fin (14 / 10)) by reflexivity.
  replace (@nlit XR 1 2) with (Fin (1 / 2)) by reflexivity.
  change (@nsqrt XR (Fin (6 / 10))) with (xsqrt (Fin (6 / 10))). change (@nsqrt XR (Fin (14 / 10))) with (xsqrt (Fin (14 / 10))).
  rewrite !xsqrt_F by lra.
  match goal with |- context [if ?b then _ else _] => destruct b eqn:EB end.
  - apply andb_true_iff in EB. destruct EB as [EB E3]. apply andb_true_iff in EB. destruct EB as [E1 E2].
    change (xeqb (Fin (IZR M)) (Fin 0) = true) in E1. apply xeqb_F in E1. apply eq_IZR in E1.
    change (xltb (Fin (sqrt (6 / 10))) (Fin x) = true) in E2. apply xltb_F in E2.
    change (xltb (Fin x) (Fin (sqrt (14 / 10))) = true) in E3. apply xltb_F in E3.
    assert (X0 : 0 < x) by (pose proof (sqrt_pos (6 / 10)); lra).
    assert (X2 : x * x < 14 / 10) by (apply lt_sqrt_sq; lra).
    assert (C3 : C0 z < 3) by (rewrite HC; apply xy_c_small; assumption).
    assert (Cm : -1 < C0 z) by (rewrite HC; apply xy_c_gt; assumption).
    pose proof (izzo_time_hyp2f1 mu s ll x y z M Hmu Hs Hl Hy0 Hy Hz HC E1 C3) as ET. cbv zeta in ET.
    rewrite ET. unfold cube. xunf. cbn [xadd xsub xmul xlift2].
    rewrite hyp2f1b_F.
    + rewrite xdiv_F by lra. cbn [xadd xsub xmul xlift2]. f_equal; try ring.
    + rewrite (xy_S ll x y). rewrite <- HC. apply Rabs_def1; lra.
  - destruct (Rtotal_order x 1) as [L|[L|L]].
    + pose proof (xy_c_ell ll x y Hl Hy0 Hy (conj Hx L)) as Cb. set (c := x * y + ll * (1 - x * x)) in *.
      assert (Hz0 : 0 < z).
      { destruct (Rlt_dec 0 z) as [|N]; [assumption|exfalso]. unfold C0, U0 in HC.
        destruct (Rlt_dec 0 z) as [|_]; [contradiction|]. destruct (Rlt_dec z 0) as [P|P]; [|lra].
        pose proof (cosh_sinh_sq (sqrt (- z) * 1)) as CS. assert (0 < cosh (sqrt (- z) * 1)) by (unfold cosh; pose proof (exp_pos (sqrt (- z) * 1)); pose proof (exp_pos (- (sqrt (- z) * 1))); lra).
        pose proof (Rle_0_sqr (sinh (sqrt (- z) * 1))). unfold Rsqr in *. nra. }
      destruct (sqrt_below_PI z Hz0 Hz) as [W1 W1']. pose proof (sqrt_sqrt z (Rlt_le _ _ Hz0)) as W2.
      set (w := sqrt z) in *.
      rewrite (izzo_time_ell mu s ll x y z M Hmu Hs Hl Hx Hy0 Hy Hz HC w) by (auto; lra).
      assert (EW : acos c = w).
      { rewrite <- HC, <- W2, C0_ell by lra. apply acos_cos. lra. }
      unfold izzo_psi. replace (@nleb XR (@nopp XR (nofZ 1)) (Fin x)) with true by (symmetry; apply xleb_F; lra).
      replace (@nltb XR (Fin x) (nofZ 1)) with true by (symmetry; apply xltb_F; lra). cbn [andb].
      unfold sq. xunf. cbn [nofZ XR xadd xsub xmul xlift2 xlift1]. fold c. rewrite xacos_F by lra.
      assert (Q : 0 < 1 - x * x) by nra. unfold xabs. cbn [xlift1]. rewrite Rabs_right by lra. rewrite xsqrt_F by lra. cbn [xadd xsub xmul xlift2].
      pose proof (sqrt_lt_R0 _ Q). rewrite xdiv_F by lra. cbn [xadd xsub xmul xlift2]. rewrite xdiv_F by lra. cbn [xadd xsub xmul xlift2]. rewrite EW. reflexivity.
    + exfalso. destruct HM as [->|]; [|lra]. subst x.
      assert (B1 : sqrt (6 / 10) < 1) by (apply Rlt_le_trans with (sqrt 1); [apply sqrt_lt_1; lra|rewrite sqrt_1; lra]).
      assert (B2 : 1 < sqrt (14 / 10)) by (apply Rle_lt_trans with (sqrt 1); [rewrite sqrt_1; lra|apply sqrt_lt_1; lra]).
      replace (@neqb XR (Fin 0) (nofZ 0)) with true in EB by (symmetry; apply xeqb_F; reflexivity).
      replace (@nltb XR (Fin (sqrt (6 / 10))) (Fin 1)) with true in EB by (symmetry; now apply xltb_F).
      replace (@nltb XR (Fin 1) (Fin (sqrt (14 / 10)))) with true in EB by (symmetry; now apply xltb_F).
      discriminate.
    + destruct HM as [->|]; [|lra].
      pose proof (xy_c_hyp ll x y Hl Hy0 Hy L) as Cb. set (c := x * y + ll * (1 - x * x)) in *.
      assert (Hz0 : z < 0).
      { destruct (Rlt_dec z 0) as [|N]; [assumption|exfalso]. unfold C0, U0 in HC.
        destruct (Rlt_dec 0 z) as [P|P]; [|destruct (Rlt_dec z 0) as [|_]; [contradiction|lra]].
        destruct (COS_bound (sqrt z * 1)). lra. }
      destruct (sqrt_facts (- z)) as [W1 W2]; [lra|]. set (w := sqrt (- z)) in *.
      destruct (izzo_time_hyp mu s ll x y z 0 Hmu Hs Hl Hy0 Hy Hz HC w L ltac:(lra) W1 eq_refl) as [-> ES].
      assert (Q : 0 < x * x - 1) by nra.
      unfold izzo_psi. replace (@nltb XR (Fin x) (nofZ 1)) with false by (symmetry; apply xltb_Ff; lra). rewrite andb_false_r.
      replace (@nltb XR (nofZ 1) (Fin x)) with true by (symmetry; apply xltb_F; lra).
      unfold sq. xunf. cbn [nofZ XR xadd xsub xmul xlift2 xlift1].
      unfold xabs. cbn [xlift1]. replace (Rabs (1 - x * x)) with (x * x - 1) by (rewrite Rabs_left by lra; ring). rewrite xsqrt_F by lra. cbn [xadd xsub xmul xlift2 xlift1].
      pose proof (sqrt_lt_R0 _ Q). rewrite xdiv_F by lra. cbn [xadd xsub xmul xlift2]. rewrite xdiv_F by lra. cbn [xadd xsub xmul xlift2].
      replace ((y - x * ll) * sqrt (x * x - 1)) with (sinh w) by (rewrite ES; ring). rewrite arcsinh_sinh. rewrite Rmult_0_l, Rplus_0_r. reflexivity.
Qed.

(** ** Velocities *)
Lemma lambda_bounds p r1 r2 ll : non_collinear r1 r2 -> lambda_facts p r1 r2 ll -> -1 < ll < 1.
Proof.
  intros Hn F. pose proof (lf_sq _ _ _ _ F) as E. destruct (semiper_pos _ _ Hn) as [Hs Hc]. pose proof (chord_pos _ _ Hn).
  assert (ll * ll < 1) by nra. split; nra.
Qed.
Lemma lambda_A p r1 r2 ll : lambda_facts p r1 r2 ll -> let A := sqrt 2 * semiper r1 r2 * ll in A * A = Kgeo r1 r2.
Proof.
  intros F A. pose proof (lf_sq _ _ _ _ F) as E. pose proof (semiper_K r1 r2) as SK. destruct (sqrt_facts 2) as [W1 W2]; [lra|].
  unfold A. transitivity ((sqrt 2 * sqrt 2) * (semiper r1 r2 * (semiper r1 r2 * (ll * ll)))); [ring|]. rewrite W2, E, SK. field.
Qed.

Lemma izzo_fg mu p r1 r2 ll e x y sg v1 v2 :
  non_collinear r1 r2 -> 0 < mu -> lambda_facts p r1 r2 ll -> e * e = 1 -> 0 < e * ll ->
  0 <= y -> y * y = 1 - ll * ll * (1 - x * x) -> 0 <= sg ->
  let n1 := vnorm r1 in let n2 := vnorm r2 in let c := chord r1 r2 in let s := semiper r1 r2 in
  let gam := sqrt (mu * s / 2) in let rho := (n1 - n2) / c in let N := vnorm (vcross r1 r2) in
  sg * sg = 1 - rho * rho ->
  v1 = vplus (vmult (gam * ((ll * y - x) - rho * (ll * y + x)) / n1) (vmult (/ n1) r1))
             (vmult (gam * sg * (y + ll * x) / n1) (vmult (e / (N * n1)) (vcross (vcross r1 r2) r1))) ->
  v2 = vplus (vmult (- gam * ((ll * y - x) + rho * (ll * y + x)) / n2) (vmult (/ n2) r2))
             (vmult (gam * sg * (y + ll * x) / n2) (vmult (e / (N * n2)) (vcross (vcross r1 r2) r2))) ->
  fg_pair mu r1 r2 (sqrt 2 * s * ll) (s * ((y - ll * x) * (y - ll * x))) v1 v2.
Proof.
  intros Hn Hm F He Hel Hy Hy2 Hsg n1 n2 c s gam rho N Hs2 E1 E2.
  destruct (izzo_ab mu p r1 r2 ll e x y sg v1 v2 Hn Hm F He Hel Hy Hy2 Hsg Hs2 E1 E2) as (G1 & G2 & G3 & G4 & _ & G6).
  unfold s. rewrite <- G6. eapply ab_fg; try eassumption; [apply (lambda_A p); assumption|].
  destruct (semiper_pos _ _ Hn) as [Hs _]. destruct (sqrt_facts 2) as [W1 W2]; [lra|].
  match type of G4 with 0 < ?a * ll => replace (a * (sqrt 2 * semiper r1 r2 * ll)) with (a * ll * (sqrt 2 * semiper r1 r2)) by ring end.
  apply Rmult_lt_0_compat; [exact G4|]. now apply Rmult_lt_0_compat.
Qed.

Lemma izzo_velocities_fg mu p r1 r2 e ll t1 t2 x v1 v2 :
  non_collinear r1 r2 -> 0 < mu ->
  e * e = 1 -> 0 < e * ll -> lambda_facts p r1 r2 ll ->
  t1 = vmult (e / (vnorm (vcross r1 r2) * vnorm r1)) (vcross (vcross r1 r2) r1) ->
  t2 = vmult (e / (vnorm (vcross r1 r2) * vnorm r2)) (vcross (vcross r1 r2) r2) ->
  @izzo_velocities XR (Fin mu) (vfin r1) (vfin r2) (Fin (vnorm r1)) (Fin (vnorm r2))
    (Fin (chord r1 r2)) (Fin (semiper r1 r2)) (Fin ll) (vfin t1) (vfin t2) x (izzo_y x (Fin ll))
  = (vfin v1, vfin v2) ->
  exists xr yr, x = Fin xr /\ @izzo_y XR x (Fin ll) = Fin yr /\ 0 <= yr /\ yr * yr = 1 - ll * ll * (1 - xr * xr) /\
    fg_pair mu r1 r2 (sqrt 2 * semiper r1 r2 * ll) (semiper r1 r2 * ((yr - ll * xr) * (yr - ll * xr))) v1 v2.
Proof.
  intros Hn Hm He Hel F E1 E2 H.
  unfold izzo_velocities, izzo_reconstruct in H.
  assert (Hy : exists xr yr, x = Fin xr /\ izzo_y x (Fin ll) = Fin yr /\ 0 <= yr
            /\ yr * yr = 1 - ll * ll * (1 - xr * xr)).
  { remember (izzo_y x (Fin ll)) as y eqn:Ey. clear E1 E2.
    vinv. xunf. xinv. subst.
    match goal with H : izzo_y (Fin ?x) _ = Fin ?a |- _ => exists x, a; pose proof (izzo_y_inv _ _ _ H) as [? ?] end.
    repeat split; assumption. }
  destruct Hy as (xr & yr & -> & EY & Hy & Hy2). rewrite EY in H. exists xr, yr.
  split; [reflexivity|]. split; [exact EY|]. split; [exact Hy|]. split; [exact Hy2|].
  destruct (norms_pos _ _ Hn) as [N1 N2]. pose proof (chord_pos _ _ Hn) as Hc. clear EY.
  vinv. xunf. xinv.
  subst.
  match goal with H : 0 <= 1 - ?a * ?a |- _ =>
    eapply (izzo_fg mu p _ _ ll e xr yr (sqrt (1 - a * a))); try eassumption;
      [apply sqrt_pos|apply sqrt_sqrt; assumption|reflexivity|reflexivity] end.
Qed.

(** ** From [x] to the motion *)
Lemma lambda_P p r1 r2 ll : lambda_facts p r1 r2 ll -> vnorm r1 + vnorm r2 = semiper r1 r2 * (1 + ll * ll).
Proof. intros F. pose proof (lf_sq _ _ _ _ F) as E. unfold semiper in *. lra. Qed.

Lemma xy_lambert mu p r1 r2 ll x y v1 v2 :
  non_collinear r1 r2 -> 0 < mu -> lambda_facts p r1 r2 ll ->
  0 <= y -> y * y = 1 - ll * ll * (1 - x * x) ->
  fg_pair mu r1 r2 (sqrt 2 * semiper r1 r2 * ll) (semiper r1 r2 * ((y - ll * x) * (y - ll * x))) v1 v2 ->
  let s := semiper r1 r2 in
  energy mu r1 v1 = - mu * (1 - x * x) / s /\
  forall M T0, (0 <= M)%Z -> -1 < x -> (M = 0%Z \/ x < 1) ->
  exists T, lambert_solution mu r1 v1 r2 v2 T M /\
    @izzo_tof_y XR (Fin x) (Fin y) (Fin T0) (Fin ll) (Fin (IZR M)) = Fin (sqrt (2 * mu / (s * s * s)) * T - T0).
Proof.
  intros Hn Hm F Hy0 Hy FG s. pose proof (lambda_bounds _ _ _ _ Hn F) as Hl. destruct (semiper_pos _ _ Hn) as [Hs _].
  pose proof (xy_eta ll x y Hl Hy0 Hy) as He. fold s in Hs.
  assert (HC : vnorm r1 + vnorm r2 - s * ((y - ll * x) * (y - ll * x)) = sqrt 2 * (sqrt 2 * s * ll) * (x * y + ll * (1 - x * x))).
  { rewrite (lambda_P _ _ _ _ F). fold s. pose proof (xy_V ll x y Hy) as XV. destruct (sqrt_facts 2) as [W1 W2]; [lra|].
    transitivity (s * (1 + ll * ll - (y - ll * x) * (y - ll * x))); [ring|]. rewrite XV.
    transitivity ((sqrt 2 * sqrt 2) * s * ll * (x * y + ll * (1 - x * x))); [rewrite W2; ring|ring]. }
  split.
  - rewrite (fg_energy _ _ _ _ _ _ _ _ Hn Hm FG HC), (xy_c2 ll x y Hy). fold s. field. lra.
  - intros M T0 HM Hx HMx.
    destruct (C0_inverse (x * y + ll * (1 - x * x))) as (z & Hz & EC & Hz0); [now apply xy_c_gt|].
    exists (tz mu (sqrt 2 * s * ll) (s * ((y - ll * x) * (y - ll * x))) z M). split.
    + apply fg_lambert; try assumption.
      * intros HM0. destruct HMx as [|L]; [contradiction|]. apply Hz0. now apply xy_c_ell.
      * rewrite EC. exact HC.
    + now apply izzo_tof_y_F.
Qed.
