(** * The searches start on the right side: C61. *)
From Coq Require Import ZArith List Bool Lia Reals Lra Psatz.
From Coquelicot Require Import Coquelicot.
From Verif Require Import Num PropertiesOrbit LambertUnique AnglesXR PropertiesAngles DelatorreXR LambertUV AroraW PropertiesArora PropertiesAroraDeriv PropertiesMotion VecFacts Godal GodalXR GodalIzzo UniversalKepler XReal XRealLemmas MApi MScipy MIzzo MGooding MDer MArora RDerive Spec SpecLambert LambertRev LambertZ Hyp2F1 IzzoXR
  DerXR PropertiesDerivIzzo AsinSeries GoodingXR PropertiesSteps MonoX XParam PropertiesMultiRev.
Local Open Scope R_scope.

(** ** izzo2015 *)
Section Izzo.
Variables (ll : R).
Hypothesis Hl : -1 < ll < 1.

Lemma guess_consts T low :
  @izzo_initial_guess XR (Fin T) (Fin ll) (Fin 0) low =
  if Rle_dec (izzo_T ll 0 0) T then @nsub XR (@npow XR (@ndiv XR (Fin (izzo_T ll 0 0)) (Fin T)) (Fin (2 / 3))) (Fin 1)
  else if Rlt_dec T (izzo_T ll 0 1) then
    @nadd XR (@ndiv XR (@nmul XR (@ndiv XR (Fin (5 / 2 * izzo_T ll 0 1)) (Fin T)) (Fin (izzo_T ll 0 1 - T))) (Fin (1 - ll * ll * ll * ll * ll))) (Fin 1)
  else @nsub XR (@nexp XR (@ndiv XR (@nmul XR (Fin (ln 2)) (@nln XR (@ndiv XR (Fin T) (Fin (izzo_T ll 0 0)))))
                                (@nln XR (@ndiv XR (Fin (izzo_T ll 0 1)) (Fin (izzo_T ll 0 0)))))) (Fin 1).
Proof.
  unfold izzo_initial_guess. xunf. cbn [nofZ XR].
  replace (xeqb (Fin 0) (Fin (IZR 0))) with true by (symmetry; now apply xeqb_F).
  rewrite (xacos_F ll) by lra. cbn [xmul xsub xadd xlift2]. rewrite xsqrt_F by nra. cbn [xmul xsub xadd xlift2].
  replace (acos ll + ll * sqrt (1 - ll * ll) + 0 * PI) with (izzo_T ll 0 0) by (rewrite izzo_T_at_0 by assumption; ring).
  rewrite (xdiv_F (2 * _)) by lra. replace (2 * (1 - ll * ll * ll) / 3) with (izzo_T ll 0 1) by (apply izzo_T_at_1; assumption).
  rewrite (xdiv_F 5 2), (xdiv_F 2 3) by lra. rewrite (xln_F 2) by lra. cbn [xmul xsub xadd xlift2].
  replace (xleb (Fin (izzo_T ll 0 0)) (Fin T)) with (if Rle_dec (izzo_T ll 0 0) T then true else false) by reflexivity.
  replace (xltb (Fin T) (Fin (izzo_T ll 0 1))) with (if Rlt_dec T (izzo_T ll 0 1) then true else false) by reflexivity.
  destruct (Rle_dec _ _); [reflexivity|]. destruct (Rlt_dec _ _); [|reflexivity].
  cbn [npown nmul XR xmul xlift2]. 
  replace (1 - ll * (ll * (ll * (ll * ll)))) with (1 - ll * ll * ll * ll * ll) by ring. reflexivity.
Qed.

Lemma Rpower_unit a b : 0 < a <= 1 -> 0 < b -> 0 < Rpower a b <= 1 /\ (Rpower a b = 1 <-> a = 1).
Proof.
  intros Ha Hb. unfold Rpower. split; [split; [apply exp_pos|]|].
  - destruct (Req_dec a 1) as [-> |N]; [rewrite ln_1, Rmult_0_r, exp_0; lra|]. left. rewrite <- exp_0. apply exp_increasing.
    assert (ln a < 0) by (rewrite <- ln_1; apply ln_increasing; lra). nra.
  - split; [|intros ->; rewrite ln_1, Rmult_0_r; apply exp_0]. intros E. destruct (Req_dec a 1) as [|N]; [assumption|exfalso].
    assert (ln a < 0) by (rewrite <- ln_1; apply ln_increasing; lra).
    assert (exp (b * ln a) < exp 0) by (apply exp_increasing; nra). rewrite exp_0 in *. lra.
Qed.

Lemma guess_sides T low : 0 < T ->
  exists x0, @izzo_initial_guess XR (Fin T) (Fin ll) (Fin 0) low = Fin x0 /\ -1 < x0 /\
    (x0 < 0 <-> izzo_T ll 0 0 < T) /\ (x0 = 0 <-> T = izzo_T ll 0 0) /\
    (x0 < 1 <-> izzo_T ll 0 1 < T) /\ (x0 = 1 <-> T = izzo_T ll 0 1).
Proof.
  intros HT. rewrite guess_consts. destruct (izzo_T_knots ll Hl) as [K1 K2]. set (A := izzo_T ll 0 0) in *. set (B := izzo_T ll 0 1) in *. clearbody A B.
  xunf. destruct (Rle_dec A T) as [H|H]; [|destruct (Rlt_dec T B) as [H'|H']].
  - rewrite xdiv_F by lra. assert (Q : 0 < A / T <= 1).
    { split; [apply Rdiv_lt_0_compat; lra|]. apply Rmult_le_reg_r with T; [lra|]. replace (A / T * T) with A by (field; lra). lra. }
    rewrite xpow_F by lra. destruct (Rpower_unit _ (2 / 3) Q ltac:(lra)) as [P E]. set (w := Rpower _ _) in *. cbn [xsub xlift2].
    assert (EQ : A / T = 1 <-> T = A).
    { split; [intros Z0; replace A with (A / T * T) by (field; lra); rewrite Z0; ring|intros ->; field; lra]. }
    exists (w - 1). split; [reflexivity|]. assert (W : w = 1 <-> T = A) by tauto. clearbody w. 
    split; [lra|]. split; [|split; [|split]].
    + split; intros; [|assert (w <> 1) by (intros Z0; apply W in Z0; lra); lra]. assert (T <> A) by (intros Z0; apply W in Z0; lra). lra.
    + split; intros; [apply W; lra|]. assert (w = 1) by now apply W. lra.
    + split; intros; lra.
    + split; intros; lra.
  - rewrite xdiv_F by lra. cbn [xmul xlift2]. assert (L5 : 0 < 1 - ll * ll * ll * ll * ll).
    { replace (1 - ll * ll * ll * ll * ll) with ((1 - ll) * (1 + ll * (1 + ll) * (1 + ll * ll))) by ring. apply Rmult_lt_0_compat; [lra|]. nra. }
    rewrite xdiv_F by lra. cbn [xadd xlift2]. set (e := _ / (1 - _)).
    assert (0 < e). { unfold e. apply Rdiv_lt_0_compat; [|exact L5]. apply Rmult_lt_0_compat; [apply Rdiv_lt_0_compat; lra|lra]. }
    exists (e + 1). split; [reflexivity|]. repeat split; intros; lra.
  - assert (QT : 0 < T / A < 1).
    { split; [apply Rdiv_lt_0_compat; lra|]. apply Rmult_lt_reg_r with A; [lra|]. replace (T / A * A) with T by (field; lra). lra. }
    assert (QB : 0 < B / A <= T / A).
    { split; [apply Rdiv_lt_0_compat; lra|]. apply Rmult_le_compat_r; [left; apply Rinv_0_lt_compat; lra|lra]. }
    rewrite !xdiv_F by lra. rewrite !xln_F by lra. cbn [xmul xlift2].
    assert (N1 : ln (T / A) < 0) by (rewrite <- ln_1; apply ln_increasing; lra).
    assert (N2 : ln (B / A) <= ln (T / A)) by (destruct (Req_dec (B / A) (T / A)) as [-> |]; [lra|left; apply ln_increasing; lra]).
    rewrite xdiv_F by lra. cbn [nexp XR xlift1 xsub xlift2].
    assert (L2 : 0 < ln 2) by (rewrite <- ln_1; apply ln_increasing; lra).
    set (r := ln 2 * ln (T / A) / ln (B / A)).
    assert (ER : r = ln 2 * (ln (T / A) / ln (B / A))) by (unfold r; field; lra).
    assert (R0 : 0 < ln (T / A) / ln (B / A) <= 1).
    { set (a := ln (T / A)) in *. set (b := ln (B / A)) in *. clearbody a b. replace (a / b) with ((- a) / (- b)) by (field; lra).
      split; [apply Rdiv_lt_0_compat; lra|]. apply Rmult_le_reg_r with (- b); [lra|]. replace (- a / - b * - b) with (- a) by (field; lra). lra. }
    assert (R1 : ln (T / A) / ln (B / A) = 1 <-> T = B).
    { split.
      - intros Z0. assert (Z1 : ln (T / A) = ln (B / A)) by (transitivity (ln (T / A) / ln (B / A) * ln (B / A)); [field; lra|rewrite Z0; ring]).
        apply ln_inv in Z1; [|lra|lra]. apply Rmult_eq_reg_r with (/ A); [exact Z1|apply Rinv_neq_0_compat; lra].
      - intros ->. field. lra. }
    assert (E2 : exp (ln 2) = 2) by (apply exp_ln; lra).
    assert (X0 : 1 < exp r) by (rewrite <- exp_0; apply exp_increasing; rewrite ER; apply Rmult_lt_0_compat; lra).
    assert (X1 : exp r <= 2).
    { rewrite <- E2. destruct (Req_dec r (ln 2)) as [-> |N]; [lra|]. left. apply exp_increasing. rewrite ER in *. nra. }
    assert (X2 : exp r = 2 <-> T = B).
    { rewrite <- R1. split; [|intros Z0; rewrite ER, Z0, Rmult_1_r; exact E2]. intros Z0. rewrite <- E2 in Z0. apply exp_inv in Z0. rewrite ER in Z0.
      apply Rmult_eq_reg_l with (ln 2); lra. }
    exists (exp r - 1). split; [reflexivity|]. split; [lra|]. clear - X0 X1 X2 H H' K1 K2. set (w := exp r) in *. clearbody w.
    split; [|split; [|split]]; split; intros; lra.
Qed.

(** Let [x] be the path parameter whose time of flight is the requested one.
    The starting value is beyond -1 and on the same side of 0 (the ellipse of
    least energy) and of 1 (the parabola) as [x]; it equals 0 or 1 exactly if
    [x] does. *)
Theorem C61_izzo_single : forall x T low,
  -1 < x -> 0 < T -> @izzo_tof XR (Fin x) (Fin 0) (Fin ll) (Fin 0) = Fin T ->
  exists x0, @izzo_initial_guess XR (Fin T) (Fin ll) (Fin 0) low = Fin x0 /\ -1 < x0 /\
    (x0 < 0 <-> x < 0) /\ (x0 = 0 <-> x = 0) /\ (x0 < 1 <-> x < 1) /\ (x0 = 1 <-> x = 1).
Proof.
  intros x T low Hx HT E. rewrite (izzo_T_F0 ll Hl x Hx) in E. apply Fin_inj in E.
  destruct (guess_sides T low HT) as (x0 & E0 & D & S). exists x0. split; [exact E0|]. split; [exact D|]. rewrite <- E in S.
  destruct (izzo_T_order ll Hl 0 x ltac:(lra) Hx) as [A1 _]. destruct (izzo_T_order ll Hl x 0 Hx ltac:(lra)) as [_ A2].
  destruct (izzo_T_order ll Hl 1 x ltac:(lra) Hx) as [B1 _]. destruct (izzo_T_order ll Hl x 1 Hx ltac:(lra)) as [_ B2]. tauto.
Qed.

(** With revolutions: between -1 and 1, and the low path starts on the right of
    the high path. *)
Theorem C61_izzo_multi : forall T M, 0 < T -> (1 <= M)%Z ->
  exists lo hi, @izzo_initial_guess XR (Fin T) (Fin ll) (Fin (IZR M)) false = Fin lo /\
    @izzo_initial_guess XR (Fin T) (Fin ll) (Fin (IZR M)) true = Fin hi /\ -1 < lo <= hi /\ hi < 1.
Proof.
  intros T M HT HM. assert (HM' : 1 <= IZR M) by (apply IZR_le in HM; exact HM). pose proof PI_RGT_0 as HP.
  assert (F : forall w, 0 < w -> exists x, xdiv (xsub (Fin w) (Fin 1)) (xadd (Fin w) (Fin 1)) = Fin x /\ -1 < x < 1).
  { intros w Hw. cbn [xsub xadd xlift2]. rewrite xdiv_F by lra. exists ((w - 1) / (w + 1)). split; [reflexivity|].
    split; [apply Rmult_lt_reg_r with (w + 1)|apply Rmult_lt_reg_r with (w + 1)]; try lra;
      replace ((w - 1) / (w + 1) * (w + 1)) with (w - 1) by (field; lra); lra. }
  unfold izzo_initial_guess. xunf. cbn [nofZ XR].
  replace (xeqb (Fin (IZR M)) (Fin (IZR 0))) with false by (symmetry; apply xeqb_Ff; lra).
  cbn [xmul xsub xadd xlift2]. rewrite (xdiv_F 2 3) by lra. rewrite !xdiv_F by nra.
  assert (P1 : 0 < (IZR M * PI + PI) / (8 * T)) by (apply Rdiv_lt_0_compat; nra).
  assert (P2 : 0 < 8 * T / (IZR M * PI)) by (apply Rdiv_lt_0_compat; nra).
  rewrite !xpow_F by assumption.
  destruct (F (Rpower ((IZR M * PI + PI) / (8 * T)) (2 / 3))) as (a & Ea & Ha); [apply exp_pos|].
  destruct (F (Rpower (8 * T / (IZR M * PI)) (2 / 3))) as (b & Eb & Hb); [apply exp_pos|].
  cbn [xsub xadd xlift2] in Ea, Eb |- *. rewrite Ea, Eb.
  unfold np_max, np_min. cbn [nltb nleb XR]. destruct (xltb (Fin a) (Fin b)) eqn:L.
  - apply xltb_F in L. exists a, b. repeat split; lra.
  - apply xltb_Ff in L. replace (xleb (Fin b) (Fin a)) with true by (symmetry; now apply xleb_F). exists b, a. repeat split; lra.
Qed.
End Izzo.

(** In terms of the orbit: the starting value is below 1 exactly if the transfer
    is an ellipse, 1 for a parabola and above 1 for a hyperbola. *)
Theorem C61_izzo_conic : forall mu p r1 r2 v1 v2 T ll low,
  0 < mu -> non_collinear r1 r2 -> lambda_facts p r1 r2 ll -> lambert_solution mu r1 v1 r2 v2 T 0 -> 0 < T ->
  (0 < vdot (momentum r1 v1) (vcross r1 r2) <-> 0 < ll) ->
  let s := semiper r1 r2 in
  exists x0, @izzo_initial_guess XR (Fin (sqrt (2 * mu / (s * s * s)) * T)) (Fin ll) (Fin 0) low = Fin x0 /\ -1 < x0 /\
    (x0 < 1 <-> energy mu r1 v1 < 0) /\ (x0 = 1 <-> energy mu r1 v1 = 0).
Proof.
  intros mu p r1 r2 v1 v2 T ll low Hm Hn LF L HT SD s. pose proof (lambda_bounds _ _ _ _ Hn LF) as Hl. destruct (semiper_pos _ _ Hn) as [Hs _]. fold s in Hs.
  destruct (solution_x mu p r1 r2 v1 v2 T 0 ll Hm Hn LF L SD) as (x & Hx & _ & FG & ET). fold s in FG, ET.
  destruct (Y_facts ll Hl x) as [Y0 Y1].
  destruct (xy_lambert mu p r1 r2 ll x _ v1 v2 Hn Hm LF (Rlt_le _ _ Y0) Y1 FG) as [HE _]. fold s in HE.
  assert (HR : 0 < sqrt (2 * mu / (s * s * s))) by (apply sqrt_lt_R0, Rdiv_lt_0_compat; [lra|apply Rmult_lt_0_compat; nra]).
  destruct (C61_izzo_single ll Hl x _ low Hx (Rmult_lt_0_compat _ _ HR HT) ET) as (x0 & E0 & D & _ & _ & S1 & S2).
  exists x0. split; [exact E0|]. split; [exact D|]. rewrite HE.
  assert (Q : 0 < mu / s) by now apply Rdiv_lt_0_compat.
  replace (- mu * (1 - x * x) / s) with (- (mu / s * (1 + x)) * (1 - x)) by (field; lra).
  assert (Q' : 0 < mu / s * (1 + x)) by (apply Rmult_lt_0_compat; lra). set (k := mu / s * (1 + x)) in *. clearbody k.
  split; [rewrite S1|rewrite S2]; split; intros; nra.
Qed.

(** ** gooding1990 *)
Lemma goo_T_izzo q x : -1 < q < 1 -> -1 < x -> goo_T q 0 x = 2 * izzo_T q 0 x.
Proof.
  intros Hq Hx. unfold goo_T. destruct (Req_EM_T x 1) as [-> |N]; [|reflexivity].
  unfold goo_S0, goo_F. replace (1 - 1 * 1) with 0 by ring. rewrite PSeries_0, izzo_T_at_1 by assumption. unfold goo_b, phi_a. cbn [bin pow INR]. field.
Qed.

Lemma atan2_above y x : 0 < y -> 0 < Ratan2 y x < PI.
Proof.
  intros Hy. pose proof PI_RGT_0. unfold Ratan2. pose proof (atan_bound (y / x)) as B.
  destruct (Rlt_dec 0 x) as [P|P]; [|destruct (Rlt_dec x 0) as [N|N]].
  - assert (0 < atan (y / x)) by (rewrite <- atan_0; apply atan_increasing, Rdiv_lt_0_compat; lra). lra.
  - assert (Q : y / x < 0) by (replace (y / x) with (- (y / - x)) by (field; lra); assert (0 < y / - x) by (apply Rdiv_lt_0_compat; lra); lra).
    assert (atan (y / x) < 0) by (rewrite <- atan_0; now apply atan_increasing). destruct (Rle_dec 0 y); lra.
  - destruct (Rlt_dec 0 y); lra.
Qed.

Lemma sqrt_unit a : 0 < a < 1 -> 0 < sqrt a < 1.
Proof. intros H. destruct (sqrt_facts a) as [P E]; [lra|]. split; nra. Qed.

Lemma starter_F t0 td th : 0 < t0 -> 0 < td -> 0 < th < 1 ->
  exists x, @goo_starter XR (Fin t0) (Fin td) (Fin th) (Fin 1) = Fin x /\ -1 < x < 0.
Proof.
  intros H0 Ht Hth. unfold goo_starter, d8rt. xunf. cbn [nofZ XR nlit]. xunf. cbn [xopp xmul xadd xsub xlift2 xlift1].
  rewrite (xdiv_F (- td)) by lra. rewrite (xsqrt_F (2 * (1 - th))) by lra. cbn [xopp xmul xadd xsub xlift2 xlift1].
  set (x1 := - td / (td + 4)). assert (X1 : -1 < x1 < 0).
  { unfold x1. split; apply Rmult_lt_reg_r with (td + 4); try lra; replace (- td / (td + 4) * (td + 4)) with (- td) by (field; lra); lra. }
  set (w := x1 + 17 / 10 * sqrt (2 * (1 - th))). pose proof (sqrt_pos (2 * (1 - th))) as SP.
  assert (X2 : exists x2, (if xltb (Fin w) (Fin 0) then xsub (Fin x1) (xmul (xsqrt (xsqrt (xsqrt (xsqrt (Fin (- w))))))
                            (xadd (Fin x1) (xsqrt (xdiv (Fin td) (Fin (td + 3 / 2 * t0)))))) else Fin x1) = Fin x2 /\ -1 < x2 < 0).
  { destruct (xltb (Fin w) (Fin 0)) eqn:L; [|exists x1; auto]. apply xltb_F in L.
    assert (B : 0 < - w < 1) by (unfold w in *; lra).
    pose proof (sqrt_unit _ B) as B1. pose proof (sqrt_unit _ B1) as B2. pose proof (sqrt_unit _ B2) as B3. pose proof (sqrt_unit _ B3) as B4.
    rewrite !xsqrt_F by lra. set (f := sqrt (sqrt (sqrt (sqrt (- w))))) in *. rewrite xdiv_F by lra.
    assert (C : 0 < td / (td + 3 / 2 * t0) < 1).
    { split; [apply Rdiv_lt_0_compat; lra|]. apply Rmult_lt_reg_r with (td + 3 / 2 * t0); [lra|].
      replace (td / (td + 3 / 2 * t0) * (td + 3 / 2 * t0)) with td by (field; lra). lra. }
    rewrite xsqrt_F by lra. pose proof (sqrt_unit _ C) as C1. set (g := sqrt (td / _)) in *. cbn [xadd xmul xsub xlift2].
    exists (x1 - f * (x1 + g)). split; [reflexivity|]. clearbody f g x1. split; nra. }
  cbn [xopp xmul xadd xsub xlift2 xlift1] in X2. destruct X2 as (x2 & -> & X2).
  rewrite (xdiv_F 4) by lra. assert (V : 0 < 4 / (4 + td) < 1).
  { split; [apply Rdiv_lt_0_compat; lra|]. apply Rmult_lt_reg_r with (4 + td); [lra|]. replace (4 / (4 + td) * (4 + td)) with 4 by (field; lra). lra. }
  pose proof (sqrt_unit _ V) as V1. rewrite xsqrt_F by lra. set (v := 4 / (4 + td)) in *. set (sv := sqrt v) in *. cbn [xadd xmul xsub xlift2].
  eexists. split; [reflexivity|]. clearbody v sv.
  assert (K : 0 < 1 / 2 * v - 3 / 100 * x2 * sv < 1) by nra. set (k := 1 / 2 * v - 3 / 100 * x2 * sv) in *. clearbody k.
  assert (0 < 1 + 1 * x2 * k < 1) by nra. set (z := 1 + 1 * x2 * k) in *. clearbody z. split; nra.
Qed.

(** Let [x] be the parameter whose time of flight is the requested one.  The
    iterations of [xlamb] (gooding.py:358-427) for less than one revolution start from a
    value beyond -1 with the sign of [x], and from 0 exactly if [x = 0]. *)
Theorem C61_gooding_single : forall clock q x tin maxiter atol rtol full,
  -1 < q < 1 -> -1 < x -> 0 < tin ->
  (let '(t, _, _, _) := @tlamb XR 0 (Fin q) (Fin (1 - q * q)) (Fin x) 0 in t) = Fin tin ->
  exists x0, @xlamb XR clock 0 (Fin q) (Fin (1 - q * q)) (Fin tin) maxiter atol rtol full =
      goo_finish clock 0 1 (Fin q) (Fin (1 - q * q)) (Fin x0) (Fin 0) (Fin tin) maxiter atol rtol full /\
    -1 < x0 /\ (x0 < 0 <-> x < 0) /\ (x0 = 0 <-> x = 0).
Proof.
  intros clock q x tin maxiter atol rtol full Hq Hx Ht E.
  rewrite tlamb_F in E by (auto; lia). apply Fin_inj in E. rewrite goo_T_izzo in E by assumption.
  destruct (izzo_T_order q Hq 0 x ltac:(lra) Hx) as [A1 _]. destruct (izzo_T_order q Hq x 0 Hx ltac:(lra)) as [_ A2].
  destruct (izzo_T_knots q Hq) as [K1 K2].
  unfold xlamb. cbn [Z.eqb]. change (@nofZ XR 0) with (Fin 0). rewrite tlamb_F by (try lia; try lra; auto). rewrite goo_T_izzo by (auto; lra).
  set (t0 := 2 * izzo_T q 0 0) in *. xunf. cbn [nofZ XR natan2 xlift2 xmul xsub xopp xlift1 npi].
  assert (TH : 0 < Ratan2 (1 - q * q) (2 * q) < PI) by (apply atan2_above; nra). rewrite (xdiv_F _ PI) by lra.
  assert (TH' : 0 < Ratan2 (1 - q * q) (2 * q) / PI < 1).
  { split; [apply Rdiv_lt_0_compat; lra|]. apply Rmult_lt_reg_r with PI; [lra|].
    replace (Ratan2 (1 - q * q) (2 * q) / PI * PI) with (Ratan2 (1 - q * q) (2 * q)) by (field; lra). lra. }
  set (th := _ / PI) in *. clearbody th.
  destruct (xleb (Fin (tin - t0)) (Fin 0)) eqn:L; [apply xleb_F in L|apply xleb_Ff in L].
  - unfold xopp. cbn [xlift1 xmul xlift2]. rewrite xdiv_F by lra. eexists. split; [reflexivity|].
    assert (Q : t0 * (tin - t0) / (- (4) * tin) = t0 / (4 * tin) * (t0 - tin)) by (field; lra).
    rewrite Q. assert (0 < t0 / (4 * tin)) by (apply Rdiv_lt_0_compat; unfold t0; lra). set (k := t0 / (4 * tin)) in *. clearbody k.
    split; [nra|]. unfold t0 in *. split; split; intros; nra.
  - destruct (starter_F t0 (tin - t0) th) as (x0 & -> & X0); try lra; [unfold t0; lra|].
    exists x0. split; [reflexivity|]. unfold t0 in *. split; [lra|]. split; split; intros; try lra. 
Qed.


(** ** der2011 *)

(** For less than one revolution and away from the parabola, the search is the elliptic
    one exactly if the wanted parameter [x] is below 1, and it starts from -1/2
    exactly if [x < 0], else from 1/2. *)
Theorem C61_der_single : forall ev sg x tau low maxiter atol rtol,
  -1 < sg < 1 -> -1 < x -> @izzo_tof XR (Fin x) (Fin 0) (Fin sg) (Fin 0) = Fin tau ->
  @np_isclose XR (Fin tau) (@der_parabolic_time XR (Fin sg)) rtol atol = false ->
  @der_find_path_parameter XR ev (Fin sg) (Fin tau) (@der_parabolic_time XR (Fin sg)) 0 low maxiter atol rtol =
    if Rlt_dec x 1
    then der_solve_elliptic ev (Fin sg) (Fin tau) 0 (Fin (if Rlt_dec x 0 then - (1 / 2) else 1 / 2)) maxiter atol rtol
    else der_solve_hyperbolic ev (Fin sg) (Fin tau) (Fin (1 / 2)) maxiter atol rtol.
Proof.
  intros ev sg x tau low maxiter atol rtol Hs Hx E NC. rewrite (izzo_T_F0 sg Hs x Hx) in E. apply Fin_inj in E.
  destruct (izzo_T_order sg Hs 0 x ltac:(lra) Hx) as [A1 _]. destruct (izzo_T_order sg Hs 1 x ltac:(lra) Hx) as [B1 _]. rewrite E in *.
  destruct (izzo_T_knots sg Hs) as [K1 K2].
  assert (EP : @der_parabolic_time XR (Fin sg) = Fin (izzo_T sg 0 1)).
  { unfold der_parabolic_time. xunf. cbn [nofZ XR xmul xsub xlift2]. rewrite xdiv_F by lra. apply (f_equal Fin). now rewrite izzo_T_at_1. }
  assert (EM : @der_minimum_energy_time XR (Fin sg) 0 = Fin (izzo_T sg 0 0)).
  { unfold der_minimum_energy_time. rewrite der_clamp_id by lra. xunf. cbn [nofZ XR xmul xsub xadd xlift2 npi nacos].
    rewrite xacos_F by lra. cbn [xadd xlift2]. 
    replace (@pymax XR (Fin 0) (Fin (1 - sg * sg))) with (Fin (1 - sg * sg)).
    - rewrite xsqrt_F by nra. cbn [xmul xadd xlift2]. apply (f_equal Fin). rewrite izzo_T_at_0 by assumption. ring.
    - rewrite pymax_F. unfold Rmax. destruct (Rle_dec 0 (1 - sg * sg)); [reflexivity|nra]. }
  unfold der_find_path_parameter. rewrite NC, EP, EM. cbn [Z.eqb Z.ltb Z.compare andb orb]. xunf.
  destruct (xltb (Fin (izzo_T sg 0 1)) (Fin tau)) eqn:L1; [apply xltb_F in L1|apply xltb_Ff in L1].
  - destruct (Rlt_dec x 1) as [_|N]; [|exfalso; tauto]. cbn [andb].
    destruct (xltb (Fin (izzo_T sg 0 0)) (Fin tau)) eqn:L0; [apply xltb_F in L0|apply xltb_Ff in L0].
    + destruct (Rlt_dec x 0) as [_|N]; [reflexivity|exfalso; tauto].
    + destruct (Rlt_dec x 0) as [N|_]; [apply A1 in N; lra|reflexivity].
  - destruct (Rlt_dec x 1) as [N|_]; [apply B1 in N; lra|]. cbn [andb]. reflexivity.
Qed.

(** ** arora2013 *)

(** The interpolation of [_get_x] (arora.py:438-470) between the times [F0] and
    [F1] at the ends and [Fi] in between: exact at the three knots, inside the
    interval for times inside, and strictly monotone. *)
Theorem C61_arora_interpolation : forall F0 F1 Fi Z,
  0 < Z < 1 -> (F1 < Fi < F0 \/ F0 < Fi < F1) ->
  (forall t, Rmin F0 F1 <= t <= Rmax F0 F1 -> exists x, @aro_x XR (Fin F0) (Fin F1) (Fin Fi) (Fin t) (Fin Z) (fun u => u) = Fin x /\ 0 <= x <= 1) /\
  (forall t t' x x', Rmin F0 F1 <= t <= Rmax F0 F1 -> Rmin F0 F1 <= t' <= Rmax F0 F1 ->
     @aro_x XR (Fin F0) (Fin F1) (Fin Fi) (Fin t) (Fin Z) (fun u => u) = Fin x ->
     @aro_x XR (Fin F0) (Fin F1) (Fin Fi) (Fin t') (Fin Z) (fun u => u) = Fin x' -> (x < x' <-> Rabs (t - F0) < Rabs (t' - F0))) /\
  @aro_x XR (Fin F0) (Fin F1) (Fin Fi) (Fin F0) (Fin Z) (fun u => u) = Fin 0 /\
  @aro_x XR (Fin F0) (Fin F1) (Fin Fi) (Fin F1) (Fin Z) (fun u => u) = Fin 1 /\
  @aro_x XR (Fin F0) (Fin F1) (Fin Fi) (Fin Fi) (Fin Z) (fun u => u) = Fin Z.
Proof.
  intros F0 F1 Fi Z HZ HF.
  set (a := F0 - F1). set (v := (F0 - Fi) / a).
  assert (Ha : a <> 0) by (unfold a; destruct HF; lra).
  assert (Hv : 0 < v < 1).
  { unfold v, a. destruct HF as [HF|HF].
    - split; [apply Rdiv_lt_0_compat; lra|]. apply Rmult_lt_reg_r with (F0 - F1); [lra|]. replace ((F0 - Fi) / (F0 - F1) * (F0 - F1)) with (F0 - Fi) by (field; lra). lra.
    - replace ((F0 - Fi) / (F0 - F1)) with ((Fi - F0) / (F1 - F0)) by (field; lra).
      split; [apply Rdiv_lt_0_compat; lra|]. apply Rmult_lt_reg_r with (F1 - F0); [lra|]. replace ((Fi - F0) / (F1 - F0) * (F1 - F0)) with (Fi - F0) by (field; lra). lra. }
  assert (EF : Fi = F0 - a * v) by (unfold v; field; exact Ha). assert (EF1 : F1 = F0 - a) by (unfold a; ring).
  set (g := fun u => u * (Z - v) + v * (1 - Z)).
  assert (G : forall u, 0 <= u <= 1 -> 0 < g u).
  { intros u Hu. unfold g. replace (u * (Z - v) + v * (1 - Z)) with (u * (Z * (1 - v)) + (1 - u) * (v * (1 - Z))) by ring.
    assert (P1 : 0 < Z * (1 - v)) by (apply Rmult_lt_0_compat; lra). assert (P2 : 0 < v * (1 - Z)) by (apply Rmult_lt_0_compat; lra).
    set (A := Z * (1 - v)) in *. set (B := v * (1 - Z)) in *. clearbody A B. clear - Hu P1 P2. nra. }
  assert (V : forall u, 0 <= u <= 1 -> @aro_x XR (Fin F0) (Fin F1) (Fin Fi) (Fin (F0 - a * u)) (Fin Z) (fun u => u) = Fin (Z * u * (1 - v) / g u)).
  { intros u Hu. specialize (G u Hu). clearbody v a. subst F1 Fi. unfold aro_x. xunf. cbn [xmul xsub xadd xlift2].
    assert (ED : (F0 - a * v - (F0 - a * u)) * (F0 - a - F0) * Z + (F0 - (F0 - a * v)) * (F0 - a - (F0 - a * u)) = - (a * a) * g u) by (unfold g; ring).
    rewrite ED. assert (a * a <> 0) by nra. rewrite xdiv_F by nra. apply (f_equal Fin). field. lra. }
  assert (U : forall t, Rmin F0 F1 <= t <= Rmax F0 F1 -> exists u, 0 <= u <= 1 /\ t = F0 - a * u).
  { intros t Ht. exists ((F0 - t) / a). split; [|field; exact Ha]. unfold a. destruct HF as [HF|HF].
    - rewrite Rmin_right, Rmax_left in Ht by lra. split; [apply Rmult_le_reg_r with (F0 - F1)|apply Rmult_le_reg_r with (F0 - F1)]; try lra;
      replace ((F0 - t) / (F0 - F1) * (F0 - F1)) with (F0 - t) by (field; lra); lra.
    - rewrite Rmin_left, Rmax_right in Ht by lra. replace ((F0 - t) / (F0 - F1)) with ((t - F0) / (F1 - F0)) by (field; lra).
      split; [apply Rmult_le_reg_r with (F1 - F0)|apply Rmult_le_reg_r with (F1 - F0)]; try lra;
      replace ((t - F0) / (F1 - F0) * (F1 - F0)) with (t - F0) by (field; lra); lra. }
  split; [|split; [|split; [|split]]].
  - intros t Ht. destruct (U t Ht) as (u & Hu & ->). exists (Z * u * (1 - v) / g u). split; [now apply V|]. specialize (G u Hu).
    assert (0 <= Z * u * (1 - v)) by (apply Rmult_le_pos; nra).
    split; [apply Rmult_le_reg_r with (g u)|apply Rmult_le_reg_r with (g u)]; try lra;
      replace (Z * u * (1 - v) / g u * g u) with (Z * u * (1 - v)) by (field; lra); [lra|].
    rewrite Rmult_1_l. assert (0 <= v * (1 - u) * (1 - Z)) by (apply Rmult_le_pos; nra). unfold g. lra.
  - intros t t' x x' Ht Ht' E E'. destruct (U t Ht) as (u & Hu & ->). destruct (U t' Ht') as (u' & Hu' & ->).
    rewrite V in E, E' by assumption. apply Fin_inj in E, E'. subst x x'. pose proof (G u Hu) as G1. pose proof (G u' Hu') as G2.
    replace (F0 - a * u - F0) with (- (a * u)) by ring. replace (F0 - a * u' - F0) with (- (a * u')) by ring.
    rewrite !Rabs_Ropp, !Rabs_mult, (Rabs_right u), (Rabs_right u') by lra. pose proof (Rabs_pos_lt a Ha) as Pa.
    assert (DX : Z * u' * (1 - v) / g u' - Z * u * (1 - v) / g u = (u' - u) * (Z * (1 - v) * (v * (1 - Z)) / (g u * g u')))
      by (unfold g in *; field; lra).
    assert (K : 0 < Z * (1 - v) * (v * (1 - Z)) / (g u * g u')) 
      by (apply Rdiv_lt_0_compat; [|exact (Rmult_lt_0_compat _ _ G1 G2)]; apply Rmult_lt_0_compat; apply Rmult_lt_0_compat; lra).
    set (k := _ / (g u * g u')) in *. clearbody k. set (X := Z * u * (1 - v) / g u) in *. set (X' := Z * u' * (1 - v) / g u') in *. clearbody X X'.
    split; intros; nra.
  - replace (Fin F0) with (Fin (F0 - a * 0)) at 2 by (f_equal; ring). rewrite V by lra. apply (f_equal Fin). unfold g. field. nra.
  - replace (Fin F1) with (Fin (F0 - a * 1)) at 2 by (f_equal; unfold a; ring). rewrite V by lra. apply (f_equal Fin). unfold g. field. nra.
  - replace (Fin Fi) with (Fin (F0 - a * v)) at 2 by (f_equal; rewrite EF; ring). rewrite V by lra. apply (f_equal Fin). unfold g. field.
    assert (0 < v * (1 - v)) by nra. lra.
Qed.

Section Hyperbolic.
Variables (tau S W tof_p Fi : R) (M : Z).
Hypothesis Htau : 0 < tau.
Hypothesis Htau2 : tau * sqrt 2 < 1.
Let ki : R := (sqrt 2 + 1 / tau) / 2.
Hypothesis HW : @aro_W XR (Fin ki) M = Ok (Fin W).
Hypothesis HFi : @aro_TOF XR (Fin ki) (Fin tau) (Fin S) (Fin W) = Fin Fi.
Hypothesis HF : 0 < Fi < tof_p.

Lemma hyperbolic_F tof : exists f : R -> xr,
  (forall t, f t = @aro_x XR (Fin tof_p) (Fin 0) (Fin Fi) (Fin t) (Fin (1 / sqrt 2)) (fun u => u)) /\
  @aro_guess_hyperbolic XR true (Fin tof) (Fin tof_p) (Fin tau) (Fin S) M =
    Ok (xadd (Fin (sqrt 2)) (xmul (Fin (1 / tau - sqrt 2)) (xmul (f tof) (f tof)))).
Proof.
  eexists. split; [intros t; reflexivity|]. unfold aro_guess_hyperbolic. cbv beta iota zeta.
  destruct (sqrt_facts 2) as [W1 W2]; [lra|].
  change (@nsqrt XR (@nofZ XR 2)) with (xsqrt (Fin 2)). rewrite xsqrt_F by lra. xunf. cbn [nofZ XR].
  rewrite (xdiv_F 1 tau) by lra. rewrite (xdiv_F 1 (sqrt 2)) by lra. cbn [xadd xlift2]. rewrite (xdiv_F (sqrt 2 + 1 / tau) 2) by lra.
  fold ki. rewrite HW. cbn [bind]. rewrite HFi. reflexivity.
Qed.

(** The hyperbolic start for [0 < tau] (arora.py:155-170): between the parabola
    [k = sqrt 2] and the limit [k = 1 / tau] of vanishing time, exact at both and
    at the time [Fi] of the middle knot [ki]. *)
Theorem C61_arora_hyperbolic :
  (forall tof, 0 <= tof <= tof_p -> exists k,
     @aro_guess_hyperbolic XR true (Fin tof) (Fin tof_p) (Fin tau) (Fin S) M = Ok (Fin k) /\ sqrt 2 <= k <= 1 / tau) /\
  @aro_guess_hyperbolic XR true (Fin tof_p) (Fin tof_p) (Fin tau) (Fin S) M = Ok (Fin (sqrt 2)) /\
  @aro_guess_hyperbolic XR true (Fin Fi) (Fin tof_p) (Fin tau) (Fin S) M = Ok (Fin ki) /\
  @aro_guess_hyperbolic XR true (Fin 0) (Fin tof_p) (Fin tau) (Fin S) M = Ok (Fin (1 / tau)).
Proof.
  destruct (sqrt_facts 2) as [W1 W2]; [lra|]. assert (W3 : 1 < sqrt 2 < 3 / 2) by nra.
  assert (Z1 : 0 < 1 / sqrt 2 < 1).
  { split; [apply Rdiv_lt_0_compat; lra|]. apply Rmult_lt_reg_r with (sqrt 2); [lra|]. replace (1 / sqrt 2 * sqrt 2) with 1 by (field; lra). lra. }
  assert (T1 : sqrt 2 < 1 / tau).
  { apply Rmult_lt_reg_r with tau; [lra|]. replace (1 / tau * tau) with 1 by (field; lra). lra. }
  destruct (C61_arora_interpolation tof_p 0 Fi (1 / sqrt 2) Z1 (or_introl HF)) as (I1 & _ & I2 & I3 & I4).
  rewrite Rmin_right, Rmax_left in I1 by lra.
  split; [|split; [|split]].
  - intros tof Ht. destruct (hyperbolic_F tof) as (f & Ef & ->). destruct (I1 tof Ht) as (x & Ex & Hx). rewrite Ef, Ex. cbn [xadd xmul xlift2].
    eexists. split; [reflexivity|]. assert (0 <= x * x <= 1) by nra. set (y := x * x) in *. clearbody y. set (d := 1 / tau) in *. clearbody d. split; nra.
  - destruct (hyperbolic_F tof_p) as (f & Ef & ->). rewrite Ef, I2. cbn [xadd xmul xlift2]. do 2 f_equal. ring.
  - destruct (hyperbolic_F Fi) as (f & Ef & ->). rewrite Ef, I4. cbn [xadd xmul xlift2]. do 2 f_equal. unfold ki.
    replace (1 / sqrt 2 * (1 / sqrt 2)) with (1 / 2) by (replace (1 / 2) with (1 / (sqrt 2 * sqrt 2)) by (rewrite W2; reflexivity); field; lra). field. lra.
  - destruct (hyperbolic_F 0) as (f & Ef & ->). rewrite Ef, I3. cbn [xadd xmul xlift2]. do 2 f_equal. ring.
Qed.
End Hyperbolic.

(** The elliptic start (arora.py:208-228), given the times at its knots: between
    0 and the parabola for times between the two, between -1 and 0 for longer
    ones, exact at the knots [-1], [-1/2], [0], [1/sqrt 2], [sqrt 2]. *)
Theorem C61_arora_elliptic : forall tau S tof_p t_1 t_h t_0 t_s,
  @aro_TOF XR (Fin (- (1))) (Fin tau) (Fin S) (@nlit XR 5712388981 1000000000) = Fin t_1 ->
  @aro_TOF XR (Fin (- (1) / 2)) (Fin tau) (Fin S) (@nlit XR 1954946607 1000000000) = Fin t_h ->
  @aro_TOF XR (Fin 0) (Fin tau) (Fin S) (@nlit XR 1110720735 1000000000) = Fin t_0 ->
  @aro_TOF XR (Fin (1 / sqrt 2)) (Fin tau) (Fin S) (@nlit XR 6686397730 10000000000) = Fin t_s ->
  tof_p < t_s < t_0 -> t_0 < t_h < t_1 ->
  let guess t := @aro_guess_elliptic XR (Fin t) (Fin tof_p) (Fin tau) (Fin S) in
  (forall t, tof_p <= t <= t_0 -> exists k, guess t = Fin k /\ 0 <= k <= sqrt 2) /\
  (forall t, t_0 < t <= t_1 -> exists k, guess t = Fin k /\ -1 <= k <= 0) /\
  guess tof_p = Fin (sqrt 2) /\ guess t_s = Fin (1 / sqrt 2) /\ guess t_0 = Fin 0 /\ guess t_h = Fin (- (1 / 2)) /\ guess t_1 = Fin (-1).
Proof.
  intros tau S tof_p t_1 t_h t_0 t_s E1 Eh E0 Es H1 H2 guess.
  destruct (sqrt_facts 2) as [W1 W2]; [lra|].
  assert (X : forall t, guess t =
    if Rle_dec t t_0 then xadd (Fin 0) (xmul (Fin (sqrt 2 - 0)) (@aro_x XR (Fin t_0) (Fin tof_p) (Fin t_s) (Fin t) (Fin (1 / 2)) (fun u => u)))
    else if Rle_dec t t_1 then xadd (Fin 0) (xmul (Fin (- (1) - 0)) (@aro_x XR (Fin t_0) (Fin t_1) (Fin t_h) (Fin t) (Fin (1 / 2)) (fun u => u)))
    else guess t).
  { intros t. unfold guess, aro_guess_elliptic. cbv zeta. 
    change (@nsqrt XR (@nofZ XR 2)) with (xsqrt (Fin 2)). rewrite xsqrt_F by lra. xunf. cbn [nofZ XR xopp xlift1].
    unfold xopp. cbn [xlift1]. rewrite (xdiv_F (- (1)) 2), (xdiv_F 1 (sqrt 2)), (xdiv_F 1 2) by lra. rewrite E1, Eh, E0, Es. cbn [xsub xlift2].
    destruct (Rle_dec t t_0) as [L|L].
    - replace (xleb (Fin t) (Fin t_0)) with true by (symmetry; now apply xleb_F). reflexivity.
    - replace (xleb (Fin t) (Fin t_0)) with false by (symmetry; apply xleb_Ff; lra).
      destruct (Rle_dec t t_1) as [L'|L']; [|reflexivity].
      replace (xleb (Fin t) (Fin t_1)) with true by (symmetry; now apply xleb_F).
      replace (xleb (Fin t_0) (Fin t)) with true by (symmetry; apply xleb_F; lra). reflexivity. }
  destruct (C61_arora_interpolation t_0 tof_p t_s (1 / 2) ltac:(lra) (or_introl H1)) as (I1 & _ & I2 & I3 & I4).
  rewrite Rmin_right, Rmax_left in I1 by lra.
  destruct (C61_arora_interpolation t_0 t_1 t_h (1 / 2) ltac:(lra) (or_intror H2)) as (J1 & _ & J2 & J3 & J4).
  rewrite Rmin_left, Rmax_right in J1 by lra.
  split; [|split; [|split; [|split; [|split; [|split]]]]].
  - intros t Ht. rewrite X. destruct (Rle_dec t t_0); [|lra]. destruct (I1 t Ht) as (x & Ex & Hx). rewrite Ex. cbn [xadd xmul xlift2].
    eexists. split; [reflexivity|]. split; nra.
  - intros t Ht. rewrite X. destruct (Rle_dec t t_0); [lra|]. destruct (Rle_dec t t_1); [|lra].
    destruct (J1 t) as (x & Ex & Hx); [lra|]. rewrite Ex. cbn [xadd xmul xlift2]. eexists. split; [reflexivity|]. split; lra.
  - rewrite X. destruct (Rle_dec tof_p t_0); [|lra]. rewrite I3. cbn [xadd xmul xlift2]. f_equal. ring.
  - rewrite X. destruct (Rle_dec t_s t_0); [|lra]. rewrite I4. cbn [xadd xmul xlift2]. f_equal.
    transitivity (sqrt 2 * sqrt 2 / 2 / sqrt 2); [field; lra|rewrite W2; field; lra].
  - rewrite X. destruct (Rle_dec t_0 t_0); [|lra]. rewrite I2. cbn [xadd xmul xlift2]. f_equal. ring.
  - rewrite X. destruct (Rle_dec t_h t_0); [lra|]. destruct (Rle_dec t_h t_1); [|lra]. rewrite J4. cbn [xadd xmul xlift2]. f_equal. field.
  - rewrite X. destruct (Rle_dec t_1 t_0); [lra|]. destruct (Rle_dec t_1 t_1); [|lra]. rewrite J3. cbn [xadd xmul xlift2]. f_equal. ring.
Qed.

(** ** Concrete cases *)
Lemma izzo_T_pos ll x : -1 < ll < 1 -> -1 < x -> x < 1 -> 0 < izzo_T ll 0 x.
Proof. intros Hl H1 H2. pose proof (izzo_T_decreasing ll Hl x 1 H1 H2). destruct (izzo_T_knots ll Hl). lra. Qed.

Example C61_izzo_case : exists T, 0 < T /\ @izzo_tof XR (Fin (- (1 / 2))) (Fin 0) (Fin (1 / 2)) (Fin 0) = Fin T /\
  exists x0, @izzo_initial_guess XR (Fin T) (Fin (1 / 2)) (Fin 0) true = Fin x0 /\ -1 < x0 < 0.
Proof.
  exists (izzo_T (1 / 2) 0 (- (1 / 2))). assert (P : 0 < izzo_T (1 / 2) 0 (- (1 / 2))) by (apply izzo_T_pos; lra).
  assert (E : @izzo_tof XR (Fin (- (1 / 2))) (Fin 0) (Fin (1 / 2)) (Fin 0) = Fin (izzo_T (1 / 2) 0 (- (1 / 2)))) by (apply izzo_T_F0; lra).
  split; [exact P|]. split; [exact E|]. destruct (C61_izzo_single (1 / 2) ltac:(lra) (- (1 / 2)) _ true ltac:(lra) P E) as (x0 & E0 & D & S & _).
  exists x0. split; [exact E0|]. split; [exact D|apply S; lra].
Qed.

Example C61_multi_case : exists lo hi, @izzo_initial_guess XR (Fin 10) (Fin (1 / 2)) (Fin (IZR 1)) false = Fin lo /\
    @izzo_initial_guess XR (Fin 10) (Fin (1 / 2)) (Fin (IZR 1)) true = Fin hi /\ -1 < lo <= hi /\ hi < 1.
Proof. apply C61_izzo_multi; [lra|lia]. Qed.

Example C61_conic_case : exists v1 v2 T ll, lambda_facts true ex_r1 ex_r2 ll /\ lambert_solution 1 ex_r1 v1 ex_r2 v2 T 0 /\ 0 < T /\
  (0 < vdot (momentum ex_r1 v1) (vcross ex_r1 ex_r2) <-> 0 < ll) /\ energy 1 ex_r1 v1 < 0.
Proof.
  assert (Hz : vz (vcross ex_r1 ex_r2) <> 0) by (unfold vcross, ex_r1, ex_r2; cbn [vx vy vz]; lra). pose proof (vz_non_collinear _ _ Hz) as Hn.
  destruct (lambda_exists true ex_r1 ex_r2 Hn) as (ll & LF & LS). pose proof (lambda_bounds _ _ _ _ Hn LF) as Hl.
  destruct (semiper_pos _ _ Hn) as [S0 _]. set (s := semiper ex_r1 ex_r2) in *.
  pose proof (x_pair_fg 1 ex_r1 ex_r2 true ll Hz LF 0) as FG.
  destruct (x_pair 1 ex_r1 ex_r2 ll 0) as [v1 v2]. cbn [fst snd] in FG. unfold xA, xV in FG. fold s in FG.
  destruct (Y_facts ll Hl 0) as [Y0 Y1].
  destruct (xy_lambert 1 true ex_r1 ex_r2 ll 0 _ v1 v2 Hn Rlt_0_1 LF (Rlt_le _ _ Y0) Y1 FG) as [HE HT]. fold s in HE, HT.
  destruct (HT 0%Z 0 ltac:(lia) ltac:(lra) ltac:(auto)) as (T & L & ET).
  destruct (fg_sense _ _ _ _ _ _ _ Rlt_0_1 Hn FG) as [_ SA].
  assert (HR : 0 < sqrt (2 * 1 / (s * s * s))) by (apply sqrt_lt_R0, Rdiv_lt_0_compat; [lra|apply Rmult_lt_0_compat; nra]).
  exists v1, v2, T, ll. split; [exact LF|]. split; [exact L|]. split; [|split].
  - pose proof (izzo_T_F0 ll Hl 0 ltac:(lra)) as E. unfold izzo_tof in E. rewrite izzo_y_F in E by assumption.
    change (Fin 0) with (Fin (IZR 0)) in E at 3. rewrite ET in E. apply Fin_inj in E. pose proof (izzo_T_pos ll 0 Hl ltac:(lra) ltac:(lra)). nra.
  - rewrite SA. destruct (sqrt_facts 2) as [W1 _]; [lra|]. assert (0 < sqrt 2 * s) by now apply Rmult_lt_0_compat. split; intros; nra.
  - rewrite HE. replace (-1 * (1 - 0 * 0) / s) with (- / s) by (field; lra). assert (0 < / s) by now apply Rinv_0_lt_compat. lra.
Qed.

Example C61_gooding_case : exists tin, 0 < tin /\
  (let '(t, _, _, _) := @tlamb XR 0 (Fin (1 / 2)) (Fin (1 - 1 / 2 * (1 / 2))) (Fin (- (1 / 2))) 0 in t) = Fin tin.
Proof.
  exists (2 * izzo_T (1 / 2) 0 (- (1 / 2))). split; [pose proof (izzo_T_pos (1 / 2) (- (1 / 2)) ltac:(lra) ltac:(lra) ltac:(lra)); lra|].
  rewrite tlamb_F by (try lra; try lia; auto). now rewrite goo_T_izzo by lra.
Qed.

Example C61_der_case : exists tau, @izzo_tof XR (Fin (- (1 / 2))) (Fin 0) (Fin (1 / 2)) (Fin 0) = Fin tau /\
  @np_isclose XR (Fin tau) (@der_parabolic_time XR (Fin (1 / 2))) (Fin 0) (Fin 0) = false.
Proof.
  exists (izzo_T (1 / 2) 0 (- (1 / 2))). split; [apply izzo_T_F0; lra|].
  unfold np_isclose, der_parabolic_time. xunf. cbn [nofZ XR xmul xsub xlift2]. rewrite xdiv_F by lra.
  replace (2 * (1 - 1 / 2 * (1 / 2) * (1 / 2)) / 3) with (izzo_T (1 / 2) 0 1) by (rewrite izzo_T_at_1 by lra; field).
  cbn [xsub xlift2]. unfold xabs. cbn [xlift1 xmul xadd xlift2]. apply xleb_Ff. rewrite Rmult_0_l, Rplus_0_l. apply Rabs_pos_lt.
  pose proof (izzo_T_decreasing (1 / 2) ltac:(lra) (- (1 / 2)) 1 ltac:(lra) ltac:(lra)). lra.
Qed.

Example C61_interpolation_case : @aro_x XR (Fin 3) (Fin 1) (Fin 2) (Fin 2) (Fin (1 / 2)) (fun u => u) = Fin (1 / 2).
Proof. destruct (C61_arora_interpolation 3 1 2 (1 / 2)) as (_ & _ & _ & _ & E); [lra|left; lra|exact E]. Qed.

Lemma Wh_pos k : sqrt 2 < k -> 0 < Wh k.
Proof.
  intros H. destruct sqrt2_facts as [W1 W2]. unfold Wh, Gh.
  assert (K : 1 < k / sqrt 2) by (apply Rmult_lt_reg_r with (sqrt 2); [lra|]; replace (k / sqrt 2 * sqrt 2) with k by (field; lra); lra).
  assert (P : 0 < arcosh (k / sqrt 2)).
  { unfold arcosh. rewrite <- ln_1. apply ln_increasing; [lra|]. pose proof (sqrt_pos ((k / sqrt 2) ^ 2 - 1)). lra. }
  set (s := arcosh _) in *. clearbody s. apply Rdiv_lt_0_compat; [|now apply sinh3_pos].
  pose proof (sinh_ge s ltac:(lra)).
  destruct (MVT_gen (fun t => sinh t - t) 0 (2 * s) (fun t => cosh t - 1)) as (xi & Hxi & E).
  - intros t _. apply rd_minus; [apply is_derive_sinh|apply rd_id].
  - intros t _. eapply rd_continuous. apply rd_minus; [apply is_derive_sinh|apply rd_id].
  - rewrite Rmin_left, Rmax_right in Hxi by lra. rewrite sinh_0 in E.
    destruct (MVT_gen (fun t => sinh t - t) s (2 * s) (fun t => cosh t - 1)) as (xj & Hxj & E2).
    + intros t _. apply rd_minus; [apply is_derive_sinh|apply rd_id].
    + intros t _. eapply rd_continuous. apply rd_minus; [apply is_derive_sinh|apply rd_id].
    + rewrite Rmin_left, Rmax_right in Hxj by lra.
      assert (C1 : 1 < cosh xj) by (rewrite <- cosh_0; apply cosh_increasing; lra). nra.
Qed.

Example C61_hyperbolic_case : exists W Fi, @aro_W XR (Fin ((sqrt 2 + 1 / (1 / 2)) / 2)) 0 = Ok (Fin W) /\
  @aro_TOF XR (Fin ((sqrt 2 + 1 / (1 / 2)) / 2)) (Fin (1 / 2)) (Fin 1) (Fin W) = Fin Fi /\ 0 < Fi < Fi + 1 /\ 1 / 2 * sqrt 2 < 1.
Proof.
  destruct sqrt2_facts as [W1 W2]. assert (W3 : 14 / 10 < sqrt 2 < 15 / 10) by nra.
  replace (1 / (1 / 2)) with 2 by field. set (k := (sqrt 2 + 2) / 2). assert (K : sqrt 2 + 1 / 50 < k < 2) by (unfold k; lra).
  exists (aroW 0 k), (aroT 0 (1 / 2) 1 k). split; [apply aro_W_F; [lia|unfold aro_domain; split; [lra|split; [lia|intros _; lra]]]|].
  split; [apply aro_TOF_F; lra|]. split; [|lra]. split; [|lra].
  assert (EW : aroW 0 k = Wh k).
  { unfold aroW, piece. destruct (Z_lt_dec 0 0); [lia|]. destruct (Rlt_dec k (sqrt 2 - 1 / 50)); [lra|]. destruct (Rlt_dec (sqrt 2 + 1 / 50) k); [reflexivity|lra]. }
  pose proof (Wh_pos k ltac:(lra)) as P. unfold aroT. rewrite EW. destruct (sqrt_facts (1 - k * (1 / 2))) as [Q _]; [lra|].
  apply Rmult_lt_0_compat; [apply Rmult_lt_0_compat; lra|]. assert (0 < (1 - k * (1 / 2)) * Wh k) by (apply Rmult_lt_0_compat; lra). lra.
Qed.

Example C61_elliptic_case : exists t_1 t_h t_0 t_s,
  @aro_TOF XR (Fin (- (1))) (Fin 0) (Fin 1) (@nlit XR 5712388981 1000000000) = Fin t_1 /\
  @aro_TOF XR (Fin (- (1) / 2)) (Fin 0) (Fin 1) (@nlit XR 1954946607 1000000000) = Fin t_h /\
  @aro_TOF XR (Fin 0) (Fin 0) (Fin 1) (@nlit XR 1110720735 1000000000) = Fin t_0 /\
  @aro_TOF XR (Fin (1 / sqrt 2)) (Fin 0) (Fin 1) (@nlit XR 6686397730 10000000000) = Fin t_s /\
  1 / 2 < t_s < t_0 /\ t_0 < t_h < t_1.
Proof.
  assert (E : forall k w, @aro_TOF XR (Fin k) (Fin 0) (Fin 1) (Fin w) = Fin w).
  { intros k w. unfold aro_TOF. xunf. cbn [nofZ XR xmul xsub xlift2]. replace (1 - k * 0) with 1 by ring. rewrite xsqrt_F by lra.
    rewrite sqrt_1. cbn [xmul xadd xlift2]. f_equal. ring. }
  cbn [nlit XR]. do 4 eexists. rewrite !E. repeat (split; [reflexivity|]). lra.
Qed.

Print Assumptions C61_izzo_single.
Print Assumptions C61_izzo_multi.
Print Assumptions C61_izzo_conic.
Print Assumptions C61_gooding_single.
Print Assumptions C61_der_single.
Print Assumptions C61_arora_interpolation.
Print Assumptions C61_arora_hyperbolic.
Print Assumptions C61_arora_elliptic.
