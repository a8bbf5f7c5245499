(** * jiang2016: the transfer time as a function of the semi-major axis. *)
From Coq Require Import Reals ZArith Bool Lra Lia Psatz String List.
From Verif Require Import Num XReal XRealLemmas MApi ApiFacts Loops MScipy MLinalg MAssertions MAngles MJiang
  Spec SpecLambert VecFacts VecXR UniversalKepler LambertUV LambertRev AnglesXR StumpffXR CallXR Godal GodalIzzo GodalXR
  DelatorreXR LambertZ StumpffSmooth ZMono KeplerUnique LambertExist OrbitXR GodalPan JiangXR BracketXR JiangRun.
Local Open Scope R_scope.

(** ** The angles *)
Section Angles.
Variables (w s d : R).
Hypothesis Hw : w = 1 \/ w = -1.
Hypothesis Hd : 0 < d.
Hypothesis Hds : d < s.

Lemma frac_decr x a b : 0 < x -> 0 < a -> a < b -> sqrt (x / (2 * b)) < sqrt (x / (2 * a)).
Proof.
  intros Hx Ha Hb. apply sqrt_lt_1.
  - left. apply Rdiv_lt_0_compat; lra.
  - left. apply Rdiv_lt_0_compat; lra.
  - apply Rmult_lt_compat_l; [assumption|]. apply Rinv_lt_contravar; [|lra]. apply Rmult_lt_0_compat; lra.
Qed.

(** The angle of the smaller root grows more slowly. *)
Lemma asin_gap a b : s <= 2 * a -> a < b ->
  asin (sqrt (s / (2 * b))) - asin (sqrt (d / (2 * b))) < asin (sqrt (s / (2 * a))) - asin (sqrt (d / (2 * a))).
Proof.
  intros Ha Hb. assert (Hb' : s <= 2 * b) by lra.
  destruct (lag_sqrts s d a Hd Hds Ha) as [[X1 X2] X3]. destruct (lag_sqrts s d b Hd Hds Hb') as [[Y1 Y2] Y3].
  destruct (lag_angles s d a Hd Hds Ha) as [[U1 U2] U3]. destruct (lag_angles s d b Hd Hds Hb') as [[V1 V2] V3].
  pose proof (frac_decr s a b ltac:(lra) ltac:(lra) Hb) as D1. pose proof (frac_decr d a b ltac:(lra) ltac:(lra) Hb) as D2.
  assert (E : forall x, 0 < x -> s <= 2 * x -> sqrt (s / (2 * x)) = sqrt (s / d) * sqrt (d / (2 * x))).
  { intros x Hx _. rewrite <- sqrt_mult.
    - apply f_equal. field. lra.
    - left. apply Rdiv_lt_0_compat; lra.
    - left. apply Rdiv_lt_0_compat; lra. }
  pose proof (E a ltac:(lra) Ha) as Ea. pose proof (E b ltac:(lra) Hb') as Eb. clear E.
  assert (K : 1 < sqrt (s / d)).
  { rewrite <- sqrt_1. apply sqrt_lt_1; [lra| |].
    - left. apply Rdiv_lt_0_compat; lra.
    - apply Rmult_lt_reg_r with d; [assumption|]. replace (s / d * d) with s by (field; lra). lra. }
  set (k := sqrt (s / d)) in *. clearbody k.
  set (sA := sqrt (s / (2 * a))) in *. set (sB := sqrt (d / (2 * a))) in *.
  set (sA' := sqrt (s / (2 * b))) in *. set (sB' := sqrt (d / (2 * b))) in *. clearbody sA sB sA' sB'.
  assert (SA : sin (asin sA) = sA) by (apply sin_asin; lra).
  assert (SB : sin (asin sB) = sB) by (apply sin_asin; lra).
  assert (SA' : sin (asin sA') = sA') by (apply sin_asin; lra).
  assert (SB' : sin (asin sB') = sB') by (apply sin_asin; lra).
  assert (I1 : asin sA' < asin sA) by (apply asin_increasing; lra).
  assert (I2 : asin sB' < asin sB) by (apply asin_increasing; lra).
  set (A := asin sA) in *. set (B := asin sB) in *. set (A' := asin sA') in *. set (B' := asin sB') in *. clearbody A B A' B'.
  pose proof PI_RGT_0 as HP.
  assert (F1 : sin A - sin A' = 2 * cos ((A + A') / 2) * sin ((A - A') / 2)).
  { rewrite form4. replace ((A - A') / 2) with ((A - A') / 2) by reflexivity. reflexivity. }
  assert (F2 : sin B - sin B' = 2 * cos ((B + B') / 2) * sin ((B - B') / 2)) by apply form4.
  assert (F3 : sin A - sin A' = k * (sin B - sin B')) by (rewrite SA, SA', SB, SB', Ea, Eb; ring).
  assert (C1 : 0 < cos ((A + A') / 2)) by (apply cos_gt_0; lra).
  assert (C2 : cos ((A + A') / 2) < cos ((B + B') / 2)) by (apply cos_decreasing_1; lra).
  assert (S2 : 0 < sin ((B - B') / 2)) by (apply sin_gt_0; lra).
  assert (S : sin ((B - B') / 2) < sin ((A - A') / 2)).
  { rewrite F1, F2 in F3. set (x := cos ((A + A') / 2)) in *. set (y := cos ((B + B') / 2)) in *.
    set (p := sin ((A - A') / 2)) in *. set (q := sin ((B - B') / 2)) in *. clearbody x y p q.
    assert (x * p = k * y * q) by lra.
    assert (x * q < k * y * q). { apply Rmult_lt_compat_r; [assumption|]. nra. }
    apply Rmult_lt_reg_l with x; [assumption|]. lra. }
  assert ((B - B') / 2 < (A - A') / 2) by (apply sin_increasing_0; lra). lra.
Qed.

(** [psi = A - B] falls with the semi-major axis on the short branch and rises
    on the long one. *)
Lemma psi_mono a b : s <= 2 * a -> a < b ->
  lag_A s b false - lag_B w d b < lag_A s a false - lag_B w d a /\
  lag_A s a true - lag_B w d a < lag_A s b true - lag_B w d b.
Proof.
  intros Ha Hb. pose proof (asin_gap a b Ha Hb) as G.
  destruct (lag_sqrts s d a Hd Hds Ha) as [[X1 X2] X3]. destruct (lag_sqrts s d b Hd Hds ltac:(lra)) as [[Y1 Y2] Y3].
  assert (I1 : asin (sqrt (s / (2 * b))) < asin (sqrt (s / (2 * a)))).
  { apply asin_increasing; try lra. apply frac_decr; lra. }
  assert (I2 : asin (sqrt (d / (2 * b))) < asin (sqrt (d / (2 * a)))).
  { apply asin_increasing; try lra. apply frac_decr; lra. }
  unfold lag_A, lag_B. destruct Hw as [-> | ->]; lra.
Qed.
Lemma psi_branches a : s <= 2 * a -> lag_A s a false - lag_B w d a <= lag_A s a true - lag_B w d a.
Proof. intros Ha. destruct (lag_angles s d a Hd Hds Ha) as [_ U]. unfold lag_A. lra. Qed.
Lemma psi_branches_lt a : s < 2 * a -> lag_A s a false - lag_B w d a < lag_A s a true - lag_B w d a.
Proof.
  intros Ha. destruct (psi_mono (s / 2) a ltac:(lra) ltac:(lra)) as [P1 P2].
  pose proof (psi_branches (s / 2) ltac:(lra)). lra.
Qed.

(** Both ends of the range of [psi] are reached. *)
Lemma asin_small t : 0 < t < PI / 2 -> exists a0, s <= 2 * a0 /\ forall a, a0 <= a -> asin (sqrt (s / (2 * a))) < t.
Proof.
  intros Ht. pose proof PI_RGT_0 as HP. assert (S0 : 0 < sin t) by (apply sin_gt_0; lra).
  assert (S1 : sin t < 1). { rewrite <- sin_PI2. apply sin_increasing_1; lra. }
  assert (Q : 0 < sin t * sin t) by nra.
  assert (Q' : 0 < s / (sin t * sin t)) by (apply Rdiv_lt_0_compat; lra).
  exists (s + s / (sin t * sin t)). split; [lra|]. intros a Ha.
  assert (Hs2 : s <= 2 * a) by lra. destruct (lag_sqrts s d a Hd Hds Hs2) as [[X1 X2] X3].
  replace t with (asin (sin t)) by (apply asin_sin; lra). apply asin_increasing; try lra.
  rewrite <- (sqrt_square (sin t)) by lra. apply sqrt_lt_1; try lra.
  - left. apply Rdiv_lt_0_compat; lra.
  - apply Rmult_lt_reg_r with (2 * a); [lra|]. replace (s / (2 * a) * (2 * a)) with s by (field; lra).
    assert (s / (sin t * sin t) * (sin t * sin t) = s) by (field; lra). nra.
Qed.
Lemma psi_onto t : 0 < t < PI -> exists a0, s <= 2 * a0 /\ forall a, a0 <= a ->
  lag_A s a false - lag_B w d a < t /\ t < lag_A s a true - lag_B w d a.
Proof.
  intros Ht. destruct (asin_small (Rmin (t / 2) ((PI - t) / 2))) as (a0 & H0 & H1).
  { split; [apply Rmin_glb_lt; lra|]. eapply Rle_lt_trans; [apply Rmin_l|lra]. }
  exists a0. split; [exact H0|]. intros a Ha. specialize (H1 a Ha).
  destruct (lag_angles s d a Hd Hds ltac:(lra)) as [[U1 U2] U3].
  pose proof (Rmin_l (t / 2) ((PI - t) / 2)). pose proof (Rmin_r (t / 2) ((PI - t) / 2)).
  unfold lag_A, lag_B. destruct Hw as [-> | ->]; lra.
Qed.
Lemma psih_onto t : 0 < t -> exists b0, 0 < b0 /\ forall b, b0 <= b -> lagh_A s b - lagh_B w d b < t.
Proof.
  intros Ht. assert (S0 : 0 < sinh (t / 2)) by (apply sinh_pos; lra).
  assert (Q : 0 < sinh (t / 2) * sinh (t / 2)) by nra.
  exists (s / (sinh (t / 2) * sinh (t / 2))). split; [apply Rdiv_lt_0_compat; lra|]. intros b Hb.
  assert (B0 : 0 < b) by (assert (0 < s / (sinh (t / 2) * sinh (t / 2))) by (apply Rdiv_lt_0_compat; lra); lra).
  destruct (lagh_angles s d b Hd Hds B0) as [U1 U2].
  assert (A1 : arcsinh (sqrt (s / (2 * b))) < t / 2).
  { rewrite <- (arcsinh_sinh (t / 2)). apply arcsinh_lt. rewrite <- (sqrt_square (sinh (t / 2))) by lra. apply sqrt_lt_1; try lra.
    - left. apply Rdiv_lt_0_compat; lra.
    - apply Rmult_lt_reg_r with (2 * b); [lra|]. replace (s / (2 * b) * (2 * b)) with s by (field; lra).
      assert (s / (sinh (t / 2) * sinh (t / 2)) * (sinh (t / 2) * sinh (t / 2)) = s) by (field; lra). nra. }
  unfold lagh_A, lagh_B. destruct Hw as [-> | ->]; lra.
Qed.
End Angles.

(** ** The transfer time *)
Section Time.
Variables (p : bool) (mu : R) (r1 r2 : rvec) (th : R).
Hypothesis Hm : 0 < mu.
Hypothesis Hn : non_collinear r1 r2.
Hypothesis F : angle_facts p r1 r2 th.
Let c := chord r1 r2.
Let s := semiper r1 r2.
Let P := vnorm r1 + vnorm r2.
Let Q := sqrt 2 * halfA r1 r2 th.
Definition tau (z : R) : R := sqrt 2 / sqrt mu * Gz P Q z.
Definition e_time (a : R) (long : bool) : R := lag_time mu a (lag_A s a long) (lag_B (way th) (s - c) a).
Definition h_time (b : R) : R := lagh_time mu b (lagh_A s b) (lagh_B (way th) (s - c) b).
Definition p_time : R := par_time mu (sqrt s) (way th * sqrt (s - c)).
Definition e_psi (a : R) (long : bool) : R := lag_A s a long - lag_B (way th) (s - c) a.
Definition h_psi (b : R) : R := lagh_A s b - lagh_B (way th) (s - c) b.

Lemma geo : 0 < c /\ 0 < s - c /\ s - c < s /\ 0 < s.
Proof. destruct (geo_pos r1 r2 Hn) as (N1 & N2 & C1 & C2 & _). fold c in C1, C2. fold s in C2. repeat split; lra. Qed.
Lemma QP : Rabs Q < P.
Proof.
  destruct geo as (G1 & G2 & G3 & G4). pose proof (geo_A2 p r1 r2 th Hn F) as A2. fold c s in A2.
  pose proof (geo_P r1 r2) as EP. fold c s P in EP.
  destruct (sqrt_facts 2) as [W1 W2]; [lra|].
  assert (Q2 : Q * Q = 4 * s * (s - c)).
  { rewrite <- A2. unfold Q. transitivity ((sqrt 2 * sqrt 2) * (halfA r1 r2 th * halfA r1 r2 th)); [ring|]. rewrite W2. ring. }
  assert (PP : P * P - Q * Q = c * c) by (rewrite Q2, EP; ring).
  clearbody Q P. apply Rabs_def1; nra.
Qed.
Lemma tau_mono x y : x < y -> y < PI * PI -> 0 < P - Q * C0 x -> 0 < P - Q * C0 y -> tau x < tau y.
Proof.
  intros. unfold tau. destruct (sqrt_facts mu Hm) as [M1 _]. destruct (sqrt_facts 2) as [W1 _]; [lra|].
  apply Rmult_lt_compat_l; [now apply Rdiv_lt_0_compat|]. apply Gz_increasing; try assumption. apply QP.
Qed.
Lemma tau_onto t : 0 < t -> exists z, z < PI * PI /\ 0 < P - Q * C0 z /\ tau z = t.
Proof.
  intros Ht. destruct (sqrt_facts mu Hm) as [M1 _]. destruct (sqrt_facts 2) as [W1 _]; [lra|].
  destruct (Gz_onto P Q (t * (sqrt mu / sqrt 2))) as (z & H1 & H2 & E).
  - unfold Q. intros Z. pose proof (geo_A2 p r1 r2 th Hn F) as A2. destruct geo as (G1 & G2 & G3 & G4). fold c s in A2.
    apply Rmult_integral in Z. destruct Z as [Z|Z]; [lra|]. rewrite Z in A2. nra.
  - apply QP.
  - apply Rmult_lt_0_compat; [assumption|]. now apply Rdiv_lt_0_compat.
  - exists z. split; [assumption|]. split; [assumption|]. unfold tau. rewrite E. field. lra.
Qed.
Lemma e_tau a long : s <= 2 * a ->
  e_time a long = tau (e_psi a long * e_psi a long) /\ 0 < P - Q * C0 (e_psi a long * e_psi a long) /\ 0 < e_psi a long < PI.
Proof.
  intros Ha. destruct geo as (G1 & G2 & G3 & G4).
  pose proof (ell_Q p r1 r2 th Hn F a long Ha) as HQ. cbv zeta in HQ. fold c s in HQ. fold Q in HQ.
  pose proof (lag_V (way th) s (s - c) a long (way_cases th) G2 G3 Ha) as EV. 
  pose proof (lag_psi (way th) s (s - c) a long (way_cases th) G2 G3 Ha) as Hp.
  pose proof (lag_tz (way th) s (s - c) a long (way_cases th) G2 G3 Ha mu (halfA r1 r2 th) Hm HQ) as T.
  unfold e_time, e_psi. set (A := lag_A s a long) in *. set (B := lag_B (way th) (s - c) a) in *. clearbody A B.
  assert (E : 2 * a * (sin (A - B) * sin (A - B)) = P - Q * C0 ((A - B) * (A - B))).
  { rewrite C0_ell by lra. rewrite HQ, <- EV. pose proof (geo_P r1 r2) as EP. fold c s P in EP. rewrite EP. ring. }
  assert (V0 : 0 < P - Q * C0 ((A - B) * (A - B))).
  { rewrite <- E. pose proof (sin_gt_0 _ (proj1 Hp) (proj2 Hp)). apply Rmult_lt_0_compat; nra. }
  split; [|split; assumption]. rewrite <- T, E. unfold Q. rewrite tz_Gz; [reflexivity|assumption|]. fold Q. lra.
Qed.
Lemma h_tau b : 0 < b ->
  h_time b = tau (- (h_psi b * h_psi b)) /\ 0 < P - Q * C0 (- (h_psi b * h_psi b)) /\ 0 < h_psi b.
Proof.
  intros Hb. destruct geo as (G1 & G2 & G3 & G4).
  pose proof (hyp_Q p r1 r2 th Hn F b Hb) as HQ. cbv zeta in HQ. fold c s in HQ. fold Q in HQ.
  pose proof (lagh_V (way th) s (s - c) b (way_cases th) G2 G3 Hb) as EV. 
  pose proof (lagh_psi (way th) s (s - c) b (way_cases th) G2 G3 Hb) as Hp.
  pose proof (lagh_tz (way th) s (s - c) b (way_cases th) G2 G3 Hb mu (halfA r1 r2 th) Hm HQ) as T.
  unfold h_time, h_psi. set (A := lagh_A s b) in *. set (B := lagh_B (way th) (s - c) b) in *. clearbody A B.
  assert (E : 2 * b * (sinh (A - B) * sinh (A - B)) = P - Q * C0 (- ((A - B) * (A - B)))).
  { rewrite C0_hyp by lra. rewrite HQ, <- EV. pose proof (geo_P r1 r2) as EP. fold c s P in EP. rewrite EP. ring. }
  assert (V0 : 0 < P - Q * C0 (- ((A - B) * (A - B)))).
  { rewrite <- E. pose proof (sinh_pos _ Hp). apply Rmult_lt_0_compat; nra. }
  split; [|split; assumption]. rewrite <- T, E. unfold Q. rewrite tz_Gz; [reflexivity|assumption|]. fold Q. lra.
Qed.
Lemma p_tau : p_time = tau 0 /\ 0 < P - Q * C0 0.
Proof.
  destruct (par_facts p r1 r2 th Hn F) as (X & Y & D & S & HQ). fold c s in X, Y, D, S, HQ. fold Q in HQ.
  destruct at_0 as (E0 & _). destruct (sqrt_facts _ Hm) as [M1 M2]. destruct (sqrt_facts 2) as [W1 W2]; [lra|].
  unfold p_time. set (x := sqrt s) in *. set (y := way th * sqrt (s - c)) in *.
  assert (E : (x - y) * (x - y) = P - Q * C0 0).
  { rewrite E0, HQ. pose proof (geo_P r1 r2) as EP. fold c s P in EP. rewrite EP, <- Y. rewrite <- X at 1. ring. }
  assert (V0 : 0 < P - Q * C0 0) by (rewrite <- E; nra).
  split; [|assumption]. unfold tau.
  transitivity (tz mu (halfA r1 r2 th) ((x - y) * (x - y)) 0 0).
  - rewrite tz_par by (assumption || nra). rewrite sqrt_square by lra. unfold par_time.
    assert (EH : halfA r1 r2 th = sqrt 2 * (x * y)).
    { apply Rmult_eq_reg_l with (sqrt 2); [|lra]. fold Q. rewrite HQ. transitivity ((sqrt 2 * sqrt 2) * (x * y)); [rewrite W2; ring|ring]. }
    rewrite EH. field. lra.
  - rewrite E. unfold Q. rewrite tz_Gz; [reflexivity|assumption|]. fold Q. lra.
Qed.

(** Monotonicity on both branches. *)
Lemma sq_lt x y : 0 < x -> x < y -> x * x < y * y. Proof. nra. Qed.
Lemma e_time_lt a long b long' : s <= 2 * a -> s <= 2 * b -> e_psi a long < e_psi b long' -> e_time a long < e_time b long'.
Proof.
  intros Ha Hb H. destruct (e_tau a long Ha) as (-> & V1 & B1). destruct (e_tau b long' Hb) as (-> & V2 & B2).
  apply tau_mono; try assumption; nra.
Qed.
Lemma e_time_short a b : s <= 2 * a -> a < b -> e_time b false < e_time a false.
Proof.
  intros Ha Hb. destruct geo as (G1 & G2 & G3 & G4). apply e_time_lt; try lra.
  apply (psi_mono (way th) s (s - c) (way_cases th) G2 G3 a b Ha Hb).
Qed.
Lemma e_time_long a b : s <= 2 * a -> a < b -> e_time a true < e_time b true.
Proof.
  intros Ha Hb. destruct geo as (G1 & G2 & G3 & G4). apply e_time_lt; try lra.
  apply (psi_mono (way th) s (s - c) (way_cases th) G2 G3 a b Ha Hb).
Qed.
Lemma e_time_branches a : s < 2 * a -> e_time a false < e_time a true.
Proof.
  intros Ha. destruct geo as (G1 & G2 & G3 & G4). apply e_time_lt; try lra.
  apply (psi_branches_lt (way th) s (s - c) (way_cases th) G2 G3 a Ha).
Qed.
Lemma e_time_min : e_time (s / 2) false = e_time (s / 2) true.
Proof.
  destruct geo as (G1 & G2 & G3 & G4). unfold e_time. replace (lag_A s (s / 2) true) with (lag_A s (s / 2) false); [reflexivity|].
  unfold lag_A. replace (s / (2 * (s / 2))) with 1 by (field; lra). rewrite sqrt_1, asin_1. field.
Qed.
Lemma e_time_par a long : s <= 2 * a -> p_time < e_time a long.
Proof.
  intros Ha. destruct (e_tau a long Ha) as (-> & V1 & B1). destruct p_tau as (-> & V0). apply tau_mono; try assumption; nra.
Qed.
Lemma p_time_pos : 0 < p_time.
Proof.
  destruct p_tau as (_ & V0). destruct at_0 as (E0 & _).
  destruct (fg_exists p mu r1 r2 th Hn F _ V0) as (v1 & v2 & FG).
  destruct (par_facts p r1 r2 th Hn F) as (X & Y & D & S & HQ). fold c s in X, Y, D, S, HQ. fold Q in HQ.
  destruct (par_solution p mu r1 r2 th Hm Hn F v1 v2) as [[[L _] _] _]; [|exact L]. fold c s.
  set (x := sqrt s) in *. set (y := way th * sqrt (s - c)) in *.
  replace ((x - y) * (x - y)) with (P - Q * C0 0); [exact FG|].
  rewrite E0, HQ. pose proof (geo_P r1 r2) as EP. fold c s P in EP. rewrite EP, <- Y. rewrite <- X at 1. ring.
Qed.
Lemma e_time_onto t : p_time < t -> exists a0, s <= 2 * a0 /\ forall a, a0 <= a -> e_time a false < t /\ t < e_time a true.
Proof.
  intros Ht. pose proof p_time_pos. destruct (tau_onto t ltac:(lra)) as (z & Z1 & Z2 & Z3).
  destruct geo as (G1 & G2 & G3 & G4). destruct p_tau as (E0 & V0).
  assert (Z0 : 0 < z).
  { destruct (Rtotal_order 0 z) as [L|[L|L]]; [assumption|exfalso; subst z; lra|exfalso].
    assert (tau z < tau 0) by (apply tau_mono; try assumption; pose proof PI_RGT_0; nra). lra. }
  destruct (sqrt_facts z Z0) as [R1 R2]. pose proof PI_RGT_0 as HPI0.
  assert (R3 : sqrt z < PI) by nra.
  destruct (psi_onto (way th) s (s - c) (way_cases th) G2 G3 (sqrt z) (conj R1 R3)) as (a0 & HA0 & HA1).
  exists a0. split; [assumption|]. intros a Ha. destruct (HA1 a Ha) as [P1 P2]. fold (e_psi a false) in P1. fold (e_psi a true) in P2.
  destruct (e_tau a false ltac:(lra)) as (-> & V1 & B1). destruct (e_tau a true ltac:(lra)) as (-> & V2 & B2).
  rewrite <- Z3. split; apply tau_mono; try assumption; nra.
Qed.
Lemma h_time_onto t : 0 < t -> t < p_time -> exists b0, 0 < b0 /\ forall b, b0 <= b -> t < h_time b.
Proof.
  intros Ht0 Ht. destruct (tau_onto t ltac:(lra)) as (z & Z1 & Z2 & Z3).
  destruct geo as (G1 & G2 & G3 & G4). destruct p_tau as (E0 & V0).
  assert (Z0 : z < 0).
  { destruct (Rtotal_order 0 z) as [L|[L|L]]; [exfalso|exfalso; subst z; lra|assumption].
    assert (tau 0 < tau z) by (apply tau_mono; try assumption). lra. }
  destruct (sqrt_facts (- z) ltac:(lra)) as [R1 R2].
  destruct (psih_onto (way th) s (s - c) (way_cases th) G2 G3 (sqrt (- z)) R1) as (b0 & H0 & H1).
  exists b0. split; [assumption|]. intros b Hb. pose proof (H1 b Hb) as P1. fold (h_psi b) in P1.
  destruct (h_tau b ltac:(lra)) as (-> & V1 & B1). rewrite <- Z3. pose proof PI_RGT_0. apply tau_mono; try assumption; nra.
Qed.
End Time.
