(** * The intervals thorne2004 hands to its root finder: C28. *)
From Coq Require Import Reals ZArith Bool Lra Lia Psatz String List.
From Coquelicot Require Import Coquelicot.
From Verif Require Import Num XReal XRealLemmas MApi ApiFacts MLinalg MAngles MIzzo MThorne MScipy RDerive
  Spec SpecLambert VecFacts VecXR AnglesXR UniversalKepler LambertUV LambertRev StumpffXR Loops CallXR Godal GodalXR GodalIzzo
  DelatorreXR LambertZ IzzoXR StumpffSmooth ZMono KeplerUnique LambertExist OrbitXR GodalPan JiangXR BracketXR JiangRun JiangMono JiangLoop
  PropertiesMotion PropertiesDerivIzzo ThorneXR ThorneRun PropertiesDerBracket.
Local Open Scope R_scope.

(** ** The time of a hyperbola grows with its size *)
Lemma arcsinh_gap p q t u : 0 < q -> q < p -> 0 <= t -> t < u -> arcsinh (p * t) - arcsinh (q * t) < arcsinh (p * u) - arcsinh (q * u).
Proof.
  intros Hq Hp Ht Hu.
  destruct (MVT_cor2 (fun x => arcsinh (p * x) - arcsinh (q * x)) (fun x => p * / sqrt (1 + p * x * (p * x)) - q * / sqrt (1 + q * x * (q * x))) t u Hu) as (x & E & Hx).
  { intros x _. apply is_derive_Reals.
    assert (D : forall k, is_derive (fun x => arcsinh (k * x)) x (k * / sqrt (1 + k * x * (k * x)))).
    { intros k. assert (L : is_derive (fun x : R => k * x) x k) by (auto_derive; [exact I|ring]). exact (is_derive_comp arcsinh (fun x => k * x) x _ _ (arcsinh_derive (k * x)) L). }
    exact (is_derive_minus _ _ _ _ _ (D p) (D q)). }
  assert (S : forall k, 0 < sqrt (1 + k * x * (k * x)) /\ sqrt (1 + k * x * (k * x)) * sqrt (1 + k * x * (k * x)) = 1 + k * x * (k * x)).
  { intros k. apply sqrt_facts. assert (0 <= k * x * (k * x)) by apply Rle_0_sqr. lra. }
  destruct (S p) as [P1 P2]. destruct (S q) as [Q1 Q2]. set (a := sqrt (1 + p * x * (p * x))) in *. set (b := sqrt (1 + q * x * (q * x))) in *. clearbody a b.
  assert (G : 0 < p * / a - q * / b).
  { assert (L : q * a < p * b). { apply Rnot_le_lt. intros N. assert (0 < p * b) by nra. assert ((p * b) * (p * b) <= (q * a) * (q * a)) by nra. 
      assert (E1 : (p * b) * (p * b) = p * p * (1 + q * x * (q * x))) by (rewrite <- Q2; ring). assert (E2 : (q * a) * (q * a) = q * q * (1 + p * x * (p * x))) by (rewrite <- P2; ring). nra. }
    replace (p * / a - q * / b) with ((p * b - q * a) / (a * b)) by (field; lra). apply Rdiv_lt_0_compat; nra. }
  cbv beta in E. nra.
Qed.

Section Times.
Variables (p : bool) (mu : R) (r1 r2 : rvec) (th : R).
Hypothesis Hm : 0 < mu.
Hypothesis Hn : non_collinear r1 r2.
Hypothesis F : angle_facts p r1 r2 th.
Let c := chord r1 r2.
Let s := semiper r1 r2.

Lemma h_psi_decreasing a b : 0 < a -> a < b -> h_psi r1 r2 th b < h_psi r1 r2 th a.
Proof.
  intros Ha Hb. destruct (geo r1 r2 Hn) as (G1 & G2 & G3 & G4). unfold h_psi, lagh_A, lagh_B. fold c s. fold c in G1, G2, G3, G4. fold s in G1, G2, G3, G4.
  assert (Q : forall x y, 0 < x -> 0 < y -> sqrt (x / (2 * y)) = sqrt x * sqrt (/ (2 * y))) by (intros x y Hx Hy; unfold Rdiv; apply sqrt_mult_alt; lra).
  rewrite !Q by lra. set (pp := sqrt s). set (qq := sqrt (s - c)). assert (PQ : 0 < qq < pp) by (unfold pp, qq; split; [apply sqrt_lt_R0; lra|apply sqrt_lt_1; lra]).
  set (ta := sqrt (/ (2 * a))). set (tb := sqrt (/ (2 * b))).
  assert (T : 0 < tb < ta). { unfold ta, tb. assert (0 < / (2 * b)) by (apply Rinv_0_lt_compat; lra). assert (/ (2 * b) < / (2 * a)) by (apply Rinv_lt_contravar; nra). split; [now apply sqrt_lt_R0|apply sqrt_lt_1; lra]. }
  clearbody pp qq ta tb. pose proof (arcsinh_gap pp qq tb ta ltac:(lra) ltac:(lra) ltac:(lra) ltac:(lra)) as G.
  assert (M : forall k, 0 < k -> arcsinh (k * tb) < arcsinh (k * ta)) by (intros k Hk; apply arcsinh_lt; nra).
  pose proof (M pp ltac:(lra)). pose proof (M qq ltac:(lra)). destruct (way_cases th) as [-> | ->]; lra.
Qed.
Lemma h_time_increasing a b : 0 < a -> a < b -> h_time mu r1 r2 th a < h_time mu r1 r2 th b.
Proof.
  intros Ha Hb. destruct (h_tau p mu r1 r2 th Hm Hn F a Ha) as (-> & V1 & B1). destruct (h_tau p mu r1 r2 th Hm Hn F b ltac:(lra)) as (-> & V2 & B2).
  pose proof (h_psi_decreasing a b Ha Hb). pose proof PI_RGT_0. apply (tau_mono p); try assumption; nra.
Qed.
End Times.

Lemma expand_err fuel cond x e : (forall k, exists b, cond (Fin (x * 2 ^ k)) = Ok b) -> @tho_expand XR fuel cond (Fin x) = Err e -> e = OutOfFuel.
Proof.
  intros C H. unfold tho_expand in H. destruct (while_true _ _ _) as [b|b|e'] eqn:E; try congruence.
  assert (e' = e) as -> by congruence. clear H. revert x C E. induction fuel as [|n IH]; intros x C; cbn [while_true]; [congruence|].
  destruct (C O) as (b & Eb). replace (x * 2 ^ 0) with x in Eb by (cbn [pow]; ring). rewrite Eb. destruct b; [|discriminate].
  apply (IH (x * 2)). intros k. destruct (C (S k)) as (b & E). exists b. rewrite <- E. do 2 f_equal. cbn [pow]. ring.
Qed.

Lemma change_vals f lo hi a b (P : Prop) :
  f (Fin lo) = Ok (Fin a) -> f (Fin hi) = Ok (Fin b) -> (P -> a * b <= 0) -> (~ P -> 0 < a * b) -> {P} + {~ P} -> (sign_change f lo hi <-> P).
Proof.
  intros E1 E2 Y N D. unfold sign_change. split.
  - intros (a' & b' & F1 & F2 & S). assert (a' = a) by congruence. assert (b' = b) by congruence. subst a' b'. destruct D as [D|D]; [exact D|]. specialize (N D). lra.
  - intros L. exists a, b. auto.
Qed.

(** ** C28: the ellipses of thorne2004 (thorne.py:176-257).  Let [x] be a
    semi-major axis whose Lagrange time on the short ([long = false]) or long
    branch is the requested one, and let the time not be close to the parabolic
    one.  Unless the doubling of the upper end runs out of fuel, the root finder
    is called with the residual of that very branch, the interval starts at
    [s/2 (1 + 2^-52)] and holds [x], and the residual changes sign on it, exactly
    if [x] is not below that start. *)
Theorem C28_thorne_elliptic : forall ev p mu r1 r2 th tof (long : bool) x maxiter atol rtol,
  0 < mu -> non_collinear r1 r2 -> angle_facts p r1 r2 th ->
  let s := semiper r1 r2 in let c := chord r1 r2 in let m := - way th in
  let branch := if long then ThB else ThA in
  let tp := @tho_parabolic_tof XR (Fin mu) (Fin s) (Fin c) (Fin m) in
  let tm := @tho_minimum_energy_tof XR (Fin mu) (Fin s) (Fin c) (Fin m) in
  let axis := @tho_semimajor_axis XR ev (Fin mu) (Fin s) (Fin c) (Fin tof) tp tm (Fin m) maxiter (Fin atol) (Fin rtol) in
  s < 2 * x -> @tho_lagrange_tof XR (Fin mu) (Fin s) (Fin c) (Fin x) (Fin m) branch = Ok (Fin tof) ->
  @np_isclose XR (Fin tof) tp (Fin rtol) (Fin atol) = false ->
  axis = Err OutOfFuel \/
  exists f lo hi, lo = s / 2 * (1 + / 2 ^ 52) /\ s <= hi /\ x <= hi /\
    (forall z, f z = bind (tho_lagrange_tof (Fin mu) (Fin s) (Fin c) z (Fin m) branch) (fun t => Ok (@nsub XR t (Fin tof)))) /\
    axis = bind (e_brentq ev f (Fin lo) (Fin hi) (Fin atol) (Fin rtol) maxiter) (fun r => let '(a, k) := r in Ok (a, branch, k)) /\
    (sign_change f lo hi <-> lo <= x).
Proof.
  intros ev p mu r1 r2 th tof long x maxiter atol rtol Hm Hn F s c m branch tp tm axis Hx E NC.
  pose proof (way_cases th) as Hw. destruct (geo r1 r2 Hn) as (G1 & G2 & G3 & G4). change (chord r1 r2) with c in G1, G2, G3, G4. change (semiper r1 r2) with s in G1, G2, G3, G4.
  assert (EF : forall a, s <= 2 * a -> tho_lagrange_tof (Fin mu) (Fin s) (Fin c) (Fin a) (Fin m) branch = Ok (Fin (e_time mu r1 r2 th a long))) by (intros a Ha; exact (tho_elliptic_F mu r1 r2 (way th) Hm Hn Hw a long Ha)).
  rewrite EF in E by lra. assert (Et : e_time mu r1 r2 th x long = tof) by congruence. clear E.
  assert (Ep : tp = Fin (p_time mu r1 r2 th)) by exact (tho_parabolic_F mu r1 r2 (way th) Hm Hn Hw).
  assert (Em : tm = Fin (e_time mu r1 r2 th (s / 2) false)) by exact (tho_minimum_F mu r1 r2 (way th) Hm Hn Hw).
  pose proof (e_time_par p mu r1 r2 th Hm Hn F x long ltac:(fold s; lra)) as Hp.
  assert (B : (if @nltb XR (Fin tof) tm then ThA else ThB) = branch).
  { rewrite Em. change (@nltb XR (Fin tof) (Fin (e_time mu r1 r2 th (s / 2) false))) with (xltb (Fin tof) (Fin (e_time mu r1 r2 th (s / 2) false))). unfold branch. destruct long.
    - pose proof (e_time_long p mu r1 r2 th Hm Hn F (s / 2) x ltac:(fold s; lra) ltac:(lra)). pose proof (e_time_min mu r1 r2 th Hn) as M. fold s in M. rewrite (proj2 (xltb_Ff _ _)) by lra. reflexivity.
    - pose proof (e_time_short p mu r1 r2 th Hm Hn F (s / 2) x ltac:(fold s; lra) ltac:(lra)). rewrite (proj2 (xltb_F _ _)) by lra. reflexivity. }
  assert (Es : @ndiv XR (Fin s) (nofZ 2) = Fin (s / 2)) by (xunf; apply xdiv_F; lra).
  unfold axis, tho_semimajor_axis. rewrite NC. replace (@nltb XR (Fin tof) tp) with false by (symmetry; rewrite Ep; apply xltb_Ff; lra).
  rewrite B, Es. change (@nmul XR (Fin (s / 2)) (@nadd XR (nofZ 1) eps_machine)) with (Fin (s / 2 * (1 + 1 / 4503599627370496))).
  assert (E52 : / 2 ^ 52 = 1 / 4503599627370496) by lra. rewrite E52.
  destruct (tho_expand_upper _ _ _ _ _ _ _ _) as [hi|e] eqn:EX.
  - right. assert (exists n, hi = Fin (s * 2 ^ n) /\ (if long then tof <= e_time mu r1 r2 th (s * 2 ^ n) true else e_time mu r1 r2 th (s * 2 ^ n) false <= tof)) as (n & -> & Hh).
    { unfold tho_expand_upper, branch in EX. destruct long; apply expand_inv in EX; destruct EX as (n & -> & C); exists n; (split; [reflexivity|]); pose proof (pow2_ge n);
        (assert (S2 : s <= 2 * (s * 2 ^ n)) by nra); specialize (EF _ S2); unfold branch in EF; rewrite EF in C; cbn [bind] in C; apply Ok_inj in C; apply xltb_Ff in C; lra. }
    pose proof (pow2_ge n) as P2. assert (Hs : s <= s * 2 ^ n) by nra. assert (S2n : s <= 2 * (s * 2 ^ n)) by lra.
    assert (XH : x <= s * 2 ^ n).
    { apply Rnot_lt_le. intros N. destruct long.
      - pose proof (e_time_long p mu r1 r2 th Hm Hn F (s * 2 ^ n) x S2n N). lra.
      - pose proof (e_time_short p mu r1 r2 th Hm Hn F (s * 2 ^ n) x S2n N). lra. }
    eexists _, (s / 2 * (1 + 1 / 4503599627370496)), (s * 2 ^ n). split; [reflexivity|]. split; [exact Hs|]. split; [exact XH|]. split; [intros z; reflexivity|]. split; [reflexivity|].
    eapply change_vals; [rewrite EF by lra; reflexivity|rewrite EF by lra; reflexivity| | |apply Rle_dec].
    + intros L. destruct (Rle_lt_or_eq_dec _ _ L) as [L'|L'].
      * destruct long.
        -- pose proof (e_time_long p mu r1 r2 th Hm Hn F (s / 2 * (1 + 1 / 4503599627370496)) x ltac:(fold s; lra) L'). nra.
        -- pose proof (e_time_short p mu r1 r2 th Hm Hn F (s / 2 * (1 + 1 / 4503599627370496)) x ltac:(fold s; lra) L'). nra.
      * rewrite L', Et. lra.
    + intros L. assert (L' : x < s / 2 * (1 + 1 / 4503599627370496)) by lra. assert (L2 : x < s * 2 ^ n) by lra. destruct long.
      * pose proof (e_time_long p mu r1 r2 th Hm Hn F x (s / 2 * (1 + 1 / 4503599627370496)) ltac:(fold s; lra) L'). pose proof (e_time_long p mu r1 r2 th Hm Hn F x (s * 2 ^ n) ltac:(fold s; lra) L2). apply Rmult_lt_0_compat; lra.
      * pose proof (e_time_short p mu r1 r2 th Hm Hn F x (s / 2 * (1 + 1 / 4503599627370496)) ltac:(fold s; lra) L'). pose proof (e_time_short p mu r1 r2 th Hm Hn F x (s * 2 ^ n) ltac:(fold s; lra) L2). nra.
  - left. cbn [bind]. f_equal. unfold tho_expand_upper, branch in EX. destruct long; (eapply expand_err; [|exact EX]); intros k; pose proof (pow2_ge k);
      (assert (S2 : s <= 2 * (s * 2 ^ k)) by nra); specialize (EF _ S2); unfold branch in EF; cbv beta; rewrite EF; eexists; reflexivity.
Qed.
Print Assumptions C28_thorne_elliptic.

(** The hyperbola of semi-major axis [- b]: the interval ends at [- 2^-52 s], and
    holds [- b] with a change of sign exactly if [b] is not below [2^-52 s]
    (thorne.py:197-205, 242-246). *)
Theorem C28_thorne_hyperbolic : forall ev p mu r1 r2 th tof b maxiter atol rtol,
  0 < mu -> non_collinear r1 r2 -> angle_facts p r1 r2 th ->
  let s := semiper r1 r2 in let c := chord r1 r2 in let m := - way th in
  let tp := @tho_parabolic_tof XR (Fin mu) (Fin s) (Fin c) (Fin m) in
  let tm := @tho_minimum_energy_tof XR (Fin mu) (Fin s) (Fin c) (Fin m) in
  let axis := @tho_semimajor_axis XR ev (Fin mu) (Fin s) (Fin c) (Fin tof) tp tm (Fin m) maxiter (Fin atol) (Fin rtol) in
  0 < b -> @tho_lagrange_tof XR (Fin mu) (Fin s) (Fin c) (Fin (- b)) (Fin m) ThH = Ok (Fin tof) ->
  @np_isclose XR (Fin tof) tp (Fin rtol) (Fin atol) = false ->
  axis = Err OutOfFuel \/
  exists f lo hi, hi = - / 2 ^ 52 * s /\ lo <= - s / 2 /\ lo <= - b /\
    (forall z, f z = bind (tho_lagrange_tof (Fin mu) (Fin s) (Fin c) z (Fin m) ThH) (fun t => Ok (@nsub XR t (Fin tof)))) /\
    axis = bind (e_brentq ev f (Fin lo) (Fin hi) (Fin atol) (Fin rtol) maxiter) (fun r => let '(a, k) := r in Ok (a, ThH, k)) /\
    (sign_change f lo hi <-> - b <= hi).
Proof.
  intros ev p mu r1 r2 th tof b maxiter atol rtol Hm Hn F s c m tp tm axis Hb E NC.
  pose proof (way_cases th) as Hw. destruct (geo r1 r2 Hn) as (G1 & G2 & G3 & G4). change (chord r1 r2) with c in G1, G2, G3, G4. change (semiper r1 r2) with s in G1, G2, G3, G4.
  assert (EF : forall a, 0 < - a -> tho_lagrange_tof (Fin mu) (Fin s) (Fin c) (Fin a) (Fin m) ThH = Ok (Fin (h_time mu r1 r2 th (- a)))).
  { intros a Ha. replace (Fin a) with (Fin (- - a)) by (now rewrite Ropp_involutive). exact (tho_hyperbolic_F mu r1 r2 (way th) Hm Hn Hw (- a) Ha). }
  rewrite EF in E by lra. rewrite Ropp_involutive in E. assert (Et : h_time mu r1 r2 th b = tof) by congruence. clear E.
  assert (Ep : tp = Fin (p_time mu r1 r2 th)) by exact (tho_parabolic_F mu r1 r2 (way th) Hm Hn Hw).
  assert (Hp : tof < p_time mu r1 r2 th).
  { rewrite <- Et. destruct (h_tau p mu r1 r2 th Hm Hn F b Hb) as (-> & V1 & B1). destruct (p_tau p mu r1 r2 th Hm Hn F) as (-> & V0).
    pose proof PI_RGT_0. apply (tau_mono p); try assumption; nra. }
  assert (Es : @ndiv XR (@nopp XR (Fin s)) (nofZ 2) = Fin (- s / 2)) by (xunf; cbn [xopp xlift1]; apply xdiv_F; lra).
  unfold axis, tho_semimajor_axis. rewrite NC. replace (@nltb XR (Fin tof) tp) with true by (symmetry; rewrite Ep; apply xltb_F; lra).
  rewrite Es. change (@nmul XR (@nopp XR eps_machine) (Fin s)) with (Fin (- (1 / 4503599627370496) * s)).
  assert (E52 : / 2 ^ 52 = 1 / 4503599627370496) by lra. rewrite E52.
  destruct (tho_expand_lower _ _ _ _ _ _ _) as [lo|e] eqn:EX.
  - right. unfold tho_expand_lower in EX. apply expand_inv in EX. destruct EX as (n & -> & C). pose proof (pow2_ge n) as P2. set (l := - s / 2 * 2 ^ n) in *.
    assert (Hl : l <= - s / 2) by (unfold l; nra). rewrite EF in C by lra. cbn [bind] in C. apply Ok_inj in C. apply xltb_Ff in C. clearbody l.
    assert (XH : l <= - b). { apply Rnot_lt_le. intros N. pose proof (h_time_increasing p mu r1 r2 th Hm Hn F (- l) b ltac:(lra) ltac:(lra)). lra. }
    eexists _, l, (- (1 / 4503599627370496) * s). split; [reflexivity|]. split; [exact Hl|]. split; [exact XH|]. split; [intros z; reflexivity|]. split; [reflexivity|].
    eapply change_vals; [rewrite EF by lra; reflexivity|rewrite EF by lra; reflexivity| | |apply Rle_dec]; set (h := - (1 / 4503599627370496) * s); (assert (Hh : - s / 2 < h < 0) by (unfold h; lra)); clearbody h.
    + intros L. destruct (Rle_lt_or_eq_dec _ _ L) as [L'|L'].
      * pose proof (h_time_increasing p mu r1 r2 th Hm Hn F (- h) b ltac:(lra) ltac:(lra)). nra.
      * rewrite <- L', Ropp_involutive, Et. lra.
    + intros L. pose proof (h_time_increasing p mu r1 r2 th Hm Hn F b (- h) ltac:(lra) ltac:(lra)). pose proof (h_time_increasing p mu r1 r2 th Hm Hn F b (- l) ltac:(lra) ltac:(lra)). nra.
  - left. cbn [bind]. f_equal. unfold tho_expand_lower in EX. eapply expand_err; [|exact EX]. intros k. pose proof (pow2_ge k).
    assert (S2 : 0 < - (- s / 2 * 2 ^ k)) by nra. cbv beta. rewrite (EF _ S2). eexists; reflexivity.
Qed.
Print Assumptions C28_thorne_hyperbolic.

(** Every ellipse and hyperbola meets the hypotheses for zero tolerances: on the
    quarter turn below, those with semi-major axis [s] (inside the interval) and
    [s/2 (1 + 2^-60)] (outside of it), and the hyperbola with semi-major axis [- s]. *)
Example C28_thorne_case :
  let r1 := V3 1 0 0 in let r2 := V3 0 1 0 in let s := semiper r1 r2 in let c := chord r1 r2 in
  exists th, angle_facts true r1 r2 th /\ non_collinear r1 r2 /\
  let m := - way th in let tp := @tho_parabolic_tof XR (Fin 1) (Fin s) (Fin c) (Fin m) in
  (forall x (long : bool), x = s \/ x = s / 2 * (1 + / 2 ^ 60) -> s < 2 * x /\
     exists tof, @tho_lagrange_tof XR (Fin 1) (Fin s) (Fin c) (Fin x) (Fin m) (if long then ThB else ThA) = Ok (Fin tof) /\
       @np_isclose XR (Fin tof) tp (Fin 0) (Fin 0) = false) /\
  exists tof, @tho_lagrange_tof XR (Fin 1) (Fin s) (Fin c) (Fin (- s)) (Fin m) ThH = Ok (Fin tof) /\ @np_isclose XR (Fin tof) tp (Fin 0) (Fin 0) = false.
Proof.
  intros r1 r2 s c. assert (Hn : non_collinear r1 r2).
  { intros Q. apply (f_equal vz) in Q. unfold vcross, r1, r2 in Q. cbn in Q. lra. }
  destruct (transfer_angle r1 r2 true Hn) as (th & _ & F). exists th. split; [exact F|]. split; [exact Hn|]. intros m tp.
  pose proof (way_cases th) as Hw. destruct (geo r1 r2 Hn) as (G1 & G2 & G3 & G4). change (chord r1 r2) with c in G1, G2, G3, G4. change (semiper r1 r2) with s in G1, G2, G3, G4.
  assert (Ep : tp = Fin (p_time 1 r1 r2 th)) by exact (tho_parabolic_F 1 r1 r2 (way th) ltac:(lra) Hn Hw).
  assert (NC : forall t, t <> p_time 1 r1 r2 th -> @np_isclose XR (Fin t) tp (Fin 0) (Fin 0) = false).
  { intros t Ht. rewrite Ep. apply xleb_Ff. rewrite Rmult_0_l, Rplus_0_l. apply Rabs_pos_lt. lra. }
  split.
  - intros x long Hx. assert (S2 : s < 2 * x) by (destruct Hx as [-> | ->]; lra). split; [exact S2|]. exists (e_time 1 r1 r2 th x long). split.
    + exact (tho_elliptic_F 1 r1 r2 (way th) ltac:(lra) Hn Hw x long ltac:(apply Rlt_le; exact S2)).
    + apply NC. apply Rgt_not_eq. apply (e_time_par true 1 r1 r2 th ltac:(lra) Hn F x long). apply Rlt_le, S2.
  - exists (h_time 1 r1 r2 th s). split; [exact (tho_hyperbolic_F 1 r1 r2 (way th) ltac:(lra) Hn Hw s G4)|]. apply NC. apply Rlt_not_eq.
    destruct (h_tau true 1 r1 r2 th ltac:(lra) Hn F s G4) as (-> & V1 & B1). destruct (p_tau true 1 r1 r2 th ltac:(lra) Hn F) as (-> & V0).
    pose proof PI_RGT_0. apply (tau_mono true); try assumption; try lra; nra.
Qed.
