(** * mcelreath2025 with complete revolutions: C35 and C51. *)
From Coq Require Import Reals ZArith Bool Lra Lia Psatz.
From Coquelicot Require Import Coquelicot.
From Verif Require Import Num XReal XRealLemmas MApi ApiFacts Loops MLinalg MAngles MComplex MMcelreath MInit Spec SpecLambert VecFacts VecXR UniversalKepler LambertUV LambertRev LambertZ ZMono LambertUnique
  Godal GodalXR GodalIzzo GodalPan GodalMore OrbitXR CallXR IzzoXR ComplexXR McelreathXR McelreathDeriv PropertiesAngles PropertiesMotion PropertiesOrbit PropertiesStumpff PropertiesDerivIzzo PropertiesUnique MinTime PropertiesMultiRev
  PropertiesDerMin PropertiesNegrete PropertiesMcelreath PropertiesMcelreathDeriv.
Local Open Scope R_scope.

(** Longer flights of the same kind exist. *)
Lemma feasible_longer mu r1 r2 p M T T' : 0 < mu -> vz (vcross r1 r2) <> 0 -> (1 <= M)%Z ->
  feasible mu r1 r2 p M T -> T <= T' -> feasible mu r1 r2 p M T'.
Proof.
  intros Hm Hz HM F L. pose proof (vz_non_collinear _ _ Hz) as Hn.
  destruct (lambda_exists p r1 r2 Hn) as (ll & LF & _). pose proof (lf_dir _ _ _ _ LF Hz) as LS. pose proof (lambda_bounds _ _ _ _ Hn LF) as Hl.
  destruct (mt_critical ll M Hl HM) as (x0 & H0 & D).
  destruct (shortest mu r1 r2 p M ll x0 Hm Hz HM LF LS H0 D) as (R0 & _ & S). rewrite feasible_requested, S in *. nra.
Qed.

(** Every [x] strictly between the bounds is a transfer. *)
Lemma mce_transfer mu r1 r2 p M t : 0 < mu -> vz (vcross r1 r2) <> 0 -> (0 <= M)%Z -> 2 * PI * IZR M < t < 2 * PI * (IZR M + 1) ->
  let n1 := @norm XR (vfin r1) in
  let n2 := @norm XR (vfin r2) in
  let th := @get_transfer_angle XR (vfin r1) (vfin r2) p in
  let m := @mce_m XR n1 n2 th M in
  exists T v1 v2, @mce_velocities XR (Fin mu) (vfin r1) (vfin r2) n1 n2 th m (cr t) = (vfin v1, vfin v2) /\
    @mce_tof_equation XR (cr t) (nadd n1 n2) m = cr (sqrt mu * T) /\
    lambert_solution mu r1 v1 r2 v2 T M /\ moves_as_requested p r1 v1.
Proof.
  intros Hm Hz HM Ht. pose proof (vz_non_collinear _ _ Hz) as Hn. assert (HA : anomaly M (cr t)) by now constructor. cbv zeta.
  destruct (C27_mcelreath_domain r1 r2 M p Hz HM) as (Rs & m & E1 & E2 & B).
  pose proof (fun v1 v2 => C51_mcelreath_time mu r1 r2 M p (cr t) v1 v2 Hm Hz HM HA) as K. cbv zeta in K.
  rewrite !norm_F in *. destruct (transfer_angle r1 r2 p Hn) as (th & ET & F). rewrite ET in *. rewrite (mce_m_F r1 r2 th M Hn) in *.
  destruct (anomaly_names M _ HA) as (z & Z0 & HN).
  pose proof (mce_pair mu r1 r2 p th M Hm Hn F HM (cr t) z) as MP. destruct (mce_A r1 r2 p th Hn F) as [A2 As].
  set (A := sqrt 2 * (sqrt (vnorm r1 * vnorm r2) * cos (th / 2))) in *.
  assert (HV : 0 < vnorm r1 + vnorm r2 - sqrt 2 * A * C0 z).
  { pose proof (V_eq r1 r2 th M HM z) as VE. fold A in VE. rewrite <- VE. apply Fin_inj in E1, E2.
    assert (CB : -1 <= sgM M * C0 z <= 1).
    { pose proof (names_cos M HM (cr t) z HN) as EC. rewrite mce_half_r, cr_cos in EC. apply cr_inj in EC. rewrite <- EC. apply COS_bound. }
    change (vnorm r1 + vnorm r2 = Rs) in E1. rewrite E1. rewrite E2. set (c := sgM M * C0 z) in *. clearbody c.
    destruct (Rle_dec 0 c); [assert (0 <= (Rs - 2 * m) * c) by (apply Rmult_le_pos; lra)|assert (0 <= (Rs + 2 * m) * - c) by (apply Rmult_le_pos; lra)]; nra. }
  set (V := vnorm r1 + vnorm r2 - sqrt 2 * A * C0 z) in *.
  assert (G : fg_pair mu r1 r2 A V (vmult (/ (A * sqrt V / sqrt mu)) (vminus r2 (vmult (1 - V / vnorm r1) r1))) (vmult (/ (A * sqrt V / sqrt mu)) (vminus (vmult (1 - V / vnorm r2) r2) r1))).
  { split; [exact A2|exact HV|reflexivity|reflexivity]. }
  apply (MP _ _ HN) in G. destruct (K _ _ G) as (T & T1 & T2 & T3). exists T. eexists; eexists. split; [exact G|]. split; [exact T1|]. split; [exact T2|exact T3].
Qed.

(** ** The iteration stays on the real axis and between its bounds *)
Definition cnan : @cplx XR := @C XR NaN NaN.

Lemma xadd_n a : xadd a NaN = NaN. Proof. now destruct a. Qed.
Lemma xmul_n a : xmul a NaN = NaN. Proof. now destruct a. Qed.
Lemma xsub_n a : xsub a NaN = NaN. Proof. now destruct a. Qed.
Lemma xdiv_n a : xdiv a NaN = NaN. Proof. now destruct a. Qed.

(** Not a number swallows everything. *)
Definition no_number (z : @cplx XR) : Prop := cre z = NaN.
Lemma nn_add a b : no_number a -> no_number (@cadd XR a b).
Proof. unfold no_number, cadd. cbn [cre]. intros ->. reflexivity. Qed.
Lemma nn_sub a b : no_number a -> no_number (@csub XR a b).
Proof. unfold no_number, csub. cbn [cre]. intros ->. reflexivity. Qed.
Lemma cn_mul_l b : @cmul XR cnan b = cnan.
Proof. reflexivity. Qed.
Lemma cn_mul_r a : @cmul XR a cnan = cnan.
Proof. unfold cmul, cnan. cbn [cre cim]. xunf. now rewrite !xmul_n. Qed.
Lemma cn_add_l b : @cadd XR cnan b = cnan. Proof. reflexivity. Qed.
Lemma cn_add_r a : @cadd XR a cnan = cnan.
Proof. unfold cadd, cnan. cbn [cre cim]. xunf. now rewrite !xadd_n. Qed.
Lemma cn_sub_l b : @csub XR cnan b = cnan. Proof. reflexivity. Qed.
Lemma cn_sub_r a : @csub XR a cnan = cnan.
Proof. unfold csub, cnan. cbn [cre cim]. xunf. now rewrite !xsub_n. Qed.
Lemma cn_scale k : @cscale XR k cnan = cnan.
Proof. unfold cscale, cnan. cbn [cre cim]. xunf. now rewrite !xmul_n. Qed.
Lemma cn_opp : @copp XR cnan = cnan. Proof. reflexivity. Qed.
Lemma cn_div_l b : @cdiv XR cnan b = cnan.
Proof. reflexivity. Qed.
Lemma cn_div_r a : @cdiv XR a cnan = cnan.
Proof. unfold cdiv, cnan. cbn [cre cim]. xunf. cbn [xmul xadd xlift2]. now rewrite !xdiv_n. Qed.
Lemma cn_div_0 a : @cdiv XR (cr a) (cr 0) = cnan.
Proof.
  unfold cdiv, cr, cc, cnan. cbn [cre cim]. xunf. cbn [xmul xadd xsub xlift2]. replace (0 * 0 + 0 * 0) with 0 by ring.
  unfold xdiv. destruct (Req_EM_T 0 0); [reflexivity|contradiction].
Qed.
Ltac cn := repeat first [rewrite cn_mul_l | rewrite cn_mul_r | rewrite cn_add_l | rewrite cn_add_r | rewrite cn_sub_l | rewrite cn_sub_r | rewrite cn_scale | rewrite cn_opp | rewrite cn_div_l | rewrite cn_div_r].

(** Either a real number or not a number. *)
Definition real_or_nan (z : @cplx XR) : Prop := (exists a, z = cr a) \/ z = cnan.
Lemma rn_cr a : real_or_nan (cr a). Proof. left. now exists a. Qed.
Lemma rn_nan : real_or_nan cnan. Proof. now right. Qed.
Lemma rn_add a b : real_or_nan a -> real_or_nan b -> real_or_nan (@cadd XR a b).
Proof. intros [[x ->]| ->] [[y ->]| ->]; cn; try apply rn_nan. rewrite cr_add. apply rn_cr. Qed.
Lemma rn_sub a b : real_or_nan a -> real_or_nan b -> real_or_nan (@csub XR a b).
Proof. intros [[x ->]| ->] [[y ->]| ->]; cn; try apply rn_nan. rewrite cr_sub. apply rn_cr. Qed.
Lemma rn_mul a b : real_or_nan a -> real_or_nan b -> real_or_nan (@cmul XR a b).
Proof. intros [[x ->]| ->] [[y ->]| ->]; cn; try apply rn_nan. rewrite cr_mul. apply rn_cr. Qed.
Lemma rn_div a b : real_or_nan a -> real_or_nan b -> real_or_nan (@cdiv XR a b).
Proof.
  intros [[x ->]| ->] [[y ->]| ->]; cn; try apply rn_nan. destruct (Req_dec y 0) as [-> |]; [rewrite cn_div_0; apply rn_nan|]. rewrite cr_div by assumption. apply rn_cr.
Qed.
Lemma rn_opp a : real_or_nan a -> real_or_nan (@copp XR a).
Proof. intros [[x ->]| ->]; [rewrite cr_opp; apply rn_cr|apply rn_nan]. Qed.
Lemma rn_scale k a : real_or_nan a -> real_or_nan (@cscale XR (Fin k) a).
Proof. intros [[x ->]| ->]; [rewrite cr_scale; apply rn_cr|rewrite cn_scale; apply rn_nan]. Qed.
Lemma rn_sq a : real_or_nan a -> real_or_nan (@csq XR a).
Proof. intros. now apply rn_mul. Qed.
Lemma rn_cube a : real_or_nan a -> real_or_nan (@ccube XR a).
Proof. intros. apply rn_mul; [now apply rn_mul|assumption]. Qed.

(** The time equation at a real point: real, or not a number where the sine of
    the half angle vanishes. *)
Lemma mce_full_rn Rs m x : - Rs < 2 * m < Rs -> 
  let '(t, t1, t2, t3) := @mce_tof_equation_full XR (cr x) (Fin Rs) (Fin m) in real_or_nan t /\ real_or_nan t1 /\ real_or_nan t2 /\ real_or_nan t3.
Proof.
  intros B. destruct (Req_dec (sin (x / 2)) 0) as [E|E].
  2:{ rewrite mce_full_r by assumption. split; [|split; [|split]]; apply rn_cr. }
  assert (EA : @mce_alpha XR (cr x) (Fin Rs) (Fin m) = cr 0).
  { rewrite mce_alpha_r by now apply my_pos. unfold ma. rewrite E. apply cc_eq; [unfold Rdiv; ring|reflexivity]. }
  assert (EI : @cinv XR (cr 0) = cnan) by exact (cn_div_0 1). assert (ES : @csqrt XR (cr 0) = cr 0) by (rewrite cr_sqrt by lra; now rewrite sqrt_0).
  assert (CI : @cinv XR cnan = cnan) by exact (cn_div_r _).
  unfold mce_tof_equation_full. rewrite EA, ES, EI. unfold csq, ccube. repeat (cn; rewrite ?CI).
  split; [|split; [|split]]; apply rn_nan.
Qed.

Section Desired.
Variables (tof Rs m lo hi : R).
Hypothesis B : - Rs < 2 * m < Rs.
Hypothesis LH : lo <= hi.

Lemma mce_outside_cr a : @mce_outside_bounds XR (cr a) (Fin lo) (Fin hi) = false <-> lo <= a <= hi.
Proof.
  unfold mce_outside_bounds, cr, cc. cbn [cre cim]. xunf. cbn [xadd xlift2]. rewrite Rplus_0_r. rewrite orb_false_iff, !xltb_Ff. lra.
Qed.

(** The next iterate from a point between the bounds. *)
Lemma mce_update_bounds x : lo <= x <= hi ->
  let x' := @mce_desired_update XR (Fin tof) (Fin Rs) (Fin m) (Fin lo) (Fin hi) (cr x) in
  no_number x' \/ exists a, x' = cr a /\ lo <= a <= hi.
Proof.
  intros Hx. unfold mce_desired_update. pose proof (mce_full_rn Rs m x B) as R. destruct (mce_tof_equation_full _ _ _) as [[[t t1] t2] t3]. destruct R as (R0 & R1 & R2 & R3).
  rewrite creal_F. assert (RR : real_or_nan (@csub XR t (cr tof))) by (apply rn_sub; [assumption|apply rn_cr]). set (res := @csub XR t (cr tof)) in *. clearbody res.
  assert (L2 : forall n, @nofZ XR n = Fin (IZR n)) by reflexivity. assert (L1 : forall n d, @nlit XR n d = Fin (IZR n / IZR (Zpos d))) by reflexivity. cbv zeta. rewrite !L2, !L1.
  assert (CH : forall z, real_or_nan z -> (@mce_outside_bounds XR z (Fin lo) (Fin hi) = false -> no_number z \/ exists a, z = cr a /\ lo <= a <= hi)).
  { intros z [[a ->]| ->] O; [right; exists a; split; [reflexivity|now apply mce_outside_cr]|left; reflexivity]. }
  match goal with |- context [negb (mce_outside_bounds ?z _ _)] => set (z1 := z); assert (Q1 : real_or_nan z1) by (unfold z1; repeat first [assumption | apply rn_cr | apply rn_add | apply rn_sub | apply rn_opp | apply rn_div | apply rn_mul | apply rn_scale | apply rn_sq | apply rn_cube]) end.
  destruct (mce_outside_bounds z1 _ _) eqn:O1; cbn [negb]; [|now apply CH].
  match goal with |- context [negb (mce_outside_bounds ?z _ _)] => set (z2 := z); assert (Q2 : real_or_nan z2) by (unfold z2; repeat first [assumption | apply rn_cr | apply rn_add | apply rn_sub | apply rn_opp | apply rn_div | apply rn_mul | apply rn_scale | apply rn_sq | apply rn_cube]) end.
  destruct (mce_outside_bounds z2 _ _) eqn:O2; cbn [negb]; [|now apply CH].
  match goal with |- context [negb (mce_outside_bounds ?z _ _)] => set (z3 := z); assert (Q3 : real_or_nan z3) by (unfold z3; repeat first [assumption | apply rn_cr | apply rn_add | apply rn_sub | apply rn_opp | apply rn_div | apply rn_mul | apply rn_scale | apply rn_sq | apply rn_cube]) end.
  destruct (mce_outside_bounds z3 _ _) eqn:O3; cbn [negb]; [|now apply CH].
  right. destruct (_ : bool) at 1; rewrite creal_F, cr_sub, cr_scale, cr_add; eexists; (split; [reflexivity|lra]).
Qed.
Lemma mce_update_nan x : no_number x -> no_number (@mce_desired_update XR (Fin tof) (Fin Rs) (Fin m) (Fin lo) (Fin hi) x).
Proof.
  intros H. unfold mce_desired_update. destruct (mce_tof_equation_full _ _ _) as [[[t t1] t2] t3]. cbv zeta.
  repeat match goal with |- no_number (if ?b then _ else _) => destruct b end; (apply nn_add || apply nn_sub); exact H.
Qed.

Lemma mce_desired_bounds x tpr tol n i a k :
  (no_number x \/ exists b, x = cr b /\ lo <= b <= hi) ->
  for_range (@mce_desired_body XR (Fin tof) (Fin Rs) (Fin m) tpr (Fin lo) (Fin hi) tol) n i x = Break (a, k) ->
  exists b, a = cr b /\ lo <= b <= hi.
Proof.
  intros HX L.
  apply (for_range_inv _ (fun _ x => no_number x \/ exists b, x = cr b /\ lo <= b <= hi)) in L; [|assumption|].
  2:{ intros j y y' _ HY E. unfold mce_desired_body in E. destruct (nltb _ _) in E; [discriminate|]. injection E as <-.
    destruct HY as [HY|(b & -> & HB)]; [left; now apply mce_update_nan|now apply mce_update_bounds]. }
  destruct L as (j & y & _ & HY & E).
  unfold mce_desired_body in E. destruct (nltb _ _) eqn:T in E; [|discriminate]. injection E as <- _.
  set (x' := mce_desired_update _ _ _ _ _ _) in *.
  assert (HX' : no_number x' \/ exists b, x' = cr b /\ lo <= b <= hi) by (destruct HY as [HY|(b & -> & HB)]; [left; now apply mce_update_nan|now apply mce_update_bounds]).
  destruct HX' as [N|(b & E & HB)].
  - exfalso. unfold mce_step_size, cabs, cdiv, csub in T. cbn [cre cim] in T. unfold no_number in N. rewrite N in T. discriminate T.
  - exists b. split; [|assumption]. rewrite E. unfold mce_clean_root. match goal with |- (if ?b then _ else _) = _ => destruct b end; [rewrite <- creal_F|]; reflexivity.
Qed.
(** A start that is not a number never converges. *)
Lemma mce_desired_nan x tpr tol n i a : no_number x ->
  for_range (@mce_desired_body XR (Fin tof) (Fin Rs) (Fin m) tpr (Fin lo) (Fin hi) tol) n i x <> Break a.
Proof.
  intros HX L. apply (for_range_inv _ (fun _ x => no_number x)) in L; [|assumption|].
  2:{ intros j y y' _ HY E. unfold mce_desired_body in E. destruct (nltb _ _) in E; [discriminate|]. injection E as <-. now apply mce_update_nan. }
  destruct L as (j & y & _ & HY & E). unfold mce_desired_body in E. destruct (nltb _ _) eqn:T in E; [|discriminate]. clear E.
  pose proof (mce_update_nan y HY) as N. unfold no_number in N. unfold mce_step_size, cabs, cdiv, csub in T. cbn [cre cim] in T. rewrite N in T. discriminate T.
Qed.
End Desired.

(** The two roots the initial guesses are. *)
Lemma guess_short g lo xm hi : g < 0 -> lo < xm < hi ->
  let b := - g * (lo + hi) + 1 in
  let c := g * (lo * hi) - xm in
  0 < b * b - 4 * g * c /\ lo < (- b + sqrt (b * b - 4 * g * c)) / (2 * g) < xm.
Proof.
  intros G H b c. set (D := b * b - 4 * g * c).
  assert (E1 : D = (2 * g * xm + b) * (2 * g * xm + b) + 4 * (- g) * (g * (xm - lo) * (xm - hi))) by (unfold D, b, c; ring).
  assert (E2 : D = (2 * g * lo + b) * (2 * g * lo + b) - 4 * (- g) * (xm - lo)) by (unfold D, b, c; ring).
  assert (P1 : 0 < 4 * (- g) * (g * (xm - lo) * (xm - hi))).
  { replace (4 * (- g) * (g * (xm - lo) * (xm - hi))) with (4 * (- g) * (- g) * ((xm - lo) * (hi - xm))) by ring. apply Rmult_lt_0_compat; [apply Rmult_lt_0_compat; lra|apply Rmult_lt_0_compat; lra]. }
  assert (P2 : 0 < 4 * (- g) * (xm - lo)) by (apply Rmult_lt_0_compat; lra).
  assert (P3 : 0 < 2 * g * lo + b). { replace (2 * g * lo + b) with (1 + - g * (hi - lo)) by (unfold b; ring). assert (0 < - g * (hi - lo)) by (apply Rmult_lt_0_compat; lra). lra. }
  assert (PD : 0 < D) by (pose proof (Rle_0_sqr (2 * g * xm + b)) as S; unfold Rsqr in S; lra). split; [exact PD|].
  pose proof (sqrt_pos D) as S0. pose proof (sqrt_sqrt D (Rlt_le _ _ PD)) as SS. set (s := sqrt D) in *. clearbody s.
  assert (A1 : 2 * g * xm + b < s). { destruct (Rle_dec (2 * g * xm + b) 0); [assert (0 <> s) by (intros <-; lra); lra|]. apply Rnot_le_lt. intros L. assert (s * s <= (2 * g * xm + b) * (2 * g * xm + b)) by (apply Rmult_le_compat; lra). lra. }
  assert (A2 : s < 2 * g * lo + b). { apply Rnot_le_lt. intros L. assert ((2 * g * lo + b) * (2 * g * lo + b) <= s * s) by (apply Rmult_le_compat; lra). lra. }
  split.
  - apply Rmult_lt_reg_l with (- (2 * g)); [lra|]. replace (- (2 * g) * ((- b + s) / (2 * g))) with (b - s) by (field; lra). lra.
  - apply Rmult_lt_reg_l with (- (2 * g)); [lra|]. replace (- (2 * g) * ((- b + s) / (2 * g))) with (b - s) by (field; lra). lra.
Qed.
Lemma guess_long g lo xm hi : g < 0 -> lo < xm < hi ->
  let b := g * (lo + hi) + 1 in
  let c := - g * (lo * hi) - xm in
  0 < b * b + 4 * g * c /\ xm < (- b + sqrt (b * b + 4 * g * c)) / (- (2) * g) < hi.
Proof.
  intros G H b c. set (D := b * b + 4 * g * c).
  assert (E1 : D = (b - 2 * g * xm) * (b - 2 * g * xm) + 4 * (- g) * ((- g) * (xm - lo) * (hi - xm))) by (unfold D, b, c; ring).
  assert (E2 : D = (b - 2 * g * hi) * (b - 2 * g * hi) - 4 * (- g) * (hi - xm)) by (unfold D, b, c; ring).
  assert (P1 : 0 < 4 * (- g) * ((- g) * (xm - lo) * (hi - xm))) by (apply Rmult_lt_0_compat; [lra|apply Rmult_lt_0_compat; [apply Rmult_lt_0_compat; lra|lra]]).
  assert (P2 : 0 < 4 * (- g) * (hi - xm)) by (apply Rmult_lt_0_compat; lra).
  assert (P3 : 0 < b - 2 * g * hi). { replace (b - 2 * g * hi) with (1 + - g * (hi - lo)) by (unfold b; ring). assert (0 < - g * (hi - lo)) by (apply Rmult_lt_0_compat; lra). lra. }
  assert (PD : 0 < D) by (pose proof (Rle_0_sqr (b - 2 * g * xm)) as S; unfold Rsqr in S; lra). split; [exact PD|].
  pose proof (sqrt_pos D) as S0. pose proof (sqrt_sqrt D (Rlt_le _ _ PD)) as SS. set (s := sqrt D) in *. clearbody s.
  assert (A1 : b - 2 * g * xm < s). { destruct (Rle_dec (b - 2 * g * xm) 0); [assert (0 <> s) by (intros <-; lra); lra|]. apply Rnot_le_lt. intros L. assert (s * s <= (b - 2 * g * xm) * (b - 2 * g * xm)) by (apply Rmult_le_compat; lra). lra. }
  assert (A2 : s < b - 2 * g * hi). { apply Rnot_le_lt. intros L. assert ((b - 2 * g * hi) * (b - 2 * g * hi) <= s * s) by (apply Rmult_le_compat; lra). lra. }
  split.
  - apply Rmult_lt_reg_l with (- (2 * g)); [lra|]. replace (- (2 * g) * ((- b + s) / (- (2) * g))) with (s - b) by (field; lra). lra.
  - apply Rmult_lt_reg_l with (- (2 * g)); [lra|]. replace (- (2 * g) * ((- b + s) / (- (2) * g))) with (s - b) by (field; lra). lra.
Qed.

Lemma xsqrt_cases a : xsqrt a = NaN \/ exists r, xsqrt a = Fin r /\ 0 <= r.
Proof.
  destruct a as [r|]; [|now left]. destruct (Rle_dec 0 r) as [L|L]; [right; exists (sqrt r); split; [now apply xsqrt_F|apply sqrt_pos]|left].
  unfold xsqrt, xpart1. now destruct (Rle_dec 0 r).
Qed.

(** The guesses lie on either side of the minimum, between the bounds. *)
Lemma mce_guesses tof tmin xm Rs m th M : 2 * PI * IZR M < xm < 2 * PI * IZR M + 2 * PI ->
  let '(gs, gl) := @mce_initial_guesses XR tof tmin (Fin xm) Rs m th M in
  (gs = NaN \/ exists s, gs = Fin s /\ 2 * PI * IZR M < s < xm) /\
  (gl = NaN \/ exists l, gl = Fin l /\ xm < l < 2 * PI * IZR M + 2 * PI).
Proof.
  intros H. unfold mce_initial_guesses.
  set (xt := nadd th _). set (tt := cre _). match goal with |- context [nsqrt (nmul (nsub tof tmin) ?s)] => set (sc := nmul (nsub tof tmin) s); clearbody sc end.
  clear xt tt. change (@nsqrt XR sc) with (xsqrt sc). destruct (xsqrt_cases sc) as [-> |(s & -> & S)]; [split; left; reflexivity|]. clear sc.
  assert (NO : @nopp XR (Fin s) = Fin (- s)) by reflexivity. rewrite NO.
  destruct (Req_dec s 0) as [-> |S0].
  { assert (NZ : forall a, xdiv a (Fin 0) = NaN) by (intros [a|]; [unfold xdiv; now destruct (Req_EM_T 0 0)|reflexivity]).
    split; left; xunf; cbn [xopp xmul xlift1 xlift2].
    - replace (2 * - 0) with 0 by ring. apply NZ.
    - replace (- (2) * - 0) with 0 by ring. apply NZ. }
  assert (G : - s < 0) by lra. set (g := - s) in *. clearbody g. clear NO S S0 s.
  set (lo := 2 * PI * IZR M) in *. set (hi := lo + 2 * PI) in *.
  pose proof (guess_short g lo xm hi G H) as (DS & QS). pose proof (guess_long g lo xm hi G H) as (DL & QL).
  assert (EI : 2 * PI * IZR (M + (M + 1)) = lo + hi) by (unfold hi, lo; rewrite !plus_IZR; ring).
  assert (EP : 2 * PI * (2 * PI) * IZR M * IZR (M + 1) = lo * hi) by (unfold hi, lo; rewrite !plus_IZR; ring).
  split; right.
  - exists ((- (- g * (lo + hi) + 1) + sqrt ((- g * (lo + hi) + 1) * (- g * (lo + hi) + 1) - 4 * g * (g * (lo * hi) - xm))) / (2 * g)). split; [|exact QS].
    xunf. cbn [xopp xadd xsub xmul xlift1 xlift2].
    replace (- (2 * PI) * IZR (M + (M + 1)) * g + 1) with (- g * (lo + hi) + 1) by (rewrite <- EI; ring).
    replace (2 * PI * (2 * PI) * IZR M * IZR (M + 1) * g - xm) with (g * (lo * hi) - xm) by (rewrite <- EP; ring).
    rewrite xsqrt_F by lra. cbn [xadd xlift2]. rewrite xdiv_F by lra. reflexivity.
  - exists ((- (g * (lo + hi) + 1) + sqrt ((g * (lo + hi) + 1) * (g * (lo + hi) + 1) + 4 * g * (- g * (lo * hi) - xm))) / (- (2) * g)). split; [|exact QL].
    xunf. cbn [xopp xadd xsub xmul xlift1 xlift2].
    replace (2 * PI * IZR (M + (M + 1)) * g + 1) with (g * (lo + hi) + 1) by (rewrite <- EI; ring).
    replace (- (2 * PI * (2 * PI)) * IZR M * IZR (M + 1) * g - xm) with (- g * (lo * hi) - xm) by (rewrite <- EP; ring).
    rewrite xsqrt_F by lra. cbn [xadd xlift2]. rewrite xdiv_F by lra. reflexivity.
Qed.

(** ** C35: what the time gate of mcelreath2025 guarantees

    With [M >= 1] an answer is given only after the search for the shortest
    transfer has ended at some [x_min].  If that point lies between the bounds of
    the request — mcelreath.py:234 takes a Newton step without checking that —
    it is a transfer with [M] complete revolutions, and the requested time, up to
    the tolerance the gate subtracts (mcelreath.py:196), is one that exists.  The
    tolerance is in units of [sqrt(mu)] times the time. *)
Theorem C35_mcelreath_refuses :
  forall ev mu r1 r2 tof M prograde low_path maxiter atol rtol full_output o,
  vz (vcross r1 r2) <> 0 -> (1 <= M)%Z ->
  @run XR McElreath ev (call mu r1 r2 tof M prograde low_path maxiter atol rtol full_output) = Ok o ->
  let n1 := @norm XR (vfin r1) in
  let n2 := @norm XR (vfin r2) in
  let th := @get_transfer_angle XR (vfin r1) (vfin r2) prograde in
  let m := @mce_m XR n1 n2 th M in
  let two_pi_revs := Fin (2 * PI * IZR M) in
  exists x_first x_min k,
    @mce_solve_minimum_x XR (creal x_first) (nmul (nsqrt (Fin mu)) (Fin tof)) (nadd n1 n2) m M
      two_pi_revs (nadd two_pi_revs (Fin (2 * PI))) maxiter = Ok (x_min, k) /\
    ((exists t, x_min = Fin t /\ 2 * PI * IZR M < t < 2 * PI * (IZR M + 1)) ->
     feasible mu r1 r2 prograde M (tof + atol / sqrt mu)).
Proof.
  intros ev mu r1 r2 tof M p l mi at_ rt fo o Hz HM1 H. pose proof (vz_non_collinear _ _ Hz) as Hn. cbn [run] in H. cbv zeta.
  unfold mcelreath2025 in H. enter H.
  do 2 skip_check H. apply bind_ok in H. destruct H as ([x k] & EX & _). rewrite <- !norm_F in EX.
  unfold mce_find_x in EX. destruct (Z.eqb_spec M 0) as [|_]; [lia|]. unfold mce_find_multi_revolution_x in EX. cbv zeta in EX.
  apply bind_ok in EX. destruct EX as ([xm km] & EM & EX). eexists; exists xm, km. split; [exact EM|].
  intros (t & -> & Htt). destruct (mce_transfer mu r1 r2 p M t Hmu Hz ltac:(lia) Htt) as (T & w1 & w2 & EV & ET & LS & MV). cbv zeta in ET.
  rewrite creal_F in EX. rewrite ET in EX. cbn [cr cc cre] in EX. 
  match type of EX with (if ?b then _ else _) = _ => destruct b eqn:EG; [discriminate EX|clear EX] end.
  pose proof (sqrt_lt_R0 _ Hmu) as SP.
  assert (FT : feasible mu r1 r2 p M T) by (exists w1, w2; split; assumption).
  apply (feasible_longer mu r1 r2 p M T); [assumption|assumption|assumption|exact FT|].
  revert EG. xunf. rewrite xsqrt_F by lra. cbn [xmul xsub xlift2]. rewrite xltb_Ff. intros EG.
  apply Rmult_le_reg_l with (sqrt mu); [assumption|]. replace (sqrt mu * (tof + at_ / sqrt mu)) with (sqrt mu * tof + at_) by (field; lra). lra.
Qed.
Print Assumptions C35_mcelreath_refuses.

(** ** C51 with complete revolutions

    If the search for the shortest transfer ends between the bounds, whatever the
    iteration on the time then converges to is a real number between the bounds
    of the request, and unless it is one of the two bounds the velocities
    returned are a transfer with exactly [M] complete revolutions, in the
    requested direction, lasting [T].  The first guess lies below the minimum on
    the low path and above it on the high path. *)
Theorem C51_mcelreath_multi_rev :
  forall ev mu r1 r2 tof M prograde low_path maxiter atol rtol full_output o v1 v2,
  vz (vcross r1 r2) <> 0 -> (1 <= M)%Z ->
  @run XR McElreath ev (call mu r1 r2 tof M prograde low_path maxiter atol rtol full_output) = Ok o ->
  delivers o v1 v2 ->
  let n1 := @norm XR (vfin r1) in
  let n2 := @norm XR (vfin r2) in
  let th := @get_transfer_angle XR (vfin r1) (vfin r2) prograde in
  let m := @mce_m XR n1 n2 th M in
  let lo := 2 * PI * IZR M in
  let hi := 2 * PI * IZR M + 2 * PI in
  exists x_first x_min k,
    @mce_solve_minimum_x XR (creal x_first) (nmul (nsqrt (Fin mu)) (Fin tof)) (nadd n1 n2) m M
      (Fin lo) (Fin hi) maxiter = Ok (x_min, k) /\
    (forall s, x_min = Fin s -> lo < s < hi ->
     exists x, lo <= x <= hi /\
       (lo < x < hi ->
        exists T, @mce_tof_equation XR (creal (Fin x)) (nadd n1 n2) m = creal (Fin (sqrt mu * T)) /\
          lambert_solution mu r1 v1 r2 v2 T M /\ moves_as_requested prograde r1 v1 /\
          (lambert_solution mu r1 v1 r2 v2 tof M <-> T = tof)) /\
       (x = s \/
        exists g j, (if low_path then lo < g < s else s < g < hi) /\
          @mce_solve_desired_x XR (creal (Fin g)) (nmul (nsqrt (Fin mu)) (Fin tof)) (nadd n1 n2) m M
            (Fin lo) (Fin hi) maxiter (Fin rtol) = Ok (creal (Fin x), j))).
Proof.
  intros ev mu r1 r2 tof M p l mi at_ rt fo o v1 v2 Hz HM1 H D. pose proof (vz_non_collinear _ _ Hz) as Hn. cbn [run] in H. cbv zeta.
  unfold mcelreath2025 in H. enter H.
  do 2 skip_check H. apply bind_ok in H. destruct H as ([x k] & EX & H). rewrite <- !norm_F in EX, H. finish H D.
  destruct (C27_mcelreath_domain r1 r2 M p Hz HM) as (Rs & m & E1 & E2 & B).
  assert (TIME : forall t, x = cr t -> 2 * PI * IZR M < t < 2 * PI * IZR M + 2 * PI ->
    exists T, @mce_tof_equation XR (creal (Fin t)) (nadd (@norm XR (vfin r1)) (@norm XR (vfin r2))) (@mce_m XR (@norm XR (vfin r1)) (@norm XR (vfin r2)) (@get_transfer_angle XR (vfin r1) (vfin r2) p) M) = creal (Fin (sqrt mu * T)) /\
          lambert_solution mu r1 v1 r2 v2 T M /\ moves_as_requested p r1 v1 /\
          (lambert_solution mu r1 v1 r2 v2 tof M <-> T = tof)).
  { intros t -> Htt. assert (HA : anomaly M (cr t)) by (constructor; lra).
    destruct (C51_mcelreath_time mu r1 r2 M p (cr t) v1 v2 Hmu Hz HM HA EV) as (T & T1 & T2 & T3). exists T. split; [exact T1|]. split; [exact T2|]. split; [exact T3|].
    split; [intros T4; exact (time_unique _ _ _ _ _ _ _ _ Hmu Hn T2 T4)|intros <-; exact T2]. }
  clear EV.
  unfold mce_find_x in EX. destruct (Z.eqb_spec M 0) as [|_]; [lia|]. unfold mce_find_multi_revolution_x in EX. cbv zeta in EX.
  apply bind_ok in EX. destruct EX as ([xm km] & EM & EX). eexists; exists xm, km. split; [exact EM|].
  intros s -> Hs. clear EM.
  match type of EX with (if ?b then _ else _) = _ => destruct b eqn:EG; [discriminate EX|clear EG] end.
  match type of EX with (if ?b then _ else _) = _ => destruct b eqn:EG; clear EG end.
  { apply Ok_inj in EX. apply pair_equal_spec in EX. destruct EX as [EX _]. rewrite creal_F in EX. exists s. split; [lra|]. split; [apply TIME; now symmetry|now left]. }
  pose proof (mce_guesses (nmul (nsqrt (Fin mu)) (Fin tof)) (cre (@mce_tof_equation XR (creal (Fin s)) (nadd (@norm XR (vfin r1)) (@norm XR (vfin r2))) (@mce_m XR (@norm XR (vfin r1)) (@norm XR (vfin r2)) (@get_transfer_angle XR (vfin r1) (vfin r2) p) M))) s
    (nadd (@norm XR (vfin r1)) (@norm XR (vfin r2))) (@mce_m XR (@norm XR (vfin r1)) (@norm XR (vfin r2)) (@get_transfer_angle XR (vfin r1) (vfin r2) p) M) (@get_transfer_angle XR (vfin r1) (vfin r2) p) M Hs) as GG.
  match type of GG with context [mce_initial_guesses ?a1 ?a2 ?a3 ?a4 ?a5 ?a6 ?a7] => change (mce_initial_guesses a1 a2 a3 a4 a5 a6 a7) with (@mce_initial_guesses XR a1 a2 a3 a4 a5 a6 a7) in GG end.
  destruct (mce_initial_guesses _ _ _ _ _ _ _) as [gs gl]. destruct GG as [GS GL].
  apply bind_ok in EX. destruct EX as ([y ky] & ED & EX). apply Ok_inj in EX. apply pair_equal_spec in EX. destruct EX as [-> _].
  set (g0 := if l then gs else gl) in *.
  assert (GI : g0 = NaN \/ exists g, g0 = Fin g /\ (if l then 2 * PI * IZR M < g < s else s < g < 2 * PI * IZR M + 2 * PI)) by (unfold g0; destruct l; assumption).
  clearbody g0. clear GS GL gs gl.
  assert (ES : @nmul XR (nsqrt (Fin mu)) (Fin tof) = Fin (sqrt mu * tof)) by (xunf; rewrite xsqrt_F by lra; reflexivity).
  rewrite ES in *. unfold mce_solve_desired_x in ED |- *. rewrite E1, E2 in *.
  destruct GI as [-> |(g & -> & HG)].
  - exfalso. destruct (for_range _ _ _ _) eqn:EL in ED; try discriminate ED. eapply mce_desired_nan in EL; [exact EL|reflexivity].
  - destruct (for_range _ _ _ _) as [[y' ky']| |] eqn:EL in ED; try discriminate ED. apply Ok_inj in ED. apply pair_equal_spec in ED. destruct ED as [-> ->].
    pose proof (fun tpr tol n i => mce_desired_bounds (sqrt mu * tof) Rs m (2 * PI * IZR M) (2 * PI * IZR M + 2 * PI) B ltac:(pose proof PI_RGT_0; lra) (creal (Fin g)) tpr tol n i x ky) as DB. rewrite creal_F in DB.
    edestruct DB as (b & EB & HB); [right; exists g; split; [reflexivity|destruct l; lra]|exact EL|]. exists b. split; [exact HB|]. split; [now apply TIME|].
    right. exists g, ky. split; [exact HG|]. rewrite creal_F. setoid_rewrite EL. now rewrite EB, creal_F.
Qed.
Print Assumptions C51_mcelreath_multi_rev.
