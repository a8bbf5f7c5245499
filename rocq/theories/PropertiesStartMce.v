(** * mcelreath2025 starts on the side of the solution: C61. *)
From Coq Require Import Reals ZArith Bool Lra Lia Psatz.
From Coquelicot Require Import Coquelicot.
From Verif Require Import Num XReal XRealLemmas MApi MLinalg MAngles MComplex MMcelreath Spec SpecLambert VecFacts VecXR UniversalKepler LambertUV LambertRev LambertZ ZMono LambertUnique
  Godal GodalXR GodalIzzo GodalMore OrbitXR DelatorreXR ApiFacts CallXR ComplexXR McelreathXR PropertiesAngles PropertiesMotion PropertiesOrbit PropertiesStumpff PropertiesUnique PropertiesMultiRev PropertiesNegrete
  PropertiesMcelreath PropertiesMcelreathDeriv PropertiesMcelreathRev MComplex.
Local Open Scope R_scope.

(** ** Complex powers and logarithms of real numbers *)
Lemma cr_log_pos a : 0 < a -> @clog XR (cr a) = cr (ln a).
Proof.
  intros H. unfold clog. rewrite cr_abs, Rabs_pos_eq by lra. change (@nln XR) with xln. rewrite xln_F by assumption. unfold cr, cc. cbn [cre cim].
  change (@natan2 XR (Fin 0) (Fin a)) with (Fin (Ratan2 0 a)). unfold Ratan2. destruct (Rlt_dec 0 a); [|contradiction]. unfold Rdiv. now rewrite Rmult_0_l, atan_0.
Qed.
Lemma cr_log_neg a : a < 0 -> @clog XR (cr a) = cc (ln (- a)) PI.
Proof.
  intros H. unfold clog. rewrite cr_abs, Rabs_left by lra. change (@nln XR) with xln. rewrite xln_F by lra. unfold cr, cc. cbn [cre cim].
  change (@natan2 XR (Fin 0) (Fin a)) with (Fin (Ratan2 0 a)). unfold Ratan2. destruct (Rlt_dec 0 a); [lra|]. destruct (Rlt_dec a 0); [|lra]. destruct (Rle_dec 0 0); [|lra].
  unfold Rdiv. now rewrite Rmult_0_l, atan_0, Rplus_0_l.
Qed.
Lemma cr_exp a : @cexp XR (cr a) = cr (exp a).
Proof. change (cc (exp a * cos 0) (exp a * sin 0) = cr (exp a)). rewrite cos_0, sin_0. apply cc_eq; ring. Qed.
Lemma cr_pow a b : 0 < a -> @cpow XR (cr a) (cr b) = cr (Rpower a b).
Proof. intros H. unfold cpow. rewrite cr_log_pos by assumption. now rewrite cr_mul, cr_exp. Qed.

Lemma ln_lt_iff a b : 0 < a -> 0 < b -> (ln a < ln b <-> a < b).
Proof. intros Ha Hb. split; [now apply ln_lt_inv|now apply ln_increasing]. Qed.
Lemma ln_eq_iff a b : 0 < a -> 0 < b -> (ln a = ln b <-> a = b).
Proof. intros Ha Hb. split; [now apply ln_inv|now intros ->]. Qed.
Lemma Rpower_lt_iff a b e : 0 < a -> 0 < b -> 0 < e -> (Rpower a e < Rpower b e <-> a < b) /\ (Rpower a e = Rpower b e <-> a = b).
Proof.
  intros Ha Hb He. assert (M : forall a b, 0 < a -> a < b -> Rpower a e < Rpower b e).
  { intros x y Hx L. unfold Rpower. apply exp_increasing. apply Rmult_lt_compat_l; [assumption|]. now apply ln_increasing. }
  destruct (Rtotal_order a b) as [L|[->|L]].
  - pose proof (M a b Ha L). split; split; intros; lra.
  - split; split; intros; lra.
  - pose proof (M b a Hb L). split; split; intros; lra.
Qed.

(** The bound of the imaginary axis: [cosh] of it is [tau]. *)
Lemma acosh_facts tau : 1 < tau -> 0 < ln (tau + sqrt (tau * tau - 1)) /\ cosh (ln (tau + sqrt (tau * tau - 1))) = tau.
Proof.
  intros H. assert (D : 0 < tau * tau - 1) by nra. destruct (sqrt_facts _ D) as [S1' S2']. set (s := sqrt (tau * tau - 1)) in *. clearbody s. split.
  - rewrite <- ln_1. apply ln_increasing; lra.
  - unfold cosh. rewrite exp_Ropp, exp_ln by lra. apply Rmult_eq_reg_r with (2 * (tau + s)); [|lra]. field_simplify; [|lra]. nra.
Qed.
Lemma cosh_double x : cosh (2 * x) = 2 * (cosh x * cosh x) - 1.
Proof.
  pose proof (cosh_half (2 * x)) as E. replace (2 * x / 2) with x in E by field. pose proof (cosh_sinh x) as _H || idtac. 
  assert (Q : cosh x * cosh x - sinh x * sinh x = 1).
  { unfold cosh, sinh. assert (I : exp x * exp (- x) = 1) by (rewrite <- exp_plus, Rplus_opp_r; apply exp_0). set (a := exp x) in *. set (b := exp (- x)) in *. clearbody a b. 
    replace ((a + b) / 2 * ((a + b) / 2) - (a - b) / 2 * ((a - b) / 2)) with (a * b) by field. exact I. }
  lra.
Qed.

Section Start.
Variables (r1 r2 : rvec) (p : bool) (th : R).
Hypothesis Hz : vz (vcross r1 r2) <> 0.
Hypothesis ET : @get_transfer_angle XR (vfin r1) (vfin r2) p = Fin th.
Hypothesis F : angle_facts p r1 r2 th.
Let Hn : non_collinear r1 r2 := vz_non_collinear _ _ Hz.
Let m := sqrt (vnorm r1 * vnorm r2) * cos (th / 2).
Let A := sqrt 2 * m.
Let Rs := vnorm r1 + vnorm r2.
Let Q := 2 * m.
Definition mV z := Rs - Q * C0 z.
Definition mT z := sqrt 2 * Gz Rs Q z.

Lemma m_F : @mce_m XR (Fin (vnorm r1)) (Fin (vnorm r2)) (Fin th) 0 = Fin m.
Proof. rewrite (mce_m_F r1 r2 th 0 Hn). unfold sgM. cbn [Z.pow]. now rewrite Rmult_1_l. Qed.
Lemma m_domain : - Rs < Q < Rs.
Proof.
  destruct (C27_mcelreath_domain r1 r2 0 p Hz ltac:(lia)) as (R' & m' & E1 & E2 & B). rewrite !norm_F in *. rewrite ET, m_F in E2.
  apply Fin_inj in E2. change (Fin (vnorm r1 + vnorm r2) = Fin R') in E1. apply Fin_inj in E1. unfold Q, Rs. lra.
Qed.
Lemma Q_A : sqrt 2 * A = Q.
Proof. unfold A, Q. rewrite <- Rmult_assoc. rewrite sqrt_sqrt by lra. reflexivity. Qed.
Lemma sg0 : sgM 0 * m = m.
Proof. unfold sgM. cbn [Z.pow]. apply Rmult_1_l. Qed.
Lemma mV_eq z : mV z = Rs - sqrt 2 * A * C0 z.
Proof. unfold mV. now rewrite Q_A. Qed.
Lemma mT_tz mu z : 0 < mu -> 0 < mV z -> sqrt mu * tz mu A (mV z) z 0 = mT z.
Proof.
  intros Hm HV. rewrite mV_eq in *. rewrite tz_Gz by lra. rewrite Q_A. unfold mT. pose proof (sqrt_lt_R0 _ Hm). field. lra.
Qed.

Lemma mT_eq x z : names 0 x z -> z <> 0 -> 0 < mV z -> @mce_tof_equation XR x (Fin Rs) (Fin m) = cr (mT z).
Proof.
  intros HN H0 HV. pose proof (mce_time 1 r1 r2 th 0 ltac:(lra) ltac:(lia) x z HN H0) as E. fold m in E. fold A in E. rewrite sg0 in E. fold Rs in E.
  rewrite E by (rewrite <- mV_eq; exact HV). rewrite <- mV_eq. now rewrite mT_tz by (assumption || lra).
Qed.
Lemma mT_par : @mce_parabolic_tof XR (Fin Rs) (Fin m) = Fin (mT 0).
Proof.
  pose proof m_domain as D. assert (HV : 0 < mV 0) by (unfold mV; destruct at_0 as [-> _]; lra).
  pose proof (mce_time_par 1 r1 r2 th 0 ltac:(lra) ltac:(lia) eq_refl) as E. fold m in E. fold A in E. rewrite sg0 in E. fold Rs in E.
  rewrite E by (rewrite <- mV_eq; exact HV). rewrite <- mV_eq. now rewrite mT_tz by (assumption || lra).
Qed.
Lemma mT_order z z' : z < PI * PI -> z' < PI * PI -> 0 < mV z -> 0 < mV z' -> (mT z < mT z' <-> z < z') /\ (mT z = mT z' <-> z = z').
Proof.
  intros H H' V V'. pose proof m_domain as D. destruct (sqrt_facts 2) as [W1 _]; [lra|].
  assert (HQ : Rabs Q < Rs) by (apply Rabs_def1; lra).
  assert (I : forall a b, a < b -> b < PI * PI -> 0 < mV a -> 0 < mV b -> mT a < mT b).
  { intros a b L Hb Va Vb. unfold mT. apply Rmult_lt_compat_l; [assumption|]. now apply Gz_increasing. }
  destruct (Rtotal_order z z') as [L|[->|L]].
  - pose proof (I _ _ L H' V V'). split; split; intros; lra.
  - split; split; intros; lra.
  - pose proof (I _ _ L H V' V). split; split; intros; lra.
Qed.
Lemma mV_ell z : 0 <= z < PI * PI -> 0 < mV z.
Proof.
  intros H. pose proof m_domain as D. unfold mV. destruct at_0 as [C1 _].
  assert (CB : -1 <= C0 z <= 1).
  { destruct (Req_dec z 0) as [-> |N]; [lra|]. replace z with (sqrt z * sqrt z) by (apply sqrt_sqrt; lra). rewrite C0_ell by (apply sqrt_lt_R0; lra). apply COS_bound. }
  set (c := C0 z) in *. clearbody c. destruct (Rle_dec 0 c); [assert (0 <= (Rs - Q) * c) by (apply Rmult_le_pos; lra)|assert (0 <= (Rs + Q) * - c) by (apply Rmult_le_pos; lra)]; nra.
Qed.
Lemma mT_pos z : z < PI * PI -> 0 < mV z -> 0 < mT z.
Proof.
  intros H HV. destruct (mce_A r1 r2 p th Hn F) as [A2 As]. fold m in A2, As. fold A in A2, As.
  assert (G : fg_pair 1 r1 r2 A (mV z) (vmult (/ (A * sqrt (mV z) / sqrt 1)) (vminus r2 (vmult (1 - mV z / vnorm r1) r1))) (vmult (/ (A * sqrt (mV z) / sqrt 1)) (vminus (vmult (1 - mV z / vnorm r2) r2) r1)))
    by (split; [exact A2|exact HV|reflexivity|reflexivity]).
  pose proof (fg_lambert 1 r1 r2 A (mV z) _ _ z 0 ltac:(lra) Hn G H ltac:(lia) ltac:(intros N; now elim N)) as L.
  assert (L' := L ltac:(rewrite mV_eq; unfold Rs; ring)). clear L.
  assert (TP : 0 < tz 1 A (mV z) z 0) by (destruct L' as [[TP _] _]; exact TP).
  rewrite <- (mT_tz 1) by (assumption || lra). rewrite sqrt_1. lra.
Qed.

Section Search.
Variables (T : R) (maxiter : Z) (atol rtol : R).
Hypothesis Far : atol + rtol * Rabs (mT 0) < Rabs (T - mT 0).

Lemma not_parabolic : @nleb XR (nabs (nsub (Fin T) (Fin (mT 0)))) (nadd (Fin atol) (nmul (Fin rtol) (nabs (Fin (mT 0))))) = false.
Proof. xunf. cbn [xsub xadd xmul xlift1 xlift2]. apply xleb_Ff. lra. Qed.

(** *** Ellipses *)
Lemma start_ell : mT 0 < T ->
  exists x0, @mce_find_single_revolution_x XR (Fin T) (Fin Rs) (Fin m) (Fin th) maxiter (Fin atol) (Fin rtol) =
      @mce_solve_desired_x XR (creal (Fin x0)) (Fin T) (Fin Rs) (Fin m) 0 (Fin 0) (Fin (2 * PI)) maxiter (Fin rtol) /\
    0 < x0 < 2 * PI /\ (x0 < th <-> T < mT (th / 2 * (th / 2))) /\ (x0 = th <-> T = mT (th / 2 * (th / 2))).
Proof.
  intros HT. pose proof PI_RGT_0 as HP. pose proof (af_range _ _ _ _ F) as RG. set (zt := th / 2 * (th / 2)).
  assert (Zt : 0 < zt < PI * PI) by (unfold zt; split; nra).
  assert (NT : names 0 (cr th) zt).
  { replace (cr th) with (cr (2 * (th / 2) + 2 * PI * IZR 0)) by (apply cc_eq; [field|reflexivity]). constructor. lra. }
  pose proof (mV_ell 0 ltac:(nra)) as V0. pose proof (mV_ell zt ltac:(lra)) as Vt.
  assert (LT : mT 0 < mT zt) by (apply mT_order; nra).
  unfold mce_find_single_revolution_x. rewrite mT_par. rewrite not_parabolic. rewrite creal_F. rewrite (mT_eq _ _ NT) by (assumption || lra).
  change (@nltb XR (Fin (mT 0)) (Fin T)) with (xltb (Fin (mT 0)) (Fin T)). rewrite (proj2 (xltb_F _ _) HT). cbn [cre cr cc].
  set (a := mT 0) in *. set (b := mT zt) in *. clearbody a b. clear Vt V0 NT.
  assert (R0 : 0 < (T - a) / (b - a)) by (apply Rdiv_lt_0_compat; lra). destruct (sqrt_facts _ R0) as [S1' S2'].
  assert (K : 0 < th / (2 * PI - th)) by (apply Rdiv_lt_0_compat; lra).
  exists (2 * PI * (sqrt ((T - a) / (b - a)) * (th / (2 * PI - th))) / (1 + sqrt ((T - a) / (b - a)) * (th / (2 * PI - th)))).
  split.
  { xunf. cbn [xsub xmul xlift2]. rewrite (xdiv_F (T - a)) by lra. rewrite xsqrt_F by lra. rewrite (xdiv_F th) by lra. cbn [xadd xmul xlift2]. rewrite xdiv_F by nra. reflexivity. }
  assert (SR : (sqrt ((T - a) / (b - a)) < 1 <-> T < b) /\ (sqrt ((T - a) / (b - a)) = 1 <-> T = b)).
  { assert (E : (T - a) / (b - a) - 1 = (T - b) * / (b - a)) by (field; lra). assert (P : 0 < / (b - a)) by (apply Rinv_0_lt_compat; lra).
    set (r := (T - a) / (b - a)) in *. set (s := sqrt r) in *. set (i := / (b - a)) in *. clearbody r s i. rewrite <- S2' in E.
    assert (E' : (s - 1) * (s + 1) = (T - b) * i) by lra. split; split; intros; nra. }
  set (s := sqrt ((T - a) / (b - a))) in *. clearbody s. set (c := th / (2 * PI - th)) in *. assert (EC : th = 2 * PI * c / (1 + c)) by (unfold c; field; lra).
  assert (P : 0 < s * c) by now apply Rmult_lt_0_compat. clearbody c.
  assert (X1 : 2 * PI * (s * c) / (1 + s * c) = 2 * PI - 2 * PI / (1 + s * c)) by (field; lra).
  assert (X2 : th = 2 * PI - 2 * PI / (1 + c)) by (rewrite EC; field; lra).
  assert (I1 : 0 < 2 * PI / (1 + s * c)) by (apply Rdiv_lt_0_compat; lra).
  assert (I2 : 2 * PI / (1 + s * c) - 2 * PI / (1 + c) = (1 - s) * (2 * PI * c / ((1 + s * c) * (1 + c)))) by (field; lra).
  assert (I3 : 0 < 2 * PI * c / ((1 + s * c) * (1 + c))) by (apply Rdiv_lt_0_compat; apply Rmult_lt_0_compat; lra).
  destruct SR as [SR1 SR2]. rewrite <- SR1, <- SR2. set (u := 2 * PI * c / ((1 + s * c) * (1 + c))) in *. set (v := 2 * PI / (1 + s * c)) in *. set (w := 2 * PI / (1 + c)) in *.
  assert (0 < 2 * PI * (s * c) / (1 + s * c)) by (apply Rdiv_lt_0_compat; [apply Rmult_lt_0_compat; lra|lra]).
  set (x0 := 2 * PI * (s * c) / (1 + s * c)) in *. clearbody x0 u v w. clear EC. split; [lra|]. split; split; intros; nra.
Qed.

(** *** Hyperbolas, short way *)
Definition mH : R := ln ((Rs * Rs / (2 * (m * m)) - 1) + sqrt ((Rs * Rs / (2 * (m * m)) - 1) * (Rs * Rs / (2 * (m * m)) - 1) - 1)).
Lemma mH_facts : 0 < m -> 1 < Rs * Rs / (2 * (m * m)) - 1 /\ 0 < mH /\ forall w, 0 < w -> (0 < mV (- (w / 2 * (w / 2))) <-> w < mH).
Proof.
  intros M0. pose proof m_domain as D. fold Q in D. assert (Q0 : 0 < Q) by (unfold Q; lra).
  assert (TA : 1 < Rs * Rs / (2 * (m * m)) - 1).
  { assert (0 < 2 * (m * m)) by nra. apply Rmult_lt_reg_r with (2 * (m * m)); [assumption|]. replace ((Rs * Rs / (2 * (m * m)) - 1) * (2 * (m * m))) with (Rs * Rs - 2 * (m * m)) by (field; lra). unfold Q in D. nra. }
  split; [exact TA|]. destruct (acosh_facts _ TA) as [H1 H2]. fold mH in H1, H2. split; [exact H1|]. intros w Hw.
  unfold mV. rewrite C0_hyp by lra.
  assert (EH : Rs = Q * cosh (mH / 2)).
  { pose proof (cosh_double (mH / 2)) as E. replace (2 * (mH / 2)) with mH in E by field. rewrite H2 in E.
    assert (E' : Rs * Rs / (2 * (m * m)) = 2 * (cosh (mH / 2) * cosh (mH / 2))) by lra.
    assert (C1 : 0 < cosh (mH / 2)) by (pose proof (cosh_increasing 0 (mH / 2) ltac:(lra) ltac:(lra)); rewrite cosh_0 in *; lra).
    set (c := cosh (mH / 2)) in *. clearbody c. assert (E2 : Rs * Rs = (Q * c) * (Q * c)).
    { replace (Rs * Rs) with (Rs * Rs / (2 * (m * m)) * (2 * (m * m))) by (field; lra). rewrite E'. unfold Q. ring. }
    assert (0 < Q * c) by now apply Rmult_lt_0_compat. assert (Z : (Rs - Q * c) * (Rs + Q * c) = 0) by lra. apply Rmult_integral in Z. destruct Z; lra. }
  rewrite EH. replace (Q * cosh (mH / 2) - Q * cosh (w / 2)) with (Q * (cosh (mH / 2) - cosh (w / 2))) by ring.
  split; intros L.
  - apply Rnot_le_lt. intros G. destruct (Req_dec mH w) as [E|N]; [rewrite E in L; lra|]. pose proof (cosh_increasing (mH / 2) (w / 2) ltac:(lra) ltac:(lra)). nra.
  - apply Rmult_lt_0_compat; [assumption|]. pose proof (cosh_increasing (w / 2) (mH / 2) ltac:(lra) ltac:(lra)). lra.
Qed.

Lemma start_short : 0 < m -> th < PI -> 0 < T < mT 0 ->
  let k := exp (- (5 / 2)) * mH in
  exists w0, @mce_find_single_revolution_x XR (Fin T) (Fin Rs) (Fin m) (Fin th) maxiter (Fin atol) (Fin rtol) =
      @mce_solve_desired_x XR (cimag (Fin w0)) (Fin T) (Fin Rs) (Fin m) 0 (Fin 0) (Fin mH) maxiter (Fin rtol) /\
    0 < w0 < mH /\ 0 < k < mH /\ (w0 < k <-> mT (- (k / 2 * (k / 2))) < T) /\ (w0 = k <-> T = mT (- (k / 2 * (k / 2)))).
Proof.
  intros M0 Hth HT k. destruct (mH_facts M0) as (TA & HH & HV). pose proof PI_RGT_0 as HP.
  assert (Hk : 0 < k < mH).
  { unfold k. assert (exp (- (5 / 2)) < 1) by (rewrite <- exp_0; apply exp_increasing; lra). pose proof (exp_pos (- (5 / 2))). split; nra. }
  set (zk := - (k / 2 * (k / 2))). assert (Zk : zk < 0) by (unfold zk; nra). pose proof (proj2 (HV k ltac:(lra)) (proj2 Hk)) as Vk. fold zk in Vk.
  assert (NK : names 0 (ci k) zk).
  { replace (ci k) with (ci (2 * (k / 2))) by (apply cc_eq; [reflexivity|field]). constructor; [reflexivity|lra]. }
  pose proof (mV_ell 0 ltac:(nra)) as V0. assert (LT : mT zk < mT 0) by (apply mT_order; nra). pose proof (mT_pos zk ltac:(nra) Vk) as PT.
  pose proof (mT_eq _ _ NK ltac:(lra) Vk) as EK.
  unfold mce_find_single_revolution_x. rewrite mT_par. rewrite not_parabolic.
  change (@nltb XR (Fin (mT 0)) (Fin T)) with (xltb (Fin (mT 0)) (Fin T)). rewrite (proj2 (xltb_Ff _ _)) by lra.
  change (@nltb XR (Fin th) npi) with (xltb (Fin th) (Fin PI)). rewrite (proj2 (xltb_F _ _) Hth).
  assert (XT : @cimag XR (nln (nadd (nsub (ndiv (sq (Fin Rs)) (nmul (nofZ 2) (sq (Fin m)))) (nofZ 1)) (nsqrt (nsub (sq (nsub (ndiv (sq (Fin Rs)) (nmul (nofZ 2) (sq (Fin m)))) (nofZ 1))) (nofZ 1))))) = ci mH).
  { unfold sq. xunf. cbn [xmul xlift2]. rewrite xdiv_F by nra. cbn [xsub xmul xlift2]. rewrite xsqrt_F by nra. cbn [xadd xlift2].
    assert (0 <= sqrt ((Rs * Rs / (2 * (m * m)) - 1) * (Rs * Rs / (2 * (m * m)) - 1) - 1)) by apply sqrt_pos.
    rewrite xln_F by lra. reflexivity. }
  rewrite XT. clear XT. change (@nexp XR (nopp (nlit 5 2))) with (Fin (exp (- (5 / 2)))). rewrite ci_scale. fold k. rewrite EK.
  set (a0 := mT 0) in *. set (b0 := mT zk) in *. clearbody a0 b0. clear EK Vk V0.
  change (@creal XR (nlit 8 5)) with (cr (8 / 5)). change (@creal XR (nlit 5 2)) with (cr (5 / 2)). rewrite !creal_F. rewrite !cr_pow by lra.
  destruct (Rpower_lt_iff b0 a0 (8 / 5) ltac:(lra) ltac:(lra) ltac:(lra)) as [PW _].
  destruct (Rpower_lt_iff T a0 (8 / 5) ltac:(lra) ltac:(lra) ltac:(lra)) as [PW2 _].
  destruct (Rpower_lt_iff b0 T (8 / 5) ltac:(lra) ltac:(lra) ltac:(lra)) as [PW3 PW4].
  assert (ER : Rpower (T / a0) (8 / 5) = Rpower T (8 / 5) / Rpower a0 (8 / 5)).
  { unfold Rpower, Rdiv. rewrite ln_mult by (try apply Rinv_0_lt_compat; lra). rewrite ln_Rinv by lra. rewrite Rmult_plus_distr_l, exp_plus. rewrite <- Ropp_mult_distr_r, exp_Ropp. reflexivity. }
  assert (PA : 0 < Rpower a0 (8 / 5)) by apply exp_pos. assert (PB : 0 < Rpower b0 (8 / 5)) by apply exp_pos. assert (PC : 0 < Rpower T (8 / 5)) by apply exp_pos.
  assert (XU : @creal XR (nsub (nofZ 1) (npow (ndiv (Fin T) (Fin a0)) (nlit 8 5))) = cr (1 - Rpower T (8 / 5) / Rpower a0 (8 / 5))).
  { xunf. rewrite (xdiv_F T) by lra. change (@nlit XR 8 5) with (Fin (8 / 5)). rewrite xpow_F by (apply Rdiv_lt_0_compat; lra). rewrite ER. reflexivity. }
  rewrite XU. clear XU ER. set (a := Rpower a0 (8 / 5)) in *. set (b := Rpower b0 (8 / 5)) in *. set (c := Rpower T (8 / 5)) in *. clearbody a b c.
  assert (Lba : b < a) by (apply PW; lra). assert (Lca : c < a) by (apply PW2; lra). clear PW PW2.
  rewrite cr_opp, cr_sub. rewrite (cr_log_neg (- a)), (cr_log_neg (b - a)) by lra. rewrite csub_F. replace (PI - PI) with 0 by ring.
  replace (- - a) with a by ring. replace (- (b - a)) with (a - b) by ring. fold (cr (ln a - ln (a - b))).
  assert (LL : ln (a - b) < ln a) by (apply ln_increasing; lra). rewrite cr_div by lra.
  assert (U0' : 0 < 1 - c / a). { replace (1 - c / a) with ((a - c) / a) by (field; lra). apply Rdiv_lt_0_compat; lra. }
  rewrite cr_pow by exact U0'. rewrite ci_cr_mul.
  set (e := 5 / 2 / (ln a - ln (a - b))). assert (E0 : 0 < e) by (unfold e; apply Rdiv_lt_0_compat; lra).
  exists (mH * Rpower (1 - c / a) e). split; [reflexivity|].
  assert (LU : ln (1 - c / a) = ln (a - c) - ln a).
  { replace (1 - c / a) with ((a - c) * / a) by (field; lra). rewrite ln_mult by (try apply Rinv_0_lt_compat; lra). rewrite ln_Rinv by lra. ring. }
  unfold Rpower. rewrite LU. assert (LC : ln (a - c) < ln a) by (apply ln_increasing; lra).
  assert (X1 : exp (e * (ln (a - c) - ln a)) < 1) by (rewrite <- exp_0; apply exp_increasing; nra). pose proof (exp_pos (e * (ln (a - c) - ln a))) as X0.
  split; [split; nra|]. split; [exact Hk|].
  assert (EE : e * (ln (a - b) - ln a) = - (5 / 2)) by (unfold e; field; lra).
  assert (M1 : e * (ln (a - c) - ln a) < - (5 / 2) <-> b0 < T).
  { rewrite <- EE. rewrite <- PW3. split; intros L.
    - assert (ln (a - c) < ln (a - b)) by (apply Rmult_lt_reg_l with e; [assumption|lra]). apply ln_lt_inv in H; lra.
    - apply Rmult_lt_compat_l; [assumption|]. assert (ln (a - c) < ln (a - b)) by (apply ln_increasing; lra). lra. }
  assert (M2 : e * (ln (a - c) - ln a) = - (5 / 2) <-> b0 = T).
  { rewrite <- EE. rewrite <- PW4. split; intros L; [|now rewrite L].
    assert (ln (a - c) = ln (a - b)) by (apply Rmult_eq_reg_l with e; lra). apply ln_inv in H; lra. }
  assert (X2 : forall u v, mH * exp u < exp v * mH <-> u < v).
  { intros u v. rewrite (Rmult_comm (exp v)). split; intros L; [apply exp_lt_inv; apply Rmult_lt_reg_l with mH; assumption|apply Rmult_lt_compat_l; [assumption|now apply exp_increasing]]. }
  unfold k. rewrite X2, M1. split; [reflexivity|]. split; intros L.
  - symmetry. apply M2. apply exp_inv. apply Rmult_eq_reg_l with mH; lra.
  - assert (b0 = T) as L' by now symmetry. apply M2 in L'. rewrite L'. ring.
Qed.

(** *** Hyperbolas, long way *)
Lemma start_long : m < 0 -> PI < th -> 0 < T < mT 0 ->
  exists w0, @mce_find_single_revolution_x XR (Fin T) (Fin Rs) (Fin m) (Fin th) maxiter (Fin atol) (Fin rtol) =
      @mce_solve_desired_x XR (cimag (Fin w0)) (Fin T) (Fin Rs) (Fin m) 0 (Fin 0) (@ndiv XR (Fin 1) (Fin 0)) maxiter (Fin rtol) /\
    0 < w0 /\ (w0 < th <-> mT (- (th / 2 * (th / 2))) < T) /\ (w0 = th <-> T = mT (- (th / 2 * (th / 2)))).
Proof.
  intros M0 Hth HT. pose proof PI_RGT_0 as HP. set (zk := - (th / 2 * (th / 2))). assert (Zk : zk < 0) by (unfold zk; nra).
  assert (Vk : 0 < mV zk).
  { unfold mV, zk. rewrite C0_hyp by lra. pose proof m_domain as D. pose proof (cosh_increasing 0 (th / 2) ltac:(lra) ltac:(lra)) as C. rewrite cosh_0 in C. unfold Q in *. nra. }
  assert (NK : names 0 (ci th) zk).
  { replace (ci th) with (ci (2 * (th / 2))) by (apply cc_eq; [reflexivity|field]). constructor; [reflexivity|lra]. }
  pose proof (mV_ell 0 ltac:(nra)) as V0. assert (LT : mT zk < mT 0) by (apply mT_order; nra). pose proof (mT_pos zk ltac:(nra) Vk) as PT.
  pose proof (mT_eq _ _ NK ltac:(lra) Vk) as EK.
  unfold mce_find_single_revolution_x. rewrite mT_par. rewrite not_parabolic.
  change (@nltb XR (Fin (mT 0)) (Fin T)) with (xltb (Fin (mT 0)) (Fin T)). rewrite (proj2 (xltb_Ff _ _)) by lra.
  change (@nltb XR (Fin th) npi) with (xltb (Fin th) (Fin PI)). rewrite (proj2 (xltb_Ff _ _)) by lra.
  rewrite !cimag_F, EK. set (a := mT 0) in *. set (b := mT zk) in *. clearbody a b.
  rewrite !creal_F. rewrite cr_div by lra.
  assert (PB : 0 < b / a) by (apply Rdiv_lt_0_compat; lra). assert (PT' : 0 < T / a) by (apply Rdiv_lt_0_compat; lra).
  rewrite cr_log_pos by exact PB.
  assert (XU : @creal XR (nln (ndiv (Fin T) (Fin a))) = cr (ln (T / a))) by (xunf; rewrite (xdiv_F T) by lra; now rewrite xln_F).
  rewrite XU. assert (EB : ln (b / a) = ln b - ln a) by (unfold Rdiv; rewrite ln_mult, ln_Rinv by (try apply Rinv_0_lt_compat; lra); ring).
  assert (EC : ln (T / a) = ln T - ln a) by (unfold Rdiv; rewrite ln_mult, ln_Rinv by (try apply Rinv_0_lt_compat; lra); ring).
  rewrite EB, EC. assert (LB : ln b < ln a) by (apply ln_increasing; lra). assert (LC : ln T < ln a) by (apply ln_increasing; lra).
  rewrite cr_div by lra. assert (RH : 0 < (ln T - ln a) / (ln b - ln a)).
  { replace ((ln T - ln a) / (ln b - ln a)) with ((ln a - ln T) / (ln a - ln b)) by (field; lra). apply Rdiv_lt_0_compat; lra. }
  rewrite cr_sqrt by lra. rewrite ci_cr_mul. destruct (sqrt_facts _ RH) as [S1' S2'].
  exists (th * sqrt ((ln T - ln a) / (ln b - ln a))). split; [reflexivity|]. split; [apply Rmult_lt_0_compat; lra|].
  assert (E : (ln T - ln a) / (ln b - ln a) - 1 = (ln b - ln T) * / (ln a - ln b)) by (field; lra).
  assert (P : 0 < / (ln a - ln b)) by (apply Rinv_0_lt_compat; lra).
  pose proof (ln_lt_iff b T ltac:(lra) ltac:(lra)) as I1. pose proof (ln_eq_iff T b ltac:(lra) ltac:(lra)) as I2. rewrite <- I1, <- I2.
  set (s := sqrt ((ln T - ln a) / (ln b - ln a))) in *. set (r := (ln T - ln a) / (ln b - ln a)) in *. set (i := / (ln a - ln b)) in *. set (lb := ln b) in *. set (lt := ln T) in *. clearbody s r i lb lt. rewrite <- S2' in E.
  assert (E' : (s - 1) * (s + 1) = (lb - lt) * i) by lra.
  assert (W : (th * s < th <-> s < 1) /\ (th * s = th <-> s = 1)) by (split; split; intros; nra). destruct W as [-> ->].
  split; split; intros; nra.
Qed.
End Search.
End Start.

(** ** C61: mcelreath2025 without revolutions

    Let [x] stand for the transfer asked for: its change of eccentric anomaly,
    real for an ellipse and imaginary for a hyperbola.  Unless the request is
    close enough to the parabola to be answered at once, the iteration starts
    from a point on the same axis, inside the bounds it is given, and on the same
    side as [x] of the point the guess is fitted to: the transfer angle itself on
    the real axis and the long way on the imaginary one, [exp(-5/2)] of the bound
    the short way.  There the guess is exact. *)
Theorem C61_mcelreath_single :
  forall mu r1 r2 v1 v2 tof prograde maxiter atol rtol,
  0 < mu -> vz (vcross r1 r2) <> 0 -> 0 <= atol -> 0 <= rtol ->
  lambert_solution mu r1 v1 r2 v2 tof 0 -> moves_as_requested prograde r1 v1 ->
  let n1 := @norm XR (vfin r1) in
  let n2 := @norm XR (vfin r2) in
  let th := @get_transfer_angle XR (vfin r1) (vfin r2) prograde in
  let m := @mce_m XR n1 n2 th 0 in
  let T := sqrt mu * tof in
  forall tp, @mce_parabolic_tof XR (nadd n1 n2) m = Fin tp ->
  atol + rtol * Rabs tp < Rabs (T - tp) ->
  exists x x0 hi turn,
    @mce_tof_equation XR x (nadd n1 n2) m = creal (Fin T) /\
    @mce_velocities XR (Fin mu) (vfin r1) (vfin r2) n1 n2 th m x = (vfin v1, vfin v2) /\
    @mce_find_single_revolution_x XR (Fin T) (nadd n1 n2) m th maxiter (Fin atol) (Fin rtol) =
      @mce_solve_desired_x XR x0 (Fin T) (nadd n1 n2) m 0 (Fin 0) hi maxiter (Fin rtol) /\
    th = Fin turn /\
    ((tp < T /\ exists t t0,
       x = creal (Fin t) /\ x0 = creal (Fin t0) /\ hi = Fin (2 * PI) /\
       0 < t < 2 * PI /\ 0 < t0 < 2 * PI /\ (t0 < turn <-> t < turn) /\ (t0 = turn <-> t = turn)) \/
     (T < tp /\ exists w w0,
       x = cimag (Fin w) /\ x0 = cimag (Fin w0) /\ 0 < w /\ 0 < w0 /\
       ((turn < PI /\ exists h, hi = Fin h /\ w < h /\ w0 < h /\
          (w0 < exp (- (5 / 2)) * h <-> w < exp (- (5 / 2)) * h) /\
          (w0 = exp (- (5 / 2)) * h <-> w = exp (- (5 / 2)) * h)) \/
        (PI < turn /\ hi = @ndiv XR (Fin 1) (Fin 0) /\
          (w0 < turn <-> w < turn) /\ (w0 = turn <-> w = turn))))).
Proof.
  intros mu r1 r2 v1 v2 tof p mi at_ rt Hm Hz Ha Hr L D n1 n2 tx mx T tp EP Far. pose proof (vz_non_collinear _ _ Hz) as Hn.
  pose proof (C51_mcelreath_roots mu r1 r2 v1 v2 tof 0 p Hm Hz L D) as RT. cbv zeta in RT. fold n1 n2 in RT. fold tx in RT. fold mx in RT. fold T in RT.
  assert (TP : 0 < T) by (unfold T; destruct L as [[TP _] _]; apply Rmult_lt_0_compat; [now apply sqrt_lt_R0|exact TP]).
  assert (N1 : n1 = Fin (vnorm r1)) by apply norm_F. assert (N2 : n2 = Fin (vnorm r2)) by apply norm_F.
  destruct (transfer_angle r1 r2 p Hn) as (th & ET & F). assert (NX : tx = Fin th) by exact ET. clearbody tx. subst tx.
  pose proof (m_F r1 r2 th Hz) as EM. unfold mx in *. clear mx. rewrite N1, N2, EM in *. clearbody n1 n2. clear N1 N2 n1 n2.
  change (@nadd XR (Fin (vnorm r1)) (Fin (vnorm r2))) with (Fin (vnorm r1 + vnorm r2)) in *.
  rewrite (mT_par r1 r2 p th Hz ET) in EP, RT. apply Fin_inj in EP. subst tp.
  destruct RT as [(_ & E & _)|(x & HA & E & EV)].
  { exfalso. apply Fin_inj in E. rewrite E in Far. unfold T in Far. replace (sqrt mu * tof - sqrt mu * tof) with 0 in Far by ring. rewrite Rabs_R0 in Far.
    pose proof (Rabs_pos (sqrt mu * tof)). nra. }
  destruct (anomaly_names 0 x HA) as (z & Z0 & HN). destruct (names_range _ _ _ HN) as [Z1 _].
  assert (HV : 0 < mV r1 r2 th z).
  { rewrite mV_eq. pose proof (mce_pair mu r1 r2 p th 0 Hm Hn F ltac:(lia) x z v1 v2 HN) as MP. rewrite sg0 in MP. apply MP in EV. exact (fg_V _ _ _ _ _ _ _ EV). }
  assert (TZ : T = mT r1 r2 th z).
  { pose proof (mT_eq r1 r2 th x z HN Z0 HV) as E'. rewrite E' in E. rewrite creal_F in E. now apply cr_inj in E. }
  pose proof PI_RGT_0 as HP. pose proof (af_range _ _ _ _ F) as RG. assert (V0 : 0 < mV r1 r2 th 0) by (apply (mV_ell r1 r2 p th Hz ET); nra).
  pose proof (fun z' H' V' => mT_order r1 r2 p th Hz ET z z' Z1 H' HV V') as OR. rewrite <- TZ in OR.
  pose proof (fun z' H' V' => mT_order r1 r2 p th Hz ET z' z H' Z1 V' HV) as OL. rewrite <- TZ in OL.
  assert (Hpi : 0 < PI * PI) by nra.
  destruct (OL 0 ltac:(lra) V0) as [OL0 _]. destruct (OR 0 ltac:(lra) V0) as [OR0 _].
  set (h := mH r1 r2 th).
  destruct HN as [s Hs|H|s _ Hs]; [|contradiction|].
  - assert (HT : mT r1 r2 th 0 < T) by (apply OL0; nra).
    destruct (start_ell r1 r2 p th Hz ET F T mi at_ rt Far HT) as (x0 & ES & B & S1' & S2').
    exists (cr (2 * s + 2 * PI * IZR 0)), (@creal XR (Fin x0)), (Fin (2 * PI)), th. split; [exact E|]. split; [exact EV|]. split; [exact ES|]. split; [reflexivity|]. left. split; [exact HT|].
    exists (2 * s + 2 * PI * IZR 0), x0. split; [reflexivity|]. split; [reflexivity|]. split; [reflexivity|]. split; [lra|]. split; [exact B|].
    assert (Vt : 0 < mV r1 r2 th (th / 2 * (th / 2))) by (apply (mV_ell r1 r2 p th Hz ET); nra).
    destruct (OR (th / 2 * (th / 2)) ltac:(nra) Vt) as [O1 O2]. rewrite S1', S2', O1, O2. split; split; intros; nra.
  - assert (HT : T < mT r1 r2 th 0) by (apply OR0; nra).
    pose proof (af_half _ _ _ _ F) as FH. pose proof (af_pi _ _ _ _ F) as FP. pose proof (af_npi _ _ _ _ F) as FN.
    destruct (norms_pos _ _ Hn) as [N1 N2]. assert (P : 0 < vnorm r1 * vnorm r2) by now apply Rmult_lt_0_compat. pose proof (sqrt_lt_R0 _ P) as SP.
    destruct (Rlt_dec th PI) as [Q|Q].
    + assert (M0 : 0 < sqrt (vnorm r1 * vnorm r2) * cos (th / 2)) by (apply Rmult_lt_0_compat; [assumption|tauto]).
      destruct (start_short r1 r2 p th Hz ET F T mi at_ rt Far M0 Q ltac:(lra)) as (w0 & ES & B & K & S1' & S2').
      destruct (mH_facts r1 r2 p th Hz ET M0) as (_ & H0 & HW). fold h in H0, HW, ES, B, K, S1', S2'.
      assert (HWs : 2 * s < h) by (apply HW; [lra|]; replace (2 * s / 2) with s by field; exact HV).
      exists (ci (2 * s)), (@cimag XR (Fin w0)), (Fin h), th. split; [exact E|]. split; [exact EV|]. split; [exact ES|]. split; [reflexivity|]. right. split; [exact HT|].
      exists (2 * s), w0. split; [reflexivity|]. split; [reflexivity|]. split; [lra|]. split; [lra|]. left. split; [exact Q|]. exists h. split; [reflexivity|]. split; [exact HWs|]. split; [lra|].
      set (k := exp (- (5 / 2)) * h) in *. assert (Vk : 0 < mV r1 r2 th (- (k / 2 * (k / 2)))) by (apply HW; lra).
      assert (ZK : - (k / 2 * (k / 2)) < PI * PI) by nra. destruct (OL _ ZK Vk) as [O1 _]. destruct (OR _ ZK Vk) as [_ O2]. rewrite S1', S2', O1, O2. clearbody k. split; split; intros; nra.
    + assert (M0 : sqrt (vnorm r1 * vnorm r2) * cos (th / 2) < 0).
      { pose proof (af_half_sq _ _ _ _ F) as Hq. pose proof (af_cos _ _ _ _ F) as Hc. assert (~ 0 < cos (th / 2)) by tauto. assert (cos (th / 2) <> 0) by (intros Z; rewrite Z in Hq; lra). nra. }
      destruct (start_long r1 r2 p th Hz ET F T mi at_ rt Far M0 ltac:(lra) ltac:(lra)) as (w0 & ES & B & S1' & S2').
      exists (ci (2 * s)), (@cimag XR (Fin w0)), (@ndiv XR (Fin 1) (Fin 0)), th. split; [exact E|]. split; [exact EV|]. split; [exact ES|]. split; [reflexivity|]. right. split; [exact HT|].
      exists (2 * s), w0. split; [reflexivity|]. split; [reflexivity|]. split; [lra|]. split; [lra|]. right. split; [lra|]. split; [reflexivity|].
      assert (Vk : 0 < mV r1 r2 th (- (th / 2 * (th / 2)))).
      { unfold mV. rewrite C0_hyp by lra. pose proof (m_domain r1 r2 p th Hz ET) as DD. pose proof (cosh_increasing 0 (th / 2) ltac:(lra) ltac:(lra)) as C. rewrite cosh_0 in C. nra. }
      assert (ZK : - (th / 2 * (th / 2)) < PI * PI) by nra. destruct (OL _ ZK Vk) as [O1 _]. destruct (OR _ ZK Vk) as [_ O2]. rewrite S1', S2', O1, O2. split; split; intros; nra.
Qed.
Print Assumptions C61_mcelreath_single.

(** A quarter turn in 10 units of time is an ellipse the hypotheses hold for, and
    half the time of the parabola, taken either way round, a hyperbola. *)
Example C61_mcelreath_case :
  let n1 := @norm XR (vfin ex_r1) in
  let n2 := @norm XR (vfin ex_r2) in
  forall p, let th := @get_transfer_angle XR (vfin ex_r1) (vfin ex_r2) p in
  let m := @mce_m XR n1 n2 th 0 in
  exists tp, @mce_parabolic_tof XR (nadd n1 n2) m = Fin tp /\ 0 < tp /\
    (exists v1 v2, lambert_solution 1 ex_r1 v1 ex_r2 v2 10 0 /\ moves_as_requested p ex_r1 v1 /\
       1 / 1000 + 1 / 1000 * Rabs tp < Rabs (sqrt 1 * 10 - tp) /\ tp < 10) /\
    (exists v1 v2, lambert_solution 1 ex_r1 v1 ex_r2 v2 (tp / 2) 0 /\ moves_as_requested p ex_r1 v1 /\
       0 + 1 / 10 * Rabs tp < Rabs (sqrt 1 * (tp / 2) - tp)).
Proof.
  intros n1 n2 p th m. assert (Hz : vz (vcross ex_r1 ex_r2) <> 0) by (unfold ex_r1, ex_r2; vunf; lra). pose proof (vz_non_collinear _ _ Hz) as Hn.
  destruct (transfer_angle ex_r1 ex_r2 p Hn) as (t & ET & F). unfold m, th, n1, n2. rewrite ET, !norm_F, (m_F ex_r1 ex_r2 t Hz).
  change (@nadd XR (Fin (vnorm ex_r1)) (Fin (vnorm ex_r2))) with (Fin (vnorm ex_r1 + vnorm ex_r2)).
  assert (N : vnorm ex_r1 = 1 /\ vnorm ex_r2 = 1).
  { unfold ex_r1, ex_r2, vnorm, vdot. cbn [vx vy vz]. split; [replace (1 * 1 + 0 * 0 + 0 * 0) with 1 by ring|replace (0 * 0 + 1 * 1 + 0 * 0) with 1 by ring]; exact sqrt_1. }
  assert (B0 : 0 < mT ex_r1 ex_r2 t 0).
  { apply (mT_pos ex_r1 ex_r2 p t Hz F); [pose proof PI_RGT_0; nra|]. apply (mV_ell ex_r1 ex_r2 p t Hz ET). pose proof PI_RGT_0; nra. }
  pose proof (mT_par ex_r1 ex_r2 p t Hz ET) as EP. pose proof (m_domain ex_r1 ex_r2 p t Hz ET) as DM. exists (mT ex_r1 ex_r2 t 0). split; [exact EP|]. split; [exact B0|].
  assert (B1 : mT ex_r1 ex_r2 t 0 < 9).
  { revert EP. unfold mce_parabolic_tof, cube. xunf. cbn [xmul xsub xlift2]. set (k := sqrt _ * cos _) in *. rewrite (proj1 N), (proj2 N) in *.
    rewrite xsqrt_F by lra. cbn [xmul xlift2]. rewrite xdiv_F by lra. cbn [xadd xlift2]. intros EP. apply Fin_inj in EP. rewrite <- EP.
    assert (SB : 0 <= sqrt (2 * (1 + 1 - 2 * k)) <= 2828428 / 1000000). { split; [apply sqrt_pos|]. apply Rsqr_incr_0_var; [|lra]. unfold Rsqr. rewrite sqrt_sqrt by lra. lra. }
    set (s := sqrt (2 * (1 + 1 - 2 * k))) in *. clearbody s. assert (k * s <= 2828428 / 1000000) by nra. assert (s * s <= 8000005 / 1000000) by nra. assert (s * s * s <= 23) by nra. lra. }
  set (tp := mT ex_r1 ex_r2 t 0) in *. clearbody tp. rewrite sqrt_1, (Rabs_pos_eq tp) by lra. split.
  - destruct (C36_zero_rev_exists 1 ex_r1 ex_r2 10 p ltac:(lra) Hz ltac:(lra)) as (v1 & v2 & L & D). exists v1, v2. split; [exact L|]. split; [exact D|]. rewrite Rabs_pos_eq by lra. lra.
  - destruct (C36_zero_rev_exists 1 ex_r1 ex_r2 (tp / 2) p ltac:(lra) Hz ltac:(lra)) as (v1 & v2 & L & D). exists v1, v2. split; [exact L|]. split; [exact D|]. rewrite Rabs_left by lra. lra.
Qed.

(** ** With revolutions

    The two guesses solve, on either side of the minimum [xm], the equation of a
    curve with the poles of the time at both bounds that passes through the
    minimum and through the time at the transfer angle. *)
Lemma root_short g lo xm hi : g < 0 -> lo < xm < hi ->
  let b := - g * (lo + hi) + 1 in
  let c := g * (lo * hi) - xm in
  let s := (- b + sqrt (b * b - 4 * g * c)) / (2 * g) in s - xm = g * ((s - lo) * (hi - s)).
Proof.
  intros G H b c s. destruct (guess_short g lo xm hi G H) as [DS _]. fold b c in DS. pose proof (sqrt_sqrt _ (Rlt_le _ _ DS)) as SS.
  unfold s. set (r := sqrt (b * b - 4 * g * c)) in *. clearbody r. apply Rminus_diag_uniq.
  replace ((- b + r) / (2 * g) - xm - g * (((- b + r) / (2 * g) - lo) * (hi - (- b + r) / (2 * g)))) with ((r * r - (b * b - 4 * g * c)) / (4 * g)) by (unfold b, c; field; lra).
  rewrite SS. unfold Rdiv. ring.
Qed.
Lemma root_long g lo xm hi : g < 0 -> lo < xm < hi ->
  let b := g * (lo + hi) + 1 in
  let c := - g * (lo * hi) - xm in
  let s := (- b + sqrt (b * b + 4 * g * c)) / (- (2) * g) in s - xm = - g * ((s - lo) * (hi - s)).
Proof.
  intros G H b c s. destruct (guess_long g lo xm hi G H) as [DS _]. fold b c in DS. pose proof (sqrt_sqrt _ (Rlt_le _ _ DS)) as SS.
  unfold s. set (r := sqrt (b * b + 4 * g * c)) in *. clearbody r. apply Rminus_diag_uniq.
  replace ((- b + r) / (- (2) * g) - xm - - g * (((- b + r) / (- (2) * g) - lo) * (hi - (- b + r) / (- (2) * g)))) with ((r * r - (b * b + 4 * g * c)) / (- (4) * g)) by (unfold b, c; field; lra).
  rewrite SS. unfold Rdiv. ring.
Qed.
(** Between the bounds the equation has one root. *)
Lemma root_unique g lo xm hi x y : lo < xm < hi -> lo < x < hi -> lo < y < hi ->
  x - xm = g * ((x - lo) * (hi - x)) -> y - xm = g * ((y - lo) * (hi - y)) -> x = y.
Proof.
  intros H X Y EX EY. destruct (Req_dec x y) as [|N]; [assumption|exfalso].
  assert (K : 1 = g * (lo + hi - x - y)) by (apply Rmult_eq_reg_r with (x - y); [|lra]; replace (1 * (x - y)) with (g * ((x - lo) * (hi - x)) - g * ((y - lo) * (hi - y))) by lra; ring).
  (* [lo - xm] and [hi - xm] have opposite signs, the quadratic does not. *)
  assert (K1 : lo - xm = g * ((x - lo) * (y - lo))).
  { replace (lo - xm) with ((lo - x) * 1 + (x - xm)) by ring. rewrite K, EX. ring. }
  assert (K2 : hi - xm = g * ((hi - x) * (hi - y))).
  { replace (hi - xm) with ((hi - x) * 1 + (x - xm)) by ring. rewrite K, EX. ring. }
  assert (P1 : 0 < (x - lo) * (y - lo)) by (apply Rmult_lt_0_compat; lra). assert (P2 : 0 < (hi - x) * (hi - y)) by (apply Rmult_lt_0_compat; lra). nra.
Qed.

Theorem C61_mcelreath_multi : forall Rs m th M tof tmin xm tt,
  let lo := 2 * PI * IZR M in
  let hi := lo + 2 * PI in
  lo < xm < hi -> 0 < th < 2 * PI -> tmin < tof -> tt <> tmin -> xm <> th + lo ->
  @mce_tof_equation XR (creal (Fin (th + lo))) Rs m = creal (Fin tt) ->
  exists gs gl, @mce_initial_guesses XR (Fin tof) (Fin tmin) (Fin xm) Rs m (Fin th) M = (Fin gs, Fin gl) /\
    lo < gs < xm /\ xm < gl < hi /\
    (tof = tt -> (th + lo < xm -> gs = th + lo) /\ (xm < th + lo -> gl = th + lo)).
Proof.
  intros Rs m th M tof tmin xm tt lo hi H Hth HT Htt Hx E. pose proof PI_RGT_0 as HP. unfold mce_initial_guesses.
  change (@nadd XR (Fin th) (nmul (nmul (nofZ 2) npi) (nofZ M))) with (Fin (th + lo)). rewrite E. cbn [cre creal].
  set (xt := th + lo) in *.
  set (sc := (xm - xt) * (xm - xt) / (Rabs (tt - tmin) * ((lo - xt) * (lo - xt)) * ((hi - xt) * (hi - xt)))).
  assert (AB : 0 < Rabs (tt - tmin)) by (apply Rabs_pos_lt; lra).
  assert (D0 : 0 < Rabs (tt - tmin) * ((lo - xt) * (lo - xt)) * ((hi - xt) * (hi - xt))) by (assert (lo < xt < hi) by (unfold xt, hi; lra); clearbody xt hi lo; apply Rmult_lt_0_compat; [apply Rmult_lt_0_compat; [exact AB|nra]|nra]).
  assert (SC : 0 < sc) by (unfold sc; apply Rdiv_lt_0_compat; [nra|exact D0]).
  assert (GP : 0 < (tof - tmin) * sc) by (apply Rmult_lt_0_compat; lra).
  assert (EG : @nopp XR (nsqrt (nmul (nsub (Fin tof) (Fin tmin)) (ndiv (sq (nsub (Fin xm) (Fin xt)))
    (nmul (nmul (nabs (nsub (Fin tt) (Fin tmin))) (sq (nsub (nmul (nmul (nofZ 2) npi) (nofZ M)) (Fin xt)))) (sq (nsub (nadd (nmul (nmul (nofZ 2) npi) (nofZ M)) (nmul (nofZ 2) npi)) (Fin xt))))))) = Fin (- sqrt ((tof - tmin) * sc))).
  { unfold sq. xunf. cbn [xadd xsub xmul xlift1 xlift2]. fold lo. fold hi. change (xabs (Fin (tt - tmin))) with (Fin (Rabs (tt - tmin))). cbn [xmul xlift2]. rewrite xdiv_F by lra. cbn [xmul xlift2]. fold sc. rewrite xsqrt_F by lra. reflexivity. }
  rewrite EG. pose proof (sqrt_lt_R0 _ GP) as SP. set (g := - sqrt ((tof - tmin) * sc)) in *. assert (G : g < 0) by (unfold g; lra).
  pose proof (guess_short g lo xm hi G H) as (DS & QS). pose proof (guess_long g lo xm hi G H) as (DL & QL).
  pose proof (root_short g lo xm hi G H) as RS. pose proof (root_long g lo xm hi G H) as RL. cbv zeta in *.
  assert (EI : 2 * PI * IZR (M + (M + 1)) = lo + hi) by (unfold hi, lo; rewrite !plus_IZR; ring).
  assert (EP : 2 * PI * (2 * PI) * IZR M * IZR (M + 1) = lo * hi) by (unfold hi, lo; rewrite !plus_IZR; ring).
  eexists; eexists. split; [|split; [exact QS|split; [exact QL|]]].
  - f_equal; xunf; cbn [xopp xadd xsub xmul xlift1 xlift2].
    + replace (- (2 * PI) * IZR (M + (M + 1)) * g + 1) with (- g * (lo + hi) + 1) by (rewrite <- EI; ring).
      replace (2 * PI * (2 * PI) * IZR M * IZR (M + 1) * g - xm) with (g * (lo * hi) - xm) by (rewrite <- EP; ring).
      rewrite xsqrt_F by lra. cbn [xadd xlift2]. rewrite xdiv_F by lra. reflexivity.
    + replace (2 * PI * IZR (M + (M + 1)) * g + 1) with (g * (lo + hi) + 1) by (rewrite <- EI; ring).
      replace (- (2 * PI * (2 * PI)) * IZR M * IZR (M + 1) * g - xm) with (- g * (lo * hi) - xm) by (rewrite <- EP; ring).
      rewrite xsqrt_F by lra. cbn [xadd xlift2]. rewrite xdiv_F by lra. reflexivity.
  - intros <-. assert (XT : lo < xt < hi) by (unfold xt, hi; lra). assert (PX : 0 < (xt - lo) * (hi - xt)) by (apply Rmult_lt_0_compat; lra).
    assert (TM : Rabs (tof - tmin) = tof - tmin) by (apply Rabs_pos_eq; lra).
    assert (GV : - g * ((xt - lo) * (hi - xt)) = Rabs (xt - xm)).
    { unfold g. rewrite Ropp_involutive.
      assert (ES : (tof - tmin) * sc = (Rabs (xt - xm) / ((xt - lo) * (hi - xt))) * (Rabs (xt - xm) / ((xt - lo) * (hi - xt)))).
      { unfold sc. rewrite TM. assert (SQ : Rabs (xt - xm) * Rabs (xt - xm) = (xm - xt) * (xm - xt)) by (rewrite <- Rabs_mult, Rabs_pos_eq by (apply Rle_0_sqr); ring).
        transitivity (Rabs (xt - xm) * Rabs (xt - xm) / (((xt - lo) * (hi - xt)) * ((xt - lo) * (hi - xt)))); [rewrite SQ; field; lra|field; lra]. }
      rewrite ES. rewrite sqrt_square by (apply Rmult_le_pos; [apply Rabs_pos|left; now apply Rinv_0_lt_compat]). field. lra. }
    split; intros O.
    + rewrite Rabs_left in GV by lra. apply (root_unique g lo xm hi); try assumption; lra.
    + rewrite Rabs_pos_eq in GV by lra. apply (root_unique (- g) lo xm hi); try assumption; lra.
Qed.
Print Assumptions C61_mcelreath_multi.

(** One revolution and a quarter: for the time at the transfer angle the short
    guess is exact. *)
Example C61_mcelreath_multi_case : exists tt gl,
  @mce_tof_equation XR (creal (Fin (PI / 2 + 2 * PI * IZR 1))) (Fin 2) (Fin (- (1 / 2))) = creal (Fin tt) /\
  @mce_initial_guesses XR (Fin tt) (Fin (tt - 1)) (Fin (3 * PI)) (Fin 2) (Fin (- (1 / 2))) (Fin (PI / 2)) 1 =
    (Fin (PI / 2 + 2 * PI * IZR 1), Fin gl) /\ 3 * PI < gl < 4 * PI.
Proof.
  pose proof PI_RGT_0 as HP. set (x := PI / 2 + 2 * PI * IZR 1).
  assert (S0 : sin (x / 2) <> 0).
  { replace (x / 2) with (PI / 4 + PI) by (unfold x; field). rewrite neg_sin. assert (0 < sin (PI / 4)) by (apply sin_gt_0; lra). lra. }
  assert (Y : 0 < my 2 (- (1 / 2)) x) by (unfold my; pose proof (COS_bound (x / 2)); lra).
  exists (mt 2 (- (1 / 2)) x). pose proof (mce_tof_r 2 (- (1 / 2)) x Y S0) as E. set (tt := mt 2 (- (1 / 2)) x) in *. clearbody tt. change (@creal XR (Fin x)) with (cr x).
  destruct (C61_mcelreath_multi (Fin 2) (Fin (- (1 / 2))) (PI / 2) 1 tt (tt - 1) (3 * PI) tt) as (gs & gl & EG & B1 & B2 & X); try (lra || exact E).
  destruct (X eq_refl) as [X1 _]. assert (EX : gs = x) by (apply X1; lra). exists gl. split; [exact E|]. split; [rewrite EG, EX; reflexivity|lra].
Qed.
