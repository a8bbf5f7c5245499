(** * thorne2004: what it returns (C44) and when it has a bracket (C45). *)
From Coq Require Import String ZArith List Bool Lia Reals Lra Psatz.
From Verif Require Import Num XReal XRealLemmas MApi ApiFacts Loops MLinalg MScipy MAssertions MAngles MThorne MInit
  Spec SpecLambert VecFacts VecXR AnglesXR UniversalKepler LambertUV LambertRev StumpffXR CallXR Godal GodalIzzo GodalXR GodalPan
  DelatorreXR LambertZ OrbitXR IzzoXR StumpffSmooth ZMono KeplerUnique LambertExist JiangXR BracketXR JiangRun JiangMono JiangLoop
  PropertiesAngles PropertiesMotion PropertiesOrbit PropertiesDelatorre ThorneXR ThorneRun.
From Verif Require PropertiesIzzo.
Local Open Scope R_scope.

(** ** The hyperbolic time of flight increases with [- a] *)
Section HypMono.
Variables (w s d : R).
Hypothesis Hw : w = 1 \/ w = -1.
Hypothesis Hd : 0 < d.
Hypothesis Hds : d < s.
Lemma sinh_arc_decr x a b : 0 < x -> 0 < a -> a < b -> arcsinh (sqrt (x / (2 * b))) < arcsinh (sqrt (x / (2 * a))).
Proof. intros Hx Ha Hb. apply arcsinh_lt. now apply frac_decr. Qed.
Lemma sinh_lt_inv x y : sinh x < sinh y -> x < y.
Proof. intros H. rewrite <- (arcsinh_sinh x), <- (arcsinh_sinh y). now apply arcsinh_lt. Qed.
Lemma grow a b X Y : 0 < a -> a < b -> 0 < X -> 0 < Y -> forall sa ca sb cb, 0 < sa -> 0 < ca -> 0 < sb -> 0 < cb ->
  2 * a * (sa * sa) = X -> 2 * a * (ca * ca - 1) = Y -> 2 * b * (sb * sb) = X -> 2 * b * (cb * cb - 1) = Y -> a * (sa * ca) < b * (sb * cb).
Proof.
  intros Ha Hb HX HY sa ca sb cb S1 C1 S2 C2 E1 E2 E3 E4.
  assert (A1 : (a * (sa * ca)) * (a * (sa * ca)) = X / 2 * (a + Y / 2)) by (rewrite <- E1, <- E2; field).
  assert (B1 : (b * (sb * cb)) * (b * (sb * cb)) = X / 2 * (b + Y / 2)) by (rewrite <- E3 at 1; rewrite <- E4; field).
  assert (P1 : 0 < a * (sa * ca)) by (apply Rmult_lt_0_compat; [|apply Rmult_lt_0_compat]; assumption).
  assert (P2 : 0 < b * (sb * cb)) by (apply Rmult_lt_0_compat; [|apply Rmult_lt_0_compat]; lra).
  set (u := a * (sa * ca)) in *. set (v := b * (sb * cb)) in *. assert (u * u < v * v) by (rewrite A1, B1; nra). nra.
Qed.
Lemma psih_mono a b : 0 < a -> a < b -> lagh_A s b - lagh_B w d b < lagh_A s a - lagh_B w d a.
Proof.
  intros Ha Hb. destruct Hw as [E|E].
  - apply sinh_lt_inv.
    pose proof (lagh_c w s d a Hw Hd Hds Ha) as Ca. pose proof (lagh_c w s d b Hw Hd Hds ltac:(lra)) as Cb.
    pose proof (sinh_pos _ (lagh_psi w s d a Hw Hd Hds Ha)) as Sa. pose proof (sinh_pos _ (lagh_psi w s d b Hw Hd Hds ltac:(lra))) as Sb.
    assert (G : a * sinh (lagh_A s a + lagh_B w d a) < b * sinh (lagh_A s b + lagh_B w d b)).
    { pose proof (lagh_sA2 s d a Hd Hds Ha) as A1. pose proof (lagh_sB2 w s d a Hw Hd Hds Ha) as B1.
      pose proof (lagh_sA2 s d b Hd Hds ltac:(lra)) as A2. pose proof (lagh_sB2 w s d b Hw Hd Hds ltac:(lra)) as B2.
      destruct (lagh_angles s d a Hd Hds Ha) as [U1 U2]. destruct (lagh_angles s d b Hd Hds ltac:(lra)) as [U3 U4].
      assert (P1 : 0 < sinh (lagh_A s a)) by (apply sinh_pos; unfold lagh_A; lra).
      assert (P2 : 0 < sinh (lagh_A s b)) by (apply sinh_pos; unfold lagh_A; lra).
      assert (P3 : 0 < sinh (lagh_B w d a)) by (apply sinh_pos; unfold lagh_B; rewrite E; lra).
      assert (P4 : 0 < sinh (lagh_B w d b)) by (apply sinh_pos; unfold lagh_B; rewrite E; lra).
      destruct (hyp_add (lagh_A s a) (lagh_B w d a)) as (-> & _ & _ & _ & I1).
      destruct (hyp_add (lagh_A s b) (lagh_B w d b)) as (-> & _ & _ & _ & I2).
      destruct (hyp_add (lagh_B w d a) 0) as (_ & _ & _ & _ & I3). destruct (hyp_add (lagh_B w d b) 0) as (_ & _ & _ & _ & I4).
      pose proof (cosh_gt_0 (lagh_A s a)). pose proof (cosh_gt_0 (lagh_A s b)).
      pose proof (cosh_gt_0 (lagh_B w d a)). pose proof (cosh_gt_0 (lagh_B w d b)).
      assert (G1 : a * (sinh (lagh_A s a) * cosh (lagh_B w d a)) < b * (sinh (lagh_A s b) * cosh (lagh_B w d b))).
      { apply (grow a b s d Ha Hb ltac:(lra) Hd); try assumption; [rewrite I3; refine (eq_trans _ B1)|rewrite I4; refine (eq_trans _ B2)]; ring. }
      assert (G2 : a * (sinh (lagh_B w d a) * cosh (lagh_A s a)) < b * (sinh (lagh_B w d b) * cosh (lagh_A s b))).
      { apply (grow a b d s Ha Hb Hd ltac:(lra)); try assumption; [rewrite I1; refine (eq_trans _ A1)|rewrite I2; refine (eq_trans _ A2)]; ring. }
      lra. }
    set (x := sinh (lagh_A s a - lagh_B w d a)) in *. set (y := sinh (lagh_A s b - lagh_B w d b)) in *.
    set (X := sinh (lagh_A s a + lagh_B w d a)) in *. set (Y := sinh (lagh_A s b + lagh_B w d b)) in *. clearbody x y X Y.
    destruct (Rlt_dec y x) as [L|L]; [exact L|exfalso]. assert (a * X * x = b * Y * y) by lra. 
    assert (a * X * x < b * Y * x) by (apply Rmult_lt_compat_r; lra).
    assert (0 < b * Y). { assert (0 < X) by (assert (0 < X * x) by nra; nra). assert (0 < a * X) by nra. lra. }
    assert (b * Y * x <= b * Y * y) by (apply Rmult_le_compat_l; lra). lra.
  - pose proof (sinh_arc_decr s a b ltac:(lra) Ha Hb). pose proof (sinh_arc_decr d a b Hd Ha Hb). unfold lagh_A, lagh_B. rewrite E. lra.
Qed.
End HypMono.
Lemma h_time_mono p mu r1 r2 th (Hm : 0 < mu) (Hn : non_collinear r1 r2) (F : angle_facts p r1 r2 th) a b :
  0 < a -> a < b -> h_time mu r1 r2 th a < h_time mu r1 r2 th b.
Proof.
  intros Ha Hb. destruct (h_tau p mu r1 r2 th Hm Hn F a Ha) as (-> & V1 & P1).
  destruct (h_tau p mu r1 r2 th Hm Hn F b ltac:(lra)) as (-> & V2 & P2).
  destruct (geo r1 r2 Hn) as (G1 & G2 & G3 & G4).
  pose proof (psih_mono (way th) (semiper r1 r2) (semiper r1 r2 - chord r1 r2) (way_cases th) G2 G3 a b Ha Hb) as M.
  fold (h_psi r1 r2 th a) (h_psi r1 r2 th b) in M. pose proof PI_RGT_0.
  apply (tau_mono p mu r1 r2 th Hm Hn F); try assumption; nra.
Qed.
Lemma h_time_par p mu r1 r2 th (Hm : 0 < mu) (Hn : non_collinear r1 r2) (F : angle_facts p r1 r2 th) b :
  0 < b -> 0 < h_time mu r1 r2 th b < p_time mu r1 r2 th.
Proof.
  intros Hb. destruct (h_tau p mu r1 r2 th Hm Hn F b Hb) as (E & V1 & P1). destruct (p_tau p mu r1 r2 th Hm Hn F) as (E0 & V0).
  split.
  - destruct (w_hyp_exists mu r1 r2 (way th) Hm Hn (way_cases th) b Hb) as (v1 & v2 & S & _). exact (proj1 (proj1 S)).
  - rewrite E, E0. pose proof PI_RGT_0. apply (tau_mono p mu r1 r2 th Hm Hn F); try assumption; nra.
Qed.

(** ** C44 *)

(** Outside polar planes every pair of velocities that thorne2004 returns belongs
    to a two-body motion from [r1] to [r2] without complete revolutions.  Its
    duration is within the tolerance of [tof] (parabola), or there is another such
    motion, with a semi-major axis that differs by no more than the tolerance,
    and [tof] lies between both durations. *)
Theorem C44_thorne_solves_lambert :
  forall ev mu r1 r2 tof M prograde low_path maxiter atol rtol full_output o v1 v2,
  brentq_brackets ev -> non_collinear r1 r2 -> vz (vcross r1 r2) <> 0 ->
  @run XR Thorne ev (call mu r1 r2 tof M prograde low_path maxiter atol rtol full_output) = Ok o ->
  delivers o v1 v2 ->
  exists T, lambert_solution mu r1 v1 r2 v2 T 0 /\
    (Rabs (tof - T) <= atol + rtol * T \/
     exists w1 w2 T', lambert_solution mu r1 w1 r2 w2 T' 0 /\
       Rabs (semimajor mu r1 v1 - semimajor mu r1 w1) <= atol + rtol * Rabs (semimajor mu r1 v1) /\
       (T <= tof <= T' \/ T' <= tof <= T)).
Proof.
  intros ev mu r1 r2 tof M p l mi at_ rt fo o v1 v2 HB Hn Hz H D. cbn [run] in H.
  destruct (thorne_run _ _ _ _ _ _ _ _ _ _ _ _ _ _ _ HB Hn H D) as (Hm & th & e & F & HE & Hw & _ & C). cbv zeta in C.
  rewrite <- (Hw Hz) in C. clear Hw.
  assert (BT : forall x y, x * y <= 0 -> (x <= 0 /\ 0 <= y) \/ (0 <= x /\ y <= 0)).
  { intros x y P. destruct (Rle_dec x 0) as [X|X]; destruct (Rle_dec 0 y) as [Y|Y].
    - left; lra.
    - right. destruct (Req_dec x 0); [lra|]. exfalso. nra.
    - right. destruct (Req_dec y 0); [lra|]. exfalso. nra.
    - right. lra. }
  destruct C as [(L & E)|[(long & x & x' & L & S & X1 & X2 & X3 & X4)|(x & x' & L & S & X1 & X2 & X3 & X4)]].
  - exists (pt mu r1 r2 e). split; [exact L|]. left. destruct L as [[LT _] _]. rewrite (Rabs_right (pt mu r1 r2 e)) in E by lra. exact E.
  - exists (et mu r1 r2 e x long). split; [exact L|]. right.
    destruct (w_ell_exists mu r1 r2 e Hm Hn HE x' long ltac:(lra)) as (w1 & w2 & L' & S').
    exists w1, w2, (et mu r1 r2 e x' long). split; [exact L'|]. rewrite S, S'. split; [exact X3|].
    destruct (BT _ _ X4); lra.
  - exists (ht mu r1 r2 e x). split; [exact L|]. right.
    destruct (w_hyp_exists mu r1 r2 e Hm Hn HE x' X2) as (w1 & w2 & L' & S').
    exists w1, w2, (ht mu r1 r2 e x'). split; [exact L'|]. rewrite S, S'. split.
    { replace (- x - - x') with (- (x - x')) by ring. rewrite !Rabs_Ropp. exact X3. }
    destruct (BT _ _ X4); lra.
Qed.
Print Assumptions C44_thorne_solves_lambert.

(** ** A root finder that meets the contracts: it returns an end of the interval
    when that is a root and otherwise gives up. *)
Definition brentq_left (fuel : nat) : @env XR :=
  @Env XR (fun _ => Fin 0) fuel
    (fun f lo hi xtol rtol _ =>
       if @nltb XR xtol (nofZ 0) || @nltb XR rtol (nofZ 0) then Err (ValueError "xtol too small")
       else match f lo with
            | Ok v => if @neqb XR v (nofZ 0) then Ok (lo, 1%Z) else Err (ValueError "f(a) and f(b) must have different signs")
            | Err e => Err e
            end)
    (fun _ _ _ _ => Err (ValueError "")).
Lemma brentq_left_brackets fuel : brentq_brackets (brentq_left fuel).
Proof.
  intros f g lo hi xt rt n x k Hlh HF H. cbn [e_brentq brentq_left] in H.
  destruct (@nltb XR (Fin xt) (nofZ 0)) eqn:E1; [discriminate|]. destruct (@nltb XR (Fin rt) (nofZ 0)) eqn:E2; [discriminate|].
  apply xltb_Ff in E1, E2. cbn [orb] in H. rewrite (HF lo) in H by lra.
  destruct (@neqb XR (Fin (g lo)) (nofZ 0)) eqn:E; [|discriminate]. apply xeqb_F in E. apply Ok_inj in H.
  assert (x = Fin lo) by congruence. subst x. exists lo, lo. split; [reflexivity|]. split; [lra|]. split; [lra|].
  split; [|rewrite E; lra]. rewrite Rminus_diag_eq, Rabs_R0 by reflexivity.
  assert (0 <= rt * Rabs lo) by (apply Rmult_le_pos; [lra|apply Rabs_pos]). lra.
Qed.

(** ** From the semi-major axis to the call *)
Section Call.
Variables (mu : R) (r1 r2 : rvec) (p : bool) (th : R).
Hypothesis Hm : 0 < mu.
Hypothesis Hn : non_collinear r1 r2.
Hypothesis F : angle_facts p r1 r2 th.
Hypothesis ET : @get_transfer_angle XR (vfin r1) (vfin r2) p = Fin th.
Variables (ev : @env XR) (tof : R) (low : bool) (mi : Z) (at_ rt : R) (fo : bool).
Hypothesis Ht : 0 < tof.
Let c := chord r1 r2.
Let s := semiper r1 r2.
Let w := way th.
Let axis := @tho_semimajor_axis XR ev (Fin mu) (Fin s) (Fin c) (Fin tof) (Fin (pt mu r1 r2 w)) (Fin (et mu r1 r2 w (s / 2) false))
  (Fin (- w)) mi (Fin at_) (Fin rt).
Let a := call mu r1 r2 tof 0 p low mi at_ rt fo.

Lemma thorne_enter : @thorne2004 XR ev a =
  (let* (sma, branch, numiter) := axis in
   let* tpi := @time_per_iteration XR (e_clock ev) fo numiter in
   let x := tho_x sma (Fin s) branch in
   let y := tho_y x (vfin r1) (vfin r2) (Fin s) (Fin c) p in
   let '(v1, v2) := @tho_reconstruct XR x y (Fin mu) (vfin r1) (vfin r2) (Fin s) (Fin c) p in
   Ok (mk_out fo v1 v2 numiter tpi)).
Proof.
  unfold thorne2004. change (a_M a) with 0%Z. cbn [Z.ltb Z.compare raise_if bind].
  assert (EV : forall A k, @validated XR A a k = k (vfin r1) (vfin r2)).
  { intros A k. apply (validated_call_ok mu r1 r2 tof 0 p low mi at_ rt fo). now apply non_collinear_valid. }
  rewrite EV. change (a_is_prograde a) with p. change (a_mu a) with (Fin mu). change (a_tof a) with (Fin tof).
  change (a_maxiter a) with mi. change (a_atol a) with (Fin at_). change (a_rtol a) with (Fin rt). change (a_full_output a) with fo.
  rewrite ET, !norm_F, vsub_F, norm_F, semiper_F. rewrite way_lt by apply (af_npi _ _ _ _ F).
  change (vnorm (vminus r2 r1)) with (chord r1 r2).
  rewrite tho_parabolic_F, tho_minimum_F by (assumption || apply way_cases). reflexivity.
Qed.
Lemma thorne_fails e : axis = Err e -> @thorne2004 XR ev a = Err e.
Proof. intros E. rewrite thorne_enter, E. reflexivity. Qed.
Lemma thorne_returns sma br k x : axis = Ok (sma, br, k) -> (fo = false \/ k <> 0%Z) -> tho_x sma (Fin s) br = Fin x ->
  exists o v1 v2, @thorne2004 XR ev a = Ok o /\ delivers o v1 v2.
Proof.
  intros E Hk Ex. rewrite thorne_enter, E. cbn [bind].
  assert (ET' : exists t, @time_per_iteration XR (e_clock ev) fo k = Ok t).
  { unfold time_per_iteration. destruct fo; [|eauto]. destruct (Z.eqb_spec k 0); [destruct Hk; [discriminate|contradiction]|eauto]. }
  destruct ET' as (t & ET'). rewrite ET'. cbn [bind]. cbv zeta. rewrite Ex.
  rewrite tho_reconstruct_frame, tho_y_frame, !norm_F.
  destruct (lambda0_facts _ _ Hn) as [B P]. destruct (semiper_pos _ _ Hn) as [Hs Hcs].
  destruct (izzo_frame_F r1 r2 (sqrt (1 - chord r1 r2 / semiper r1 r2)) p Hn P) as (e & He & Hd & EF).
  assert (El : @nsqrt XR (@nsub XR (nofZ 1) (@ndiv XR (Fin c) (Fin s))) = Fin (sqrt (1 - chord r1 r2 / semiper r1 r2))).
  { unfold c, s. xunf. rewrite xdiv_F by lra. change (xsub (Fin 1) (Fin ?x)) with (Fin (1 - x)). rewrite xsqrt_F by lra. reflexivity. }
  rewrite El, EF. cbv beta iota.
  set (ll := e * sqrt _). assert (L2 : ll * ll < 1).
  { unfold ll. set (q := sqrt _) in *. assert (q * q = 1 - chord r1 r2 / semiper r1 r2) by (apply sqrt_sqrt; lra).
    replace (e * q * (e * q)) with ((e * e) * (q * q)) by ring. rewrite He. lra. }
  assert (EY : exists y, @MIzzo.izzo_y XR (Fin x) (Fin ll) = Fin y).
  { unfold MIzzo.izzo_y. xunf. cbn [xmul xsub xlift2 xlift1]. rewrite xsqrt_F; [eauto|]. nra. }
  destruct EY as (y & EY). rewrite EY.
  match goal with |- context [@MIzzo.izzo_velocities XR _ _ _ _ _ _ _ _ (vfin ?t1) (vfin ?t2) _ _] =>
    destruct (PropertiesIzzo.izzo_velocities_F mu r1 r2 ll t1 t2 x y Hn Hm) as (v1 & v2 & EJ) end.
  fold c s in EJ. rewrite EJ. eexists _, v1, v2. split; [reflexivity|]. unfold mk_out, delivers. destruct fo; split; reflexivity.
Qed.

(** The interval offered to brentq between the parabola and the minimum-energy
    ellipse, and beyond it. *)
Definition m_axis : R := s / 2 * (1 + 1 / 4503599627370496).
Lemma m_axis_gt : s < 2 * m_axis /\ m_axis < s.
Proof. unfold m_axis. destruct (Hc r1 r2 Hn) as [C1 C2]. fold c s in C1, C2. lra. Qed.

Lemma not_close : 0 <= rt -> at_ + rt * pt mu r1 r2 w < Rabs (tof - pt mu r1 r2 w) ->
  @np_isclose XR (Fin tof) (Fin (pt mu r1 r2 w)) (Fin rt) (Fin at_) = false.
Proof.
  intros Hr H. pose proof (parabolic_test mu r1 r2 p th Hm Hn F tof at_ rt) as E. change (p_time mu r1 r2 th) with (pt mu r1 r2 w) in E.
  rewrite E. destruct (Rle_dec _ _); [lra|reflexivity].
Qed.
Lemma axis_elliptic (long : bool) hi :
  at_ + rt * pt mu r1 r2 w < Rabs (tof - pt mu r1 r2 w) -> 0 <= rt -> pt mu r1 r2 w <= tof ->
  (if long then et mu r1 r2 w (s / 2) false <= tof else tof < et mu r1 r2 w (s / 2) false) ->
  @tho_expand_upper XR (e_fuel ev) (Fin mu) (Fin s) (Fin c) (Fin tof) (Fin (- w)) (if long then ThB else ThA) (Fin s) = Ok (Fin hi) ->
  axis = (let* (sma, iterations) := e_brentq ev (fun x => let* t := @tho_lagrange_tof XR (Fin mu) (Fin s) (Fin c) x (Fin (- w)) (if long then ThB else ThA) in Ok (@nsub XR t (Fin tof)))
            (Fin m_axis) (Fin hi) (Fin at_) (Fin rt) mi in Ok (sma, (if long then ThB else ThA), iterations)).
Proof.
  intros HC Hr HP HL HX. unfold axis, tho_semimajor_axis. rewrite not_close by assumption.
  replace (@nltb XR (Fin tof) (Fin (pt mu r1 r2 w))) with false by (symmetry; apply xltb_Ff; lra).
  replace (if @nltb XR (Fin tof) (Fin (et mu r1 r2 w (s / 2) false)) then ThA else ThB) with (if long then ThB else ThA).
  2: { destruct long; [replace (@nltb XR _ _) with false by (symmetry; apply xltb_Ff; lra)|replace (@nltb XR _ _) with true by (symmetry; apply xltb_F; lra)]; reflexivity. }
  rewrite HX. cbn [bind].
  assert (Es : @nmul XR (@ndiv XR (Fin s) (nofZ 2)) (@nadd XR (nofZ 1) eps_machine) = Fin m_axis).
  { assert (E2 : @ndiv XR (Fin s) (nofZ 2) = Fin (s / 2)) by (xunf; apply xdiv_F; lra). rewrite E2. reflexivity. }
  rewrite Es. reflexivity.
Qed.
Definition f_axis : R := 1 / 4503599627370496 * s.
Lemma axis_hyperbolic b :
  at_ + rt * pt mu r1 r2 w < Rabs (tof - pt mu r1 r2 w) -> 0 <= rt -> tof < pt mu r1 r2 w ->
  @tho_expand_lower XR (e_fuel ev) (Fin mu) (Fin s) (Fin c) (Fin tof) (Fin (- w)) (Fin (- (s / 2))) = Ok (Fin (- b)) ->
  axis = (let* (sma, iterations) := e_brentq ev (fun x => let* t := @tho_lagrange_tof XR (Fin mu) (Fin s) (Fin c) x (Fin (- w)) ThH in Ok (@nsub XR t (Fin tof)))
            (Fin (- b)) (Fin (- f_axis)) (Fin at_) (Fin rt) mi in Ok (sma, ThH, iterations)).
Proof.
  intros HC Hr HP HX. unfold axis, tho_semimajor_axis. rewrite not_close by assumption.
  replace (@nltb XR (Fin tof) (Fin (pt mu r1 r2 w))) with true by (symmetry; apply xltb_F; lra).
  assert (E2 : @ndiv XR (@nopp XR (Fin s)) (nofZ 2) = Fin (- (s / 2))).
  { change (@nopp XR (Fin s)) with (Fin (- s)). change (@nofZ XR 2) with (Fin 2). change (@ndiv XR) with xdiv. rewrite xdiv_F by lra. apply (f_equal Fin). field. }
  rewrite E2, HX. cbn [bind].
  assert (Es : @nmul XR (@nopp XR eps_machine) (Fin s) = Fin (- f_axis)).
  { change (@nmul XR (@nopp XR eps_machine) (Fin s)) with (Fin (- (1 / 4503599627370496) * s)). apply (f_equal Fin). unfold f_axis. ring. }
  rewrite Es. reflexivity.
Qed.
End Call.

(** ** The expansion loops *)
Lemma expand_ok cond (g : R -> bool) K : forall x, (forall k, cond (Fin (x * 2 ^ k)) = Ok (g (x * 2 ^ k))) -> g (x * 2 ^ K) = false ->
  forall fuel, (K < fuel)%nat -> exists y, @tho_expand XR fuel cond (Fin x) = Ok (Fin y).
Proof.
  induction K as [|K IH]; intros x HC HK fuel Hf; (destruct fuel as [|fuel]; [lia|]); unfold tho_expand; cbn [while_true].
  - pose proof (HC O) as H0. rewrite HK in H0. replace (x * 2 ^ 0) with x in H0 by (cbn [pow]; ring). rewrite H0. eauto.
  - pose proof (HC O) as H0. replace (x * 2 ^ 0) with x in H0 by (cbn [pow]; ring). rewrite H0. destruct (g x); [|eauto].
    change (@nmul XR (Fin x) (nofZ 2)) with (Fin (x * 2)). apply (IH (x * 2)); [| |lia].
    + intros k. replace (x * 2 * 2 ^ k) with (x * 2 ^ S k) by (cbn [pow]; ring). apply HC.
    + replace (x * 2 * 2 ^ K) with (x * 2 ^ S K) by (cbn [pow]; ring). assumption.
Qed.

(** ** C45 *)

(** brentq finds a point of the interval in enough iterations when the function
    has opposite signs at its ends (scipy asks for [rtol >= 4 eps], [xtol > 0]). *)
Definition brentq_succeeds (ev : @env XR) : Prop :=
  forall F f lo hi xtol rtol, lo < hi -> 0 < xtol -> 4 / 4503599627370496 <= rtol ->
  (forall t, lo <= t <= hi -> F (Fin t) = Ok (Fin (f t))) -> f lo * f hi <= 0 ->
  exists N, forall n, (N <= n)%Z -> exists t k, lo <= t <= hi /\
    e_brentq ev F (Fin lo) (Fin hi) (Fin xtol) (Fin rtol) n = Ok (Fin t, k).

(** A transfer without complete revolutions in time [T] with semi-major axis [a] *)
Definition transfer_in (mu : R) (r1 r2 : rvec) (T a : R) : Prop :=
  exists v1 v2, lambert_solution mu r1 v1 r2 v2 T 0 /\ semimajor mu r1 v1 = a.

(** thorne2004 offers brentq the semi-major axes from [s/2 (1 + 2^-52)] on and
    those below [- 2^-52 s].  Times of flight strictly between the two ellipses
    at the first limit, or below that of the second, are refused; for all others
    a velocity pair is returned. *)
Theorem C45_thorne_window : forall mu r1 r2 prograde, 0 < mu -> non_collinear r1 r2 ->
  exists t_fast t_par t_lo t_min t_hi,
  0 < t_fast /\ t_fast < t_par /\ t_par < t_lo /\ t_lo < t_min /\ t_min < t_hi /\
  transfer_in mu r1 r2 t_fast (- (semiper r1 r2 / 4503599627370496)) /\
  transfer_in mu r1 r2 t_lo (semiper r1 r2 / 2 * (1 + 1 / 4503599627370496)) /\
  transfer_in mu r1 r2 t_hi (semiper r1 r2 / 2 * (1 + 1 / 4503599627370496)) /\
  transfer_in mu r1 r2 t_min (semiper r1 r2 / 2) /\
  (forall ev tof low_path maxiter atol rtol full_output,
     (1 <= e_fuel ev)%nat -> brentq_refuses ev -> 0 < tof -> 0 <= rtol -> atol + rtol * t_par < Rabs (tof - t_par) ->
     tof < t_fast \/ t_lo < tof < t_hi ->
     @run XR Thorne ev (call mu r1 r2 tof 0 prograde low_path maxiter atol rtol full_output)
     = Err (ValueError "f(a) and f(b) must have different signs")) /\
  (forall tof atol rtol, 0 < atol -> 4 / 4503599627370496 <= rtol -> atol + rtol * t_par < Rabs (tof - t_par) ->
     t_fast <= tof <= t_lo \/ t_hi <= tof ->
     exists n, forall ev, (n <= e_fuel ev)%nat -> brentq_succeeds ev ->
     exists N, forall low_path maxiter, (N <= maxiter)%Z ->
     exists o v1 v2, @run XR Thorne ev (call mu r1 r2 tof 0 prograde low_path maxiter atol rtol false) = Ok o /\ delivers o v1 v2).
Proof.
  intros mu r1 r2 p Hm Hn. destruct (transfer_angle r1 r2 p Hn) as (th & ET & F).
  pose proof (way_cases th) as Hw. destruct (Hc r1 r2 Hn) as [C1 C2].
  assert (EA : m_axis r1 r2 = semiper r1 r2 / 2 * (1 + 1 / 4503599627370496)) by reflexivity.
  destruct (m_axis_gt r1 r2 Hn) as [M1 M2].
  assert (F1 : 0 < f_axis r1 r2 < semiper r1 r2 / 2) by (unfold f_axis; lra).
  set (w := way th) in *. set (s := semiper r1 r2) in *. set (c := chord r1 r2) in *.
  exists (ht mu r1 r2 w (f_axis r1 r2)), (pt mu r1 r2 w), (et mu r1 r2 w (m_axis r1 r2) false), (et mu r1 r2 w (s / 2) false),
    (et mu r1 r2 w (m_axis r1 r2) true).
  pose proof (h_time_par p mu r1 r2 th Hm Hn F (f_axis r1 r2) ltac:(lra)) as [T1 T2].
  pose proof (e_time_par p mu r1 r2 th Hm Hn F (m_axis r1 r2) false ltac:(fold s; lra)) as T3.
  pose proof (e_time_short p mu r1 r2 th Hm Hn F (s / 2) (m_axis r1 r2) ltac:(fold s; lra) ltac:(lra)) as T4.
  pose proof (e_time_long p mu r1 r2 th Hm Hn F (s / 2) (m_axis r1 r2) ltac:(fold s; lra) ltac:(lra)) as T5.
  pose proof (e_time_min mu r1 r2 th Hn) as T6. fold s in T6. rewrite <- T6 in T5.
  change (h_time mu r1 r2 th) with (ht mu r1 r2 w) in T1, T2. change (p_time mu r1 r2 th) with (pt mu r1 r2 w) in T2, T3.
  change (e_time mu r1 r2 th) with (et mu r1 r2 w) in T3, T4, T5.
  split; [assumption|]. split; [assumption|]. split; [assumption|]. split; [assumption|]. split; [assumption|].
  split. { unfold transfer_in. replace (- (s / 4503599627370496)) with (- f_axis r1 r2) by (unfold f_axis, s; lra).
           apply w_hyp_exists; try assumption. lra. }
  split; [apply w_ell_exists; try assumption; fold s; lra|].
  split; [apply w_ell_exists; try assumption; fold s; lra|].
  split; [apply w_ell_exists; try assumption; fold s; lra|].
  assert (EL : forall x (long : bool) tof, s <= 2 * x ->
    (let* t := @tho_lagrange_tof XR (Fin mu) (Fin s) (Fin c) (Fin x) (Fin (- w)) (if long then ThB else ThA) in Ok (@nsub XR t (Fin tof)))
    = Ok (Fin (et mu r1 r2 w x long - tof))).
  { intros x long tof Hx. unfold s, c. rewrite tho_elliptic_F by (assumption || (fold s; lra)). reflexivity. }
  assert (HL : forall x tof, 0 < x ->
    (let* t := @tho_lagrange_tof XR (Fin mu) (Fin s) (Fin c) (Fin (- x)) (Fin (- w)) ThH in Ok (@nsub XR t (Fin tof)))
    = Ok (Fin (ht mu r1 r2 w x - tof))).
  { intros x tof Hx. unfold s, c. rewrite tho_hyperbolic_F by assumption. reflexivity. }
  split.
  - intros ev tof low mi at_ rt fo Hf HB Ht Hr HC HT. cbn [run].
    apply (thorne_fails mu r1 r2 p th Hm Hn F ET ev tof low mi at_ rt fo Ht). destruct HT as [HT|HT].
    + rewrite (axis_hyperbolic mu r1 r2 p th Hm Hn F ev tof mi at_ rt (s / 2)); try assumption; [|fold w; lra|].
      * fold w s c. match goal with |- context [e_brentq ev ?f] => rewrite (HB f (ht mu r1 r2 w (s / 2) - tof) (ht mu r1 r2 w (f_axis r1 r2) - tof)) end;
          [reflexivity|apply HL; lra|apply HL; lra|].
        pose proof (h_time_mono p mu r1 r2 th Hm Hn F (f_axis r1 r2) (s / 2) ltac:(lra) ltac:(lra)) as G.
        change (h_time mu r1 r2 th) with (ht mu r1 r2 w) in G. nra.
      * fold w s c. destruct (e_fuel ev) as [|fu]; [lia|]. unfold tho_expand_lower, tho_expand. cbn [while_true].
        pose proof (tho_hyperbolic_F mu r1 r2 w Hm Hn Hw (s / 2) ltac:(lra)) as ET1. fold s c in ET1. rewrite ET1. cbn [bind].
        pose proof (h_time_mono p mu r1 r2 th Hm Hn F (f_axis r1 r2) (s / 2) ltac:(lra) ltac:(lra)) as G.
        change (h_time mu r1 r2 th) with (ht mu r1 r2 w) in G.
        replace (@nltb XR _ _) with false; [reflexivity|]. symmetry. apply xltb_Ff. fold w. lra.
    + set (long := if Rle_dec (et mu r1 r2 w (s / 2) false) tof then true else false).
      assert (HLg : if long then et mu r1 r2 w (s / 2) false <= tof else tof < et mu r1 r2 w (s / 2) false).
      { unfold long. destruct (Rle_dec _ _); lra. }
      pose proof (e_time_short p mu r1 r2 th Hm Hn F (m_axis r1 r2) s ltac:(fold s; lra) ltac:(lra)) as G1.
      pose proof (e_time_long p mu r1 r2 th Hm Hn F (m_axis r1 r2) s ltac:(fold s; lra) ltac:(lra)) as G2.
      change (e_time mu r1 r2 th) with (et mu r1 r2 w) in G1, G2.
      rewrite (axis_elliptic mu r1 r2 p th Hm Hn F ev tof mi at_ rt long s); try assumption; [|fold w; lra|].
      * fold w s c. match goal with |- context [e_brentq ev ?f] => rewrite (HB f (et mu r1 r2 w (m_axis r1 r2) long - tof) (et mu r1 r2 w s long - tof)) end;
          [reflexivity|apply EL; lra|apply EL; lra|].
        destruct long; nra.
      * fold w s c. destruct (e_fuel ev) as [|fu]; [lia|]. destruct long.
        -- unfold tho_expand_upper, tho_expand. cbn [while_true].
           pose proof (tho_elliptic_F mu r1 r2 w Hm Hn Hw s true ltac:(fold s; lra)) as ET1. fold s c in ET1. rewrite ET1. cbn [bind].
           replace (@nltb XR _ _) with false; [reflexivity|]. symmetry. apply xltb_Ff. lra.
        -- unfold tho_expand_upper, tho_expand. cbn [while_true].
           pose proof (tho_elliptic_F mu r1 r2 w Hm Hn Hw s false ltac:(fold s; lra)) as ET1. fold s c in ET1. rewrite ET1. cbn [bind].
           replace (@nltb XR _ _) with false; [reflexivity|]. symmetry. apply xltb_Ff. lra.
  - intros tof at_ rt Ha Hr HC HT. assert (Ht : 0 < tof) by lra.
    destruct (Rlt_dec tof (pt mu r1 r2 w)) as [HP|HP].
    + destruct (h_time_onto p mu r1 r2 th Hm Hn F tof Ht HP) as (b0 & B0 & HB0).
      change (h_time mu r1 r2 th) with (ht mu r1 r2 w) in HB0.
      destruct (doubling b0 (s / 2) ltac:(lra)) as (K & HK). exists (S K). intros ev Hf HS.
      destruct (expand_ok (fun a => let* t := @tho_lagrange_tof XR (Fin mu) (Fin s) (Fin c) a (Fin (- w)) ThH in Ok (@nltb XR t (Fin tof)))
        (fun x => @nltb XR (Fin (ht mu r1 r2 w (- x))) (Fin tof)) K (- (s / 2))) with (fuel := e_fuel ev) as (y & EY).
      { intros k. pose proof (pow2_ge k). assert (0 < s / 2 * 2 ^ k) by (apply Rmult_lt_0_compat; lra).
        replace (- (s / 2) * 2 ^ k) with (- (s / 2 * 2 ^ k)) by ring. pose proof (tho_hyperbolic_F mu r1 r2 w Hm Hn Hw (s / 2 * 2 ^ k) ltac:(lra)) as ET1. fold s c in ET1. rewrite ET1.
        rewrite Ropp_involutive. reflexivity. }
      { apply xltb_Ff. replace (- (- (s / 2) * 2 ^ K)) with (s / 2 * 2 ^ K) by ring. left. now apply HB0. }
      { lia. }
      pose proof EY as EY'. apply expand_inv in EY'. destruct EY' as (k & Ek & Ec). apply Fin_inj in Ek.
      set (b := s / 2 * 2 ^ k). assert (y = - b) by (rewrite Ek; unfold b; ring). pose proof (pow2_ge k).
      assert (Hb : s / 2 <= b) by (unfold b; nra). subst y. rewrite H in EY, Ec. clear H.
      assert (Gb : tof <= ht mu r1 r2 w b).
      { pose proof (tho_hyperbolic_F mu r1 r2 w Hm Hn Hw b ltac:(lra)) as ET1. fold s c in ET1. rewrite ET1 in Ec. cbn [bind] in Ec. apply Ok_inj in Ec.
        apply xltb_Ff in Ec. exact Ec. }
      set (f := fun t => ht mu r1 r2 w (- t) - tof).
      destruct (HS (fun x => let* t := @tho_lagrange_tof XR (Fin mu) (Fin s) (Fin c) x (Fin (- w)) ThH in Ok (@nsub XR t (Fin tof)))
        f (- b) (- f_axis r1 r2) at_ rt) as (N & HN); try assumption; [lra| | |].
      { intros t [L1 L2]. replace t with (- - t) at 1 by ring. apply HL. lra. }
      { unfold f. rewrite !Ropp_involutive. nra. }
      exists N. intros low mi Hmi. destruct (HN mi Hmi) as (t & kk & (L1 & L2) & EB). cbn [run].
      apply (thorne_returns mu r1 r2 p th Hm Hn F ET ev tof low mi at_ rt false Ht (Fin t) ThH kk (sqrt (1 + s / (2 * - t)))).
      * rewrite (axis_hyperbolic mu r1 r2 p th Hm Hn F ev tof mi at_ rt b); try assumption; try lra.
        match goal with |- context [e_brentq ?e ?f ?a ?b ?x ?y ?m] => assert (EB' : e_brentq e f a b x y m = Ok (Fin t, kk)) by exact EB; rewrite EB' end. reflexivity.
      * left. reflexivity.
      * replace t with (- - t) at 1 by ring. apply tho_x_hyp; [lra|fold s; lra].
    + set (long := if Rle_dec (et mu r1 r2 w (s / 2) false) tof then true else false).
      assert (HLg : if long then et mu r1 r2 w (s / 2) false <= tof else tof < et mu r1 r2 w (s / 2) false).
      { unfold long. destruct (Rle_dec _ _); lra. }
      assert (HP' : pt mu r1 r2 w < tof).
      { destruct (Rle_lt_or_eq_dec (pt mu r1 r2 w) tof ltac:(lra)) as [L|L]; [exact L|exfalso].
        rewrite <- L, Rminus_diag_eq, Rabs_R0 in HC by reflexivity. nra. }
      assert (GL : if long then et mu r1 r2 w (m_axis r1 r2) long <= tof else tof <= et mu r1 r2 w (m_axis r1 r2) long).
      { destruct long; lra. }
      destruct (e_time_onto p mu r1 r2 th Hm Hn F tof HP') as (a0 & A0 & HA0).
      change (e_time mu r1 r2 th) with (et mu r1 r2 w) in HA0.
      destruct (doubling a0 s ltac:(lra)) as (K & HK). exists (S K). intros ev Hf HS.
      assert (EX : exists y, @tho_expand_upper XR (e_fuel ev) (Fin mu) (Fin s) (Fin c) (Fin tof) (Fin (- w)) (if long then ThB else ThA) (Fin s) = Ok (Fin y)
        /\ s <= y /\ (if long then tof <= et mu r1 r2 w y long else et mu r1 r2 w y long <= tof)).
      { destruct long.
        - destruct (expand_ok (fun a => let* t := @tho_lagrange_tof XR (Fin mu) (Fin s) (Fin c) a (Fin (- w)) ThB in Ok (@nltb XR t (Fin tof)))
            (fun x => @nltb XR (Fin (et mu r1 r2 w x true)) (Fin tof)) K s) with (fuel := e_fuel ev) as (y & EY).
          { intros k. pose proof (pow2_ge k). assert (s <= s * 2 ^ k) by nra.
            pose proof (tho_elliptic_F mu r1 r2 w Hm Hn Hw (s * 2 ^ k) true ltac:(fold s; lra)) as ET1. fold s c in ET1. rewrite ET1. reflexivity. }
          { apply xltb_Ff. left. now apply HA0. }
          { lia. }
          exists y. split; [exact EY|]. apply expand_inv in EY. destruct EY as (k & Ek & Ec). apply Fin_inj in Ek.
          pose proof (pow2_ge k). assert (Hy : s <= y) by nra. split; [exact Hy|].
          pose proof (tho_elliptic_F mu r1 r2 w Hm Hn Hw y true ltac:(fold s; lra)) as ET1. fold s c in ET1. rewrite ET1 in Ec.
          cbn [bind] in Ec. apply Ok_inj in Ec. apply xltb_Ff in Ec. exact Ec.
        - destruct (expand_ok (fun a => let* t := @tho_lagrange_tof XR (Fin mu) (Fin s) (Fin c) a (Fin (- w)) ThA in Ok (@nltb XR (Fin tof) t))
            (fun x => @nltb XR (Fin tof) (Fin (et mu r1 r2 w x false))) K s) with (fuel := e_fuel ev) as (y & EY).
          { intros k. pose proof (pow2_ge k). assert (s <= s * 2 ^ k) by nra.
            pose proof (tho_elliptic_F mu r1 r2 w Hm Hn Hw (s * 2 ^ k) false ltac:(fold s; lra)) as ET1. fold s c in ET1. rewrite ET1. reflexivity. }
          { apply xltb_Ff. left. now apply HA0. }
          { lia. }
          exists y. split; [exact EY|]. apply expand_inv in EY. destruct EY as (k & Ek & Ec). apply Fin_inj in Ek.
          pose proof (pow2_ge k). assert (Hy : s <= y) by nra. split; [exact Hy|].
          pose proof (tho_elliptic_F mu r1 r2 w Hm Hn Hw y false ltac:(fold s; lra)) as ET1. fold s c in ET1. rewrite ET1 in Ec.
          cbn [bind] in Ec. apply Ok_inj in Ec. apply xltb_Ff in Ec. exact Ec. }
      destruct EX as (y & EX & Hy & GY).
      destruct (HS (fun x => let* t := @tho_lagrange_tof XR (Fin mu) (Fin s) (Fin c) x (Fin (- w)) (if long then ThB else ThA) in Ok (@nsub XR t (Fin tof)))
        (fun t => et mu r1 r2 w t long - tof) (m_axis r1 r2) y at_ rt) as (N & HN); try assumption; [lra| | |].
      { intros t [L1 L2]. apply EL. lra. }
      { destruct long; nra. }
      exists N. intros low mi Hmi. destruct (HN mi Hmi) as (t & kk & (L1 & L2) & EB). cbn [run].
      eapply (thorne_returns mu r1 r2 p th Hm Hn F ET ev tof low mi at_ rt false Ht (Fin t) (if long then ThB else ThA) kk).
      * rewrite (axis_elliptic mu r1 r2 p th Hm Hn F ev tof mi at_ rt long y); try assumption; try lra; try (fold w; lra).
        match goal with |- context [e_brentq ?e ?f ?a ?b ?x ?y ?m] => assert (EB' : e_brentq e f a b x y m = Ok (Fin t, kk)) by exact EB; rewrite EB' end. reflexivity.
      * left. reflexivity.
      * apply tho_x_F; fold s; lra.
Qed.
Print Assumptions C45_thorne_window.

(** ** C45 cannot be had for every time of flight, and the contracts can be met. *)
Corollary C45_thorne_refuted : forall mu r1 r2 prograde, 0 < mu -> non_collinear r1 r2 ->
  exists tof eps, 0 < eps /\ transfer_in mu r1 r2 tof (semiper r1 r2 / 2) /\
  forall ev low_path maxiter atol rtol full_output, (1 <= e_fuel ev)%nat -> brentq_refuses ev ->
    0 <= atol <= eps -> 0 <= rtol <= eps ->
    @run XR Thorne ev (call mu r1 r2 tof 0 prograde low_path maxiter atol rtol full_output)
    = Err (ValueError "f(a) and f(b) must have different signs").
Proof.
  intros mu r1 r2 p Hm Hn.
  destruct (C45_thorne_window mu r1 r2 p Hm Hn) as (tf & tp & tl & tm & th & H0 & H1 & H2 & H3 & H4 & _ & _ & _ & S & A & _).
  exists tm, ((tm - tp) / (2 * (1 + tp))). assert (D : 0 < 2 * (1 + tp)) by lra.
  assert (E : (tm - tp) / (2 * (1 + tp)) * (2 * (1 + tp)) = tm - tp) by (field; lra).
  set (e := (tm - tp) / (2 * (1 + tp))) in *. split; [apply Rdiv_lt_0_compat; lra|]. split; [exact S|].
  intros ev low mi at_ rt fo Hf HB Ha Hr. apply A; try assumption; try lra. rewrite Rabs_right by lra. nra.
Qed.
Print Assumptions C45_thorne_refuted.

(** A root finder that meets the contracts of C45: the left end when the signs
    differ. *)
Definition brentq_end (fuel : nat) : @env XR :=
  @Env XR (fun _ => Fin 0) fuel
    (fun f lo hi _ _ _ =>
       match f lo, f hi with
       | Ok u, Ok v => if @nltb XR (nofZ 0) (@nmul XR u v) then Err (ValueError "f(a) and f(b) must have different signs") else Ok (lo, 1%Z)
       | Err e, _ | _, Err e => Err e
       end)
    (fun _ _ _ _ => Err (ValueError "")).
Lemma brentq_end_contracts fuel : brentq_refuses (brentq_end fuel) /\ brentq_succeeds (brentq_end fuel).
Proof.
  split.
  - intros f u v lo hi xt rt n E1 E2 H. cbn [e_brentq brentq_end]. rewrite E1, E2.
    change (@nmul XR (Fin u) (Fin v)) with (Fin (u * v)). replace (@nltb XR (nofZ 0) (Fin (u * v))) with true; [reflexivity|].
    symmetry. apply xltb_F. exact H.
  - intros f g lo hi xt rt Hlh Hx Hr HF H. exists 0%Z. intros n _. exists lo, 1%Z. split; [lra|]. cbn [e_brentq brentq_end].
    rewrite !HF by lra. change (@nmul XR (Fin (g lo)) (Fin (g hi))) with (Fin (g lo * g hi)).
    replace (@nltb XR (nofZ 0) (Fin (g lo * g hi))) with false; [reflexivity|]. symmetry. apply xltb_Ff. exact H.
Qed.
Example C45_case : exists t_lo t_hi, t_lo < t_hi /\
  (forall tof atol rtol, 0 < atol -> 4 / 4503599627370496 <= rtol -> t_hi <= tof -> atol + rtol * t_lo < tof - t_hi ->
   exists n maxiter o v1 v2, @run XR Thorne (brentq_end n) (call 1 ex_r1 ex_r2 tof 0 true true maxiter atol rtol false) = Ok o /\ delivers o v1 v2).
Proof.
  destruct (C45_thorne_window 1 ex_r1 ex_r2 true ltac:(lra) ex_non_collinear) as (tf & tp & tl & tm & th & H0 & H1 & H2 & H3 & H4 & _ & _ & _ & S & _ & B).
  exists tl, th. split; [lra|]. intros tof at_ rt Ha Hr Ht Hc0.
  destruct (B tof at_ rt Ha Hr) as (n & Hn); [|right; lra|].
  { rewrite Rabs_right by lra. assert (rt * tp <= rt * tl) by (apply Rmult_le_compat_l; lra). lra. }
  destruct (Hn (brentq_end n)) as (N & HN); [cbn; lia|apply brentq_end_contracts|].
  destruct (HN true N ltac:(lia)) as (o & v1 & v2 & G). exists n, N, o, v1, v2. exact G.
Qed.

(** ** C44: a case that meets the hypotheses, and the polar planes *)
Lemma thorne_left mu r1 r2 p th low mi at_ rt fo : 0 < mu -> non_collinear r1 r2 -> angle_facts p r1 r2 th ->
  @get_transfer_angle XR (vfin r1) (vfin r2) p = Fin th -> let w := way th in let tof := et mu r1 r2 w (m_axis r1 r2) false in
  0 <= at_ -> 0 <= rt -> at_ + rt * pt mu r1 r2 w < tof - pt mu r1 r2 w ->
  @tho_semimajor_axis XR (brentq_left 1) (Fin mu) (Fin (semiper r1 r2)) (Fin (chord r1 r2)) (Fin tof) (Fin (pt mu r1 r2 w))
    (Fin (et mu r1 r2 w (semiper r1 r2 / 2) false)) (Fin (- w)) mi (Fin at_) (Fin rt) = Ok (Fin (m_axis r1 r2), ThA, 1%Z) /\
  exists o v1 v2, @run XR Thorne (brentq_left 1) (call mu r1 r2 tof 0 p low mi at_ rt fo) = Ok o /\ delivers o v1 v2.
Proof.
  intros Hm Hn F ET w tof Ha Hr HC. pose proof (way_cases th) as Hw. destruct (Hc r1 r2 Hn) as [C1 C2]. destruct (m_axis_gt r1 r2 Hn) as [M1 M2].
  pose proof (e_time_par p mu r1 r2 th Hm Hn F (m_axis r1 r2) false ltac:(lra)) as T3.
  pose proof (e_time_short p mu r1 r2 th Hm Hn F (semiper r1 r2 / 2) (m_axis r1 r2) ltac:(lra) ltac:(lra)) as T4.
  pose proof (e_time_short p mu r1 r2 th Hm Hn F (m_axis r1 r2) (semiper r1 r2) ltac:(lra) ltac:(lra)) as T5.
  pose proof (p_time_pos p mu r1 r2 th Hm Hn F) as T0.
  change (p_time mu r1 r2 th) with (pt mu r1 r2 w) in T0, T3.
  change (e_time mu r1 r2 th) with (et mu r1 r2 w) in T3, T4, T5. fold tof in T3, T4, T5.
  assert (EA : @tho_semimajor_axis XR (brentq_left 1) (Fin mu) (Fin (semiper r1 r2)) (Fin (chord r1 r2)) (Fin tof) (Fin (pt mu r1 r2 w))
    (Fin (et mu r1 r2 w (semiper r1 r2 / 2) false)) (Fin (- w)) mi (Fin at_) (Fin rt) = Ok (Fin (m_axis r1 r2), ThA, 1%Z)).
  { unfold w at 1 2 3. rewrite (axis_elliptic mu r1 r2 p th Hm Hn F (brentq_left 1) tof mi at_ rt false (semiper r1 r2)); try assumption.
    - cbn [e_brentq brentq_left]. pose proof (tho_elliptic_F mu r1 r2 w Hm Hn Hw (m_axis r1 r2) false ltac:(lra)) as ET1.
      cbn [negb] in ET1. fold w. rewrite ET1. cbn [bind].
      replace (@nltb XR (Fin at_) (nofZ 0)) with false by (symmetry; apply xltb_Ff; lra).
      replace (@nltb XR (Fin rt) (nofZ 0)) with false by (symmetry; apply xltb_Ff; lra). cbn [orb].
      replace (@neqb XR _ (nofZ 0)) with true; [reflexivity|]. symmetry. apply xeqb_F. fold tof. change (tof - tof = 0). lra.
    - fold w. rewrite Rabs_right; lra.
    - fold w. lra.
    - cbn [e_fuel brentq_left]. unfold tho_expand_upper, tho_expand. cbn [while_true].
      pose proof (tho_elliptic_F mu r1 r2 w Hm Hn Hw (semiper r1 r2) false ltac:(lra)) as ET1. fold w. rewrite ET1. cbn [bind].
      replace (@nltb XR _ _) with false; [reflexivity|]. symmetry. apply xltb_Ff. lra. }
  split; [exact EA|]. cbn [run].
  eapply (thorne_returns mu r1 r2 p th Hm Hn F ET (brentq_left 1) tof low mi at_ rt fo ltac:(lra)); [exact EA|right; discriminate|].
  apply (tho_x_F _ _ false); lra.
Qed.

Example C44_case : exists tof eps, 0 < eps /\ forall low_path maxiter atol rtol full_output, 0 <= atol <= eps -> 0 <= rtol <= eps ->
  vz (vcross ex_r1 ex_r2) <> 0 /\ brentq_brackets (brentq_left 1) /\
  exists o v1 v2, @run XR Thorne (brentq_left 1) (call 1 ex_r1 ex_r2 tof 0 true low_path maxiter atol rtol full_output) = Ok o /\ delivers o v1 v2.
Proof.
  pose proof ex_non_collinear as Hn. destruct (transfer_angle ex_r1 ex_r2 true Hn) as (th & ET & F).
  destruct (m_axis_gt ex_r1 ex_r2 Hn) as [M1 M2].
  pose proof (e_time_par true 1 ex_r1 ex_r2 th ltac:(lra) Hn F (m_axis ex_r1 ex_r2) false ltac:(lra)) as T3.
  pose proof (p_time_pos true 1 ex_r1 ex_r2 th ltac:(lra) Hn F) as T0.
  change (p_time 1 ex_r1 ex_r2 th) with (pt 1 ex_r1 ex_r2 (way th)) in T0, T3.
  change (e_time 1 ex_r1 ex_r2 th) with (et 1 ex_r1 ex_r2 (way th)) in T3.
  exists (et 1 ex_r1 ex_r2 (way th) (m_axis ex_r1 ex_r2) false).
  set (tp := pt 1 ex_r1 ex_r2 (way th)) in *. set (tof := et 1 ex_r1 ex_r2 _ _ _) in *.
  exists ((tof - tp) / (2 * (1 + tp))). assert (D : 0 < 2 * (1 + tp)) by lra.
  assert (E : (tof - tp) / (2 * (1 + tp)) * (2 * (1 + tp)) = tof - tp) by (field; lra).
  split; [apply Rdiv_lt_0_compat; lra|]. intros low mi at_ rt fo Ha Hr.
  split; [intros Z; unfold ex_r1, ex_r2 in Z; vunf; cbn in Z; lra|]. split; [apply brentq_left_brackets|].
  apply (thorne_left 1 ex_r1 ex_r2 true th low mi at_ rt fo ltac:(lra) Hn F ET); try lra. fold tp tof. nra.
Qed.

(** In polar planes the time equation uses the long way and the velocities the
    short one when [prograde] is true: whatever the tolerance, a motion is
    returned that arrives before the requested time. *)
Theorem C44_thorne_polar_refuted : forall mu r1 r2, 0 < mu -> non_collinear r1 r2 -> vz (vcross r1 r2) = 0 ->
  exists ev tof delta eps, brentq_brackets ev /\ 0 < delta /\ 0 < eps /\
  forall low_path maxiter atol rtol full_output, 0 <= atol <= eps -> 0 <= rtol <= eps ->
  exists o v1 v2 T, @run XR Thorne ev (call mu r1 r2 tof 0 true low_path maxiter atol rtol full_output) = Ok o /\ delivers o v1 v2 /\
    lambert_solution mu r1 v1 r2 v2 T 0 /\ T + delta <= tof.
Proof.
  intros mu r1 r2 Hm Hn Hz. destruct (transfer_angle r1 r2 true Hn) as (th & ET & F).
  assert (Ww : way th = -1).
  { unfold way. destruct (Rle_dec th PI) as [L|L]; [exfalso|reflexivity]. pose proof (af_npi _ _ _ _ F).
    assert (S : short_way true r1 r2) by (apply (af_pi _ _ _ _ F); lra). unfold short_way in S. lra. }
  destruct (m_axis_gt r1 r2 Hn) as [M1 M2].
  pose proof (e_time_par true mu r1 r2 th ltac:(lra) Hn F (m_axis r1 r2) false ltac:(lra)) as T3.
  pose proof (p_time_pos true mu r1 r2 th ltac:(lra) Hn F) as T0.
  change (p_time mu r1 r2 th) with (pt mu r1 r2 (way th)) in T0, T3.
  change (e_time mu r1 r2 th) with (et mu r1 r2 (way th)) in T3.
  exists (brentq_left 1), (et mu r1 r2 (way th) (m_axis r1 r2) false), (et mu r1 r2 (-1) (m_axis r1 r2) false - et mu r1 r2 1 (m_axis r1 r2) false).
  set (tp := pt mu r1 r2 (way th)) in *. set (tof := et mu r1 r2 (way th) _ _) in *.
  exists ((tof - tp) / (2 * (1 + tp))). assert (D : 0 < 2 * (1 + tp)) by lra.
  assert (E : (tof - tp) / (2 * (1 + tp)) * (2 * (1 + tp)) = tof - tp) by (field; lra).
  split; [apply brentq_left_brackets|]. split.
  { destruct (Hc r1 r2 Hn) as [C1 C2].
    destruct (lag_angles (semiper r1 r2) (semiper r1 r2 - chord r1 r2) (m_axis r1 r2) ltac:(lra) ltac:(lra) ltac:(lra)) as [[U1 U2] U3].
    unfold et, lag_time, lag_B. set (B := asin (sqrt ((semiper r1 r2 - chord r1 r2) / (2 * m_axis r1 r2)))) in *.
    replace (2 * (-1 * B)) with (- (2 * B)) by ring. replace (2 * (1 * B)) with (2 * B) by ring. rewrite sin_neg.
    assert (sin (2 * B) < 2 * B) by (apply sin_lt_x; lra).
    assert (K : 0 < m_axis r1 r2 * sqrt (m_axis r1 r2) / sqrt mu).
    { apply Rdiv_lt_0_compat; [apply Rmult_lt_0_compat; [lra|apply sqrt_lt_R0; lra]|now apply sqrt_lt_R0]. }
    nra. }
  split; [apply Rdiv_lt_0_compat; lra|]. intros low mi at_ rt fo Ha Hr.
  destruct (thorne_left mu r1 r2 true th low mi at_ rt fo Hm Hn F ET) as (EA & o & v1 & v2 & R & D1); try lra.
  { fold tp tof. nra. }
  fold tof in EA, R. exists o, v1, v2, (et mu r1 r2 1 (m_axis r1 r2) false). split; [exact R|]. split; [exact D1|].
  split; [|unfold tof; rewrite Ww; lra]. cbn [run] in R.
  destruct (thorne_run0 _ _ _ _ _ _ _ _ _ _ _ _ _ _ _ Hn R D1) as (_ & th' & e & F' & _ & _ & He & C). cbv zeta in C.
  assert (W' : way th' = way th).
  { rewrite Ww. unfold way. destruct (Rle_dec th' PI) as [L|L]; [exfalso|reflexivity]. pose proof (af_npi _ _ _ _ F').
    assert (S : short_way true r1 r2) by (apply (af_pi _ _ _ _ F'); lra). unfold short_way in S. lra. }
  rewrite W' in C. destruct C as (a & br & k & EA' & _ & CE & _). rewrite (He Hz) in CE. fold tof tp in EA, EA'.
  assert (Q : Ok (a, br, k) = Ok (Fin (m_axis r1 r2), ThA, 1%Z)) by (rewrite <- EA, <- EA'; reflexivity).
  apply Ok_inj in Q. assert (Q1 : a = Fin (m_axis r1 r2)) by congruence. assert (Q2 : br = ThA) by congruence.
  exact (proj1 (CE false (m_axis r1 r2) Q2 Q1 ltac:(lra))).
Qed.
Print Assumptions C44_thorne_polar_refuted.
Example C44_polar_case : non_collinear (V3 1 0 0) (V3 0 0 1) /\ vz (vcross (V3 1 0 0) (V3 0 0 1)) = 0.
Proof. split; [unfold non_collinear; vunf; intros H|vunf; lra]. inversion H. lra. Qed.
