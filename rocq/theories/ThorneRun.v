(** * The steps of thorne2004 in exact arithmetic. *)
From Coq Require Import Reals ZArith Bool Lra Lia Psatz String List.
From Verif Require Import Num XReal XRealLemmas MApi ApiFacts MLinalg MAngles MIzzo MThorne MScipy
  Spec SpecLambert VecFacts VecXR AnglesXR UniversalKepler LambertUV LambertRev StumpffXR Loops CallXR Godal GodalXR GodalIzzo
  DelatorreXR LambertZ IzzoXR StumpffSmooth ZMono KeplerUnique LambertExist OrbitXR GodalPan JiangXR BracketXR JiangRun JiangMono JiangLoop
  PropertiesMotion ThorneXR.
Local Open Scope R_scope.

(** What scipy.optimize.brentq guarantees for every function: the returned point
    and a point no further away than the tolerance lie in the interval, and the
    function does not have the same sign at both. *)
Definition brentq_brackets (ev : @env XR) : Prop :=
  forall F f lo hi xtol rtol n x k, lo < hi ->
  (forall t, lo <= t <= hi -> F (Fin t) = Ok (Fin (f t))) ->
  e_brentq ev F (Fin lo) (Fin hi) (Fin xtol) (Fin rtol) n = Ok (x, k) ->
  exists t t', x = Fin t /\ lo <= t <= hi /\ lo <= t' <= hi /\
    Rabs (t - t') <= xtol + rtol * Rabs t /\ f t * f t' <= 0.

(** It raises ValueError when the function has the same sign at both ends. *)
Definition brentq_refuses (ev : @env XR) : Prop :=
  forall F flo fhi lo hi xtol rtol n, F (Fin lo) = Ok (Fin flo) -> F (Fin hi) = Ok (Fin fhi) -> 0 < flo * fhi ->
  e_brentq ev F (Fin lo) (Fin hi) (Fin xtol) (Fin rtol) n = Err (ValueError "f(a) and f(b) must have different signs").

Lemma cube_pos x : 0 < x -> 0 < x * x * x.
Proof. intros H. repeat apply Rmult_lt_0_compat; assumption. Qed.

Lemma way_lt t : t <> PI -> (if @nltb XR (Fin t) npi then @nopp XR (nofZ 1) else nofZ 1) = Fin (- way t).
Proof.
  intros H. unfold way. destruct (@nltb XR (Fin t) npi) eqn:E.
  - apply xltb_F in E. destruct (Rle_dec t PI); [reflexivity|lra].
  - apply xltb_Ff in E. destruct (Rle_dec t PI) as [L|L]; [lra|].
    change (@nofZ XR 1) with (Fin 1). apply (f_equal Fin). ring.
Qed.

Section Times.
Variables (mu : R) (r1 r2 : rvec) (w : R).
Hypothesis Hm : 0 < mu.
Hypothesis Hn : non_collinear r1 r2.
Hypothesis Hw : w = 1 \/ w = -1.
Let c := chord r1 r2.
Let s := semiper r1 r2.

Lemma tho_parabolic_F : @tho_parabolic_tof XR (Fin mu) (Fin s) (Fin c) (Fin (- w)) = Fin (pt mu r1 r2 w).
Proof.
  destruct (JiangLoop.Hc r1 r2 Hn) as [C1 C2]. fold c s in C1, C2. unfold tho_parabolic_tof.
  assert (H3 : 0 < s * s * s) by (apply cube_pos; lra).
  assert (Hk : 0 < (s - c) / s) by (apply Rdiv_lt_0_compat; lra).
  change (@nsub XR (Fin s) (Fin c)) with (Fin (s - c)).
  replace (@ndiv XR (Fin (s - c)) (Fin s)) with (Fin ((s - c) / s)) by (symmetry; apply xdiv_F; lra).
  rewrite pow_3_2 by assumption. xunf. cbn [xmul xadd xsub xlift1 xlift2].
  rewrite (xdiv_F (s * s * s)) by lra. rewrite !xsqrt_F by (try lra; apply Rlt_le, Rdiv_lt_0_compat; lra).
  rewrite xdiv_F by lra. cbn [xmul xadd xsub xlift1 xlift2]. apply (f_equal Fin).
  unfold pt, par_time. fold s c. destruct (sqrt_facts mu Hm) as [M1 M2]. destruct (sqrt_facts s) as [S1 S2]; [lra|].
  rewrite cube_sqrt, (sqrt_div_alt (s - c) s) by lra.
  assert (Hw3 : w * w = 1) by (destruct Hw as [-> | ->]; ring).
  set (x := sqrt s) in *. set (y := sqrt (s - c)) in *.
  transitivity (sqrt 2 * (x * x * x - (w * w) * (w * (y * y * y))) / (3 * sqrt mu)); [rewrite Hw3|f_equal; ring].
  clearbody x y. rewrite <- S2. field. lra.
Qed.

Lemma tho_elliptic_F a (long : bool) : s <= 2 * a ->
  @tho_lagrange_tof XR (Fin mu) (Fin s) (Fin c) (Fin a) (Fin (- w)) (if long then ThB else ThA) = Ok (Fin (et mu r1 r2 w a long)).
Proof.
  intros Ha. destruct (JiangLoop.Hc r1 r2 Hn) as [C1 C2]. fold c s in C1, C2.
  destruct (lag_bounds s (s - c) a ltac:(lra) ltac:(lra) Ha) as [B1 B2].
  destruct (lag_sqrts s (s - c) a ltac:(lra) ltac:(lra) Ha) as [S1 S2].
  assert (A3 : 0 < a * a * a) by (apply cube_pos; lra).
  unfold et, lag_time, lag_A, lag_B. fold s c.
  destruct long; unfold tho_lagrange_tof; xunf; cbn [xmul xadd xsub xopp xlift1 xlift2]; rewrite !xdiv_F by lra;
    rewrite !xsqrt_F by (try lra; apply Rlt_le, Rdiv_lt_0_compat; lra); rewrite !xasin_F by lra;
    cbn [xmul xadd xsub xopp xlift1 xlift2]; apply (f_equal Ok), (f_equal Fin); rewrite cube_sqrt by lra;
    set (X := asin (sqrt (s / (2 * a)))); set (Y := asin (sqrt ((s - c) / (2 * a)))).
  - replace (2 * (PI - X)) with (- (2 * X) + 2 * PI) by ring. rewrite sin_plus, cos_2PI, sin_2PI, sin_neg.
    destruct Hw as [-> | ->].
    + replace (2 * (1 * Y)) with (2 * Y) by ring. ring.
    + replace (2 * (-1 * Y)) with (- (2 * Y)) by ring. rewrite sin_neg. ring.
  - destruct Hw as [-> | ->].
    + replace (2 * (1 * Y)) with (2 * Y) by ring. ring.
    + replace (2 * (-1 * Y)) with (- (2 * Y)) by ring. rewrite sin_neg. ring.
Qed.

Lemma tho_hyperbolic_F b : 0 < b ->
  @tho_lagrange_tof XR (Fin mu) (Fin s) (Fin c) (Fin (- b)) (Fin (- w)) ThH = Ok (Fin (ht mu r1 r2 w b)).
Proof.
  intros Hb. destruct (JiangLoop.Hc r1 r2 Hn) as [C1 C2]. fold c s in C1, C2.
  destruct (lagh_bounds s (s - c) b ltac:(lra) ltac:(lra) Hb) as [B1 B2].
  assert (A3 : 0 < b * b * b) by (apply cube_pos; lra).
  unfold ht, lagh_time, lagh_A, lagh_B. fold s c.
  unfold tho_lagrange_tof; xunf; cbn [xmul xadd xsub xopp xlift1 xlift2]. rewrite !xdiv_F by lra.
  replace (- s / (2 * - b)) with (s / (2 * b)) by (field; lra). replace ((c - s) / (2 * - b)) with ((s - c) / (2 * b)) by (field; lra).
  rewrite Ropp_involutive.
  rewrite !xsqrt_F by (try lra; apply Rlt_le, Rdiv_lt_0_compat; lra).
  cbn [xmul xadd xsub xopp xlift1 xlift2]. apply (f_equal Ok), (f_equal Fin). rewrite cube_sqrt by lra.
  set (X := arcsinh (sqrt (s / (2 * b)))). set (Y := arcsinh (sqrt ((s - c) / (2 * b)))).
  destruct Hw as [-> | ->].
  - replace (2 * (1 * Y)) with (2 * Y) by ring. ring.
  - replace (2 * (-1 * Y)) with (- (2 * Y)) by ring. 
    replace (sinh (- (2 * Y))) with (- sinh (2 * Y)) by (unfold sinh; rewrite Ropp_involutive; field). ring.
Qed.

Lemma tho_minimum_F : @tho_minimum_energy_tof XR (Fin mu) (Fin s) (Fin c) (Fin (- w)) = Fin (et mu r1 r2 w (s / 2) false).
Proof.
  destruct (JiangLoop.Hc r1 r2 Hn) as [C1 C2]. fold c s in C1, C2.
  assert (Hk : 0 < (s - c) / s < 1).
  { split; [apply Rdiv_lt_0_compat; lra|]. apply Rmult_lt_reg_r with s; [lra|]. field_simplify; lra. }
  assert (K1 : 0 <= sqrt ((s - c) / s) <= 1).
  { split; [apply sqrt_pos|]. rewrite <- sqrt_1. apply sqrt_le_1; lra. }
  assert (A3 : 0 < s / 2 * (s / 2) * (s / 2)) by (apply cube_pos; lra).
  unfold tho_minimum_energy_tof. xunf. cbn [xmul xadd xsub xopp xlift1 xlift2]. rewrite !xdiv_F by lra.
  rewrite (xsqrt_F ((s - c) / s)) by lra. rewrite xasin_F by lra. cbn [xmul xadd xsub xopp xlift1 xlift2].
  rewrite xdiv_F by lra. rewrite xsqrt_F by (apply Rlt_le, Rdiv_lt_0_compat; lra).
  cbn [xmul xadd xsub xopp xlift1 xlift2]. apply (f_equal Fin). rewrite cube_sqrt by lra.
  unfold et, lag_time, lag_A, lag_B. fold s c.
  replace (s / (2 * (s / 2))) with 1 by (field; lra). replace ((s - c) / (2 * (s / 2))) with ((s - c) / s) by (field; lra).
  rewrite sqrt_1, asin_1. replace (2 * (PI / 2)) with PI by field. rewrite sin_PI.
  set (Y := asin (sqrt ((s - c) / s))).
  destruct Hw as [-> | ->].
  - replace (2 * (1 * Y)) with (2 * Y) by ring. ring.
  - replace (2 * (-1 * Y)) with (- (2 * Y)) by ring. rewrite sin_neg. ring.
Qed.
End Times.

(** [while cond(bound): bound *= 2] *)
Lemma expand_inv fuel cond x y : @tho_expand XR fuel cond (Fin x) = Ok y ->
  exists k, y = Fin (x * 2 ^ k) /\ cond y = Ok false.
Proof.
  intros H. unfold tho_expand in H. destruct (while_true _ _ _) as [b|b|e] eqn:E; try discriminate. apply Ok_inj in H. subst b.
  apply (while_true_inv _ (fun u => exists k, u = Fin (x * 2 ^ k))) in E.
  - destruct E as (u & (k & ->) & E). destruct (cond (Fin (x * 2 ^ k))) as [[]|] eqn:EC; try discriminate.
    apply Break_inj in E. subst y. eauto.
  - exists O. apply (f_equal Fin). cbn [pow]. ring.
  - intros u u' (k & ->) E'. destruct (cond (Fin (x * 2 ^ k))) as [[]|]; try discriminate.
    assert (Q : @nmul XR (Fin (x * 2 ^ k)) (nofZ 2) = u') by congruence. subst u'. exists (S k).
    change (@nmul XR (Fin (x * 2 ^ k)) (nofZ 2)) with (Fin (x * 2 ^ k * 2)). apply (f_equal Fin). cbn [pow]. ring.
Qed.
Lemma pow2_ge k : 1 <= 2 ^ k.
Proof. induction k as [|k IH]; cbn [pow]; lra. Qed.

Lemma tho_x_F s a (long : bool) : s <= 2 * a -> 0 < s ->
  @tho_x XR (Fin a) (Fin s) (if long then ThB else ThA) = Fin (if long then - sqrt (1 - s / (2 * a)) else sqrt (1 - s / (2 * a))).
Proof.
  intros Ha Hs. assert (B : s / (2 * a) <= 1).
  { apply Rmult_le_reg_r with (2 * a); [lra|]. field_simplify; lra. }
  destruct long; unfold tho_x; xunf; cbn [xmul xsub xopp xlift1 xlift2]; rewrite xdiv_F by lra; cbn [xmul xsub xopp xlift1 xlift2];
    rewrite xsqrt_F by lra; reflexivity.
Qed.
Lemma tho_x_hyp s b : 0 < b -> 0 < s -> @tho_x XR (Fin (- b)) (Fin s) ThH = Fin (sqrt (1 + s / (2 * b))).
Proof.
  intros Hb Hs. assert (0 < s / (2 * b)) by (apply Rdiv_lt_0_compat; lra).
  unfold tho_x; xunf; cbn [xmul xsub xopp xlift1 xlift2]; rewrite xdiv_F by lra; cbn [xmul xsub xopp xlift1 xlift2].
  replace (1 - s / (2 * - b)) with (1 + s / (2 * b)) by (field; lra). rewrite xsqrt_F by lra. reflexivity.
Qed.

(** The semi-major axis, for the sign [w] of the time equation. *)
Lemma axis_run ev mu r1 r2 th tof mi at_ rt a br k :
  brentq_brackets ev -> 0 < mu -> non_collinear r1 r2 -> th <> PI ->
  let w := way th in let s := semiper r1 r2 in let c := chord r1 r2 in
  @tho_semimajor_axis XR ev (Fin mu) (Fin s) (Fin c) (Fin tof) (Fin (pt mu r1 r2 w)) (Fin (et mu r1 r2 w (s / 2) false)) (Fin (- w))
    mi (Fin at_) (Fin rt) = Ok (a, br, k) ->
  (br = ThP /\ Rabs (tof - pt mu r1 r2 w) <= at_ + rt * Rabs (pt mu r1 r2 w)) \/
  (exists (long : bool) x x', br = (if long then ThB else ThA) /\ a = Fin x /\ s < 2 * x /\ s < 2 * x' /\ Rabs (x - x') <= at_ + rt * Rabs x /\
     (et mu r1 r2 w x long - tof) * (et mu r1 r2 w x' long - tof) <= 0) \/
  (exists x x', br = ThH /\ a = Fin (- x) /\ 0 < x /\ 0 < x' /\ Rabs (x - x') <= at_ + rt * Rabs x /\
     (ht mu r1 r2 w x - tof) * (ht mu r1 r2 w x' - tof) <= 0).
Proof.
  intros HB Hm Hn Hth w s c H. pose proof (way_cases th) as Hw. fold w in Hw.
  destruct (JiangLoop.Hc r1 r2 Hn) as [C1 C2]. fold c s in C1, C2.
  unfold tho_semimajor_axis in H. destruct (np_isclose _ _ _ _) eqn:EI.
  { apply Ok_inj in H. left. split; [congruence|]. apply xleb_F in EI. exact EI. }
  right. apply bind_ok in H. destruct H as ([[br' lo] hi] & EB & H). apply bind_ok in H. destruct H as ([x k'] & ER & H).
  apply Ok_inj in H. assert (x = a /\ br' = br) as [-> ->] by (split; congruence). clear H.
  destruct (@nltb XR (Fin tof) (Fin (pt mu r1 r2 w))).
  - right. apply bind_ok in EB. destruct EB as (lo' & EX & EB). apply Ok_inj in EB.
    assert (br = ThH /\ lo' = lo /\ hi = Fin (- (1 / 4503599627370496) * s)) as (-> & -> & ->) by (split; [congruence|split; [congruence|]]; now assert (Q : @nmul XR (@nopp XR eps_machine) (Fin s) = hi) by congruence; rewrite <- Q).
    clear EB. unfold tho_expand_lower in EX.
    assert (E0 : @ndiv XR (@nopp XR (Fin s)) (nofZ 2) = Fin (- s / 2)) by (xunf; cbn [xopp xlift1]; apply xdiv_F; lra). rewrite E0 in EX.
    apply expand_inv in EX. destruct EX as (n & -> & _). pose proof (pow2_ge n) as P2.
    apply (HB _ (fun t => ht mu r1 r2 w (- t) - tof)) in ER.
    + destruct ER as (t & t' & -> & B1 & B2 & D & S). exists (- t), (- t').
      split; [reflexivity|]. split; [now rewrite Ropp_involutive|]. split; [lra|]. split; [lra|].
      split. { replace (- t - - t') with (- (t - t')) by ring. rewrite !Rabs_Ropp. exact D. } exact S.
    + nra.
    + intros t Ht. replace (Fin t) with (Fin (- - t)) by (now rewrite Ropp_involutive).
      pose proof (tho_hyperbolic_F mu r1 r2 w Hm Hn Hw (- t) ltac:(lra)) as EH. fold s c in EH. rewrite EH. reflexivity.
  - left. apply bind_ok in EB. destruct EB as (hi' & EX & EB). apply Ok_inj in EB.
    set (long := negb (@nltb XR (Fin tof) (Fin (et mu r1 r2 w (s / 2) false)))).
    assert (Ebr : (if @nltb XR (Fin tof) (Fin (et mu r1 r2 w (s / 2) false)) then ThA else ThB) = (if long then ThB else ThA)).
    { unfold long. destruct (@nltb XR _ _); reflexivity. }
    rewrite Ebr in EX, EB. clearbody long. clear Ebr.
    assert (Es : @ndiv XR (Fin s) (nofZ 2) = Fin (s / 2)) by (xunf; apply xdiv_F; lra).
    assert (br = (if long then ThB else ThA) /\ hi' = hi) as (-> & ->) by (split; congruence).
    assert (lo = Fin (s / 2 * (1 + 1 / 4503599627370496))) as ->.
    { assert (Q : @nmul XR (@ndiv XR (Fin s) (nofZ 2)) (@nadd XR (nofZ 1) eps_machine) = lo) by congruence. rewrite <- Q, Es. reflexivity. }
    clear EB.
    assert (EY : exists cond, @tho_expand XR (e_fuel ev) cond (Fin s) = Ok hi) by (unfold tho_expand_upper in EX; destruct long; eauto).
    destruct EY as (cond & EY). apply expand_inv in EY. destruct EY as (n & -> & _). pose proof (pow2_ge n) as P2.
    apply (HB _ (fun t => et mu r1 r2 w t long - tof)) in ER.
    + destruct ER as (t & t' & -> & B1 & B2 & D & S). exists long, t, t'.
      split; [reflexivity|]. split; [reflexivity|]. split; [lra|]. split; [lra|]. split; assumption.
    + nra.
    + intros t Ht. pose proof (tho_elliptic_F mu r1 r2 w Hm Hn Hw t long ltac:(fold s; lra)) as EH. fold s c in EH. rewrite EH. reflexivity.
Qed.

(** The whole call: [w] is the sign used in the time equation and [e] the one
    used to build the velocities. *)
Lemma thorne_run0 ev mu r1 r2 tof M p l mi at_ rt full o v1 v2 :
  non_collinear r1 r2 ->
  @thorne2004 XR ev (call mu r1 r2 tof M p l mi at_ rt full) = Ok o -> delivers o v1 v2 ->
  0 < mu /\ exists th e, angle_facts p r1 r2 th /\ (e = 1 \/ e = -1) /\
  (vz (vcross r1 r2) <> 0 -> e = way th) /\ (vz (vcross r1 r2) = 0 -> e = if p then 1 else -1) /\
  let w := way th in let s := semiper r1 r2 in
  exists a br k, @tho_semimajor_axis XR ev (Fin mu) (Fin s) (Fin (chord r1 r2)) (Fin tof) (Fin (pt mu r1 r2 w)) (Fin (et mu r1 r2 w (s / 2) false)) (Fin (- w))
    mi (Fin at_) (Fin rt) = Ok (a, br, k) /\
  (br = ThP -> lambert_solution mu r1 v1 r2 v2 (pt mu r1 r2 e) 0) /\
  (forall (long : bool) x, br = (if long then ThB else ThA) -> a = Fin x -> s <= 2 * x ->
    lambert_solution mu r1 v1 r2 v2 (et mu r1 r2 e x long) 0 /\ semimajor mu r1 v1 = x) /\
  (forall x, br = ThH -> a = Fin (- x) -> 0 < x -> lambert_solution mu r1 v1 r2 v2 (ht mu r1 r2 e x) 0 /\ semimajor mu r1 v1 = - x).
Proof.
  intros Hn H D. unfold thorne2004 in H. skip_check H. enter H. rewrite semiper_F in H. split; [exact Hmu|].
  destruct (transfer_angle r1 r2 p Hn) as (th & ET & F). rewrite ET in H.
  rewrite way_lt in H by apply (af_npi _ _ _ _ F). change (vnorm (vminus r2 r1)) with (chord r1 r2) in H.
  rewrite tho_parabolic_F, tho_minimum_F in H by (assumption || apply way_cases).
  apply bind_ok in H. destruct H as ([[a br] it] & EA & H). apply bind_ok in H. destruct H as (tpi & _ & H).
  destruct (tho_reconstruct _ _ _ _ _ _ _ _) as [u1 u2] eqn:EV.
  destruct (delivers_inv _ _ _ _ _ _ _ _ H D) as [-> ->].
  destruct (lambda0_facts _ _ Hn) as [B P]. destruct (semiper_pos _ _ Hn) as [Hs Hcs].
  destruct (izzo_frame_F r1 r2 (sqrt (1 - chord r1 r2 / semiper r1 r2)) p Hn P) as (e & He & Hd & EF).
  assert (HE : e = 1 \/ e = -1).
  { assert (Q : (e - 1) * (e + 1) = 0) by (ring_simplify; replace (e ^ 2) with (e * e) by ring; lra).
    apply Rmult_integral in Q. destruct Q; [left|right]; lra. }
  assert (Ez : vz (vcross r1 r2) = 0 -> e = if p then 1 else -1).
  { intros Z. unfold izzo_frame in EF. rewrite unit_normal_F in EF by assumption.
    change (vz (vfin (vmult (/ vnorm (vcross r1 r2)) (vcross r1 r2)))) with (Fin (/ vnorm (vcross r1 r2) * vz (vcross r1 r2))) in EF.
    rewrite Z in EF. replace (@nltb XR (Fin (/ vnorm (vcross r1 r2) * 0)) (nofZ 0)) with false in EF by (symmetry; apply xltb_Ff; lra).
    set (q := sqrt _) in *. assert (Q : e * q = if p then q else - q).
    { destruct p; apply (f_equal (fun t => fst (fst t))) in EF; cbn [fst] in EF; apply Fin_inj in EF; symmetry; exact EF. }
    destruct p; destruct HE as [-> | ->]; lra. }
  assert (Ew : vz (vcross r1 r2) <> 0 -> e = way th).
  { intros Z. specialize (Hd Z). pose proof (af_pi _ _ _ _ F) as FP. unfold way. pose proof (af_npi _ _ _ _ F).
    destruct (Rle_dec th PI) as [L|L].
    - assert (0 < e) by (apply Hd, FP; lra). lra.
    - destruct HE as [-> |]; [|assumption]. exfalso. apply L. assert (th < PI) by (apply FP, Hd; lra). lra. }
  exists th, e. split; [exact F|]. split; [exact HE|]. split; [exact Ew|]. split; [exact Ez|]. intros w s.
  (* velocities *)
  rewrite tho_reconstruct_frame, tho_y_frame in EV. rewrite !norm_F in EV.
  assert (El : @nsqrt XR (@nsub XR (nofZ 1) (@ndiv XR (Fin (chord r1 r2)) (Fin (semiper r1 r2))))
      = Fin (sqrt (1 - chord r1 r2 / semiper r1 r2))).
  { xunf. rewrite xdiv_F by lra. change (xsub (Fin 1) (Fin ?x)) with (Fin (1 - x)). rewrite xsqrt_F by lra. reflexivity. }
  rewrite El in EV. rewrite EF in EV. cbv beta iota in EV.
  assert (Hel : 0 < e * (e * sqrt (1 - chord r1 r2 / semiper r1 r2))) by (rewrite <- Rmult_assoc, He; lra).
  destruct (izzo_velocities_fg mu p r1 r2 e _ _ _ _ v1 v2 Hn Hmu He Hel (lambda_facts_intro p r1 r2 e Hn He Hd) eq_refl eq_refl EV)
    as (x & y & Ex & _ & Hy & Ey & FG). clear EV EF El.
  unfold s. clear s. fold w in EA. exists a, br, it. split; [exact EA|]. split; [|split].
  - intros ->. assert (x = 1) by (apply Fin_inj; exact (eq_sym Ex)). subst x.
    rewrite (par_V r1 r2 e Hn HE y Hy Ey) in FG. exact (proj1 (w_par_solution mu r1 r2 e Hmu Hn HE v1 v2 FG)).
  - intros long a' -> -> A0. rewrite tho_x_F in Ex by lra. apply Fin_inj in Ex.
    rewrite <- (ell_x r1 r2 e Hn HE a' long A0) in Ex. subst x.
    rewrite (ell_V r1 r2 e Hn HE a' long A0 y Hy Ey) in FG.
    exact (w_ell_solution mu r1 r2 e Hmu Hn HE a' long A0 v1 v2 FG).
  - intros b -> -> A1. rewrite tho_x_hyp in Ex by lra. apply Fin_inj in Ex.
    rewrite <- (hyp_x r1 r2 e Hn HE b A1) in Ex. subst x.
    rewrite (hyp_V r1 r2 e Hn HE b A1 y Hy Ey) in FG.
    exact (w_hyp_solution mu r1 r2 e Hmu Hn HE b A1 v1 v2 FG).
Qed.

Lemma thorne_run ev mu r1 r2 tof M p l mi at_ rt full o v1 v2 :
  brentq_brackets ev -> non_collinear r1 r2 ->
  @thorne2004 XR ev (call mu r1 r2 tof M p l mi at_ rt full) = Ok o -> delivers o v1 v2 ->
  0 < mu /\ exists th e, angle_facts p r1 r2 th /\ (e = 1 \/ e = -1) /\
  (vz (vcross r1 r2) <> 0 -> e = way th) /\ (vz (vcross r1 r2) = 0 -> e = if p then 1 else -1) /\
  let w := way th in let s := semiper r1 r2 in
  ((lambert_solution mu r1 v1 r2 v2 (pt mu r1 r2 e) 0 /\ Rabs (tof - pt mu r1 r2 w) <= at_ + rt * Rabs (pt mu r1 r2 w)) \/
   (exists (long : bool) x x', lambert_solution mu r1 v1 r2 v2 (et mu r1 r2 e x long) 0 /\ semimajor mu r1 v1 = x /\
     s < 2 * x /\ s < 2 * x' /\ Rabs (x - x') <= at_ + rt * Rabs x /\
     (et mu r1 r2 w x long - tof) * (et mu r1 r2 w x' long - tof) <= 0) \/
   (exists x x', lambert_solution mu r1 v1 r2 v2 (ht mu r1 r2 e x) 0 /\ semimajor mu r1 v1 = - x /\
     0 < x /\ 0 < x' /\ Rabs (x - x') <= at_ + rt * Rabs x /\
     (ht mu r1 r2 w x - tof) * (ht mu r1 r2 w x' - tof) <= 0)).
Proof.
  intros HB Hn H D. destruct (thorne_run0 _ _ _ _ _ _ _ _ _ _ _ _ _ _ _ Hn H D) as (Hmu & th & e & F & HE & Ew & Ez & C). cbv zeta in C.
  destruct C as (a & br & k & EA & CP & CE & CH). split; [exact Hmu|].
  exists th, e. split; [exact F|]. split; [exact HE|]. split; [exact Ew|]. split; [exact Ez|]. intros w s.
  apply axis_run in EA; try assumption; [|apply (af_npi _ _ _ _ F)].
  destruct EA as [[Eb EP]|[(long & a' & a'' & Eb & Ea & A1 & A2 & A3 & A4)|(b & b' & Eb & Ea & A1 & A2 & A3 & A4)]].
  - left. split; [exact (CP Eb)|exact EP].
  - right; left. exists long, a', a''. destruct (CE long a' Eb Ea ltac:(lra)) as [L1 L2]. auto 10.
  - right; right. exists b, b'. destruct (CH b Eb Ea A1) as [L1 L2]. auto 10.
Qed.
