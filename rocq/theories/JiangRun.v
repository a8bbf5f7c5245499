(** * Runs of jiang2016 in exact arithmetic. *)
From Coq Require Import Reals ZArith Bool Lra Lia Psatz String List.
From Verif Require Import Num XReal XRealLemmas MApi ApiFacts Loops MScipy MLinalg MAssertions MAngles MJiang
  Spec SpecLambert VecFacts VecXR UniversalKepler LambertUV LambertRev AnglesXR StumpffXR CallXR Godal GodalIzzo GodalXR
  DelatorreXR LambertZ OrbitXR GodalPan JiangXR BracketXR.
Local Open Scope R_scope.

Section Times.
Variables (mu s c th : R).
Hypothesis Hm : 0 < mu.
Hypothesis Hc : 0 < c < s.

Lemma jia_angles_F a long : s <= 2 * a ->
  @jia_elliptic_alpha_beta XR (Fin a) (Fin s) (Fin c) (Fin th) long
  = (Fin (2 * lag_A s a long), Fin (2 * lag_B (way th) (s - c) a)).
Proof.
  intros Ha. destruct (lag_bounds s (s - c) a ltac:(lra) ltac:(lra) Ha) as [[B1 B2] B3].
  destruct (lag_sqrts s (s - c) a ltac:(lra) ltac:(lra) Ha) as [[S1' S2'] S3'].
  unfold jia_elliptic_alpha_beta. rewrite jia_beta_sign_F. xunf. cbn [xmul xsub xlift2 xlift1].
  rewrite !xdiv_F by lra. rewrite !xsqrt_F by lra. rewrite !xasin_F by lra. cbn [xmul xsub xlift2 xlift1].
  unfold lag_A, lag_B. apply f_equal2.
  - destruct long; apply (f_equal Fin); ring.
  - apply (f_equal Fin). ring.
Qed.
Lemma jia_angles_inv a long al be :
  @jia_elliptic_alpha_beta XR a (Fin s) (Fin c) (Fin th) long = (Fin al, be) ->
  exists a', a = Fin a' /\ s <= 2 * a'.
Proof.
  intros H. unfold jia_elliptic_alpha_beta in H. apply (f_equal fst) in H. cbn [fst] in H.
  assert (E : exists u, @nasin XR (nsqrt (ndiv (Fin s) (nmul (nofZ 2) a))) = Fin u).
  { destruct long; xunf; destruct (xasin _) as [u|]; try discriminate; eauto. }
  clear H. destruct E as (u & H). xunf. destruct a as [a|]; [|discriminate]. exists a. split; [reflexivity|].
  apply xasin_inv in H. destruct H as (x & H & Hx & _). apply xsqrt_inv in H. destruct H as (q & H & Hq & Ex).
  apply xdiv_inv in H. destruct H as (u1 & u2 & U1 & U2 & U3 & ->). apply Fin_inj in U1. subst u1.
  assert (U4 : u2 = 2 * a) by (symmetry; apply Fin_inj; exact U2). subst u2 x.
  assert (Q : s / (2 * a) <= 1). { destruct Hx as [_ Hx]. rewrite <- sqrt_1 in Hx. apply sqrt_le_0 in Hx; lra. }
  assert (E : s = s / (2 * a) * (2 * a)) by (field; lra). nra.
Qed.

Lemma cube_sqrt a : 0 < a -> sqrt (a * a * a / mu) = a * sqrt a / sqrt mu.
Proof.
  intros Ha. rewrite sqrt_div_alt by assumption. rewrite sqrt_mult by nra. rewrite sqrt_square by lra. reflexivity.
Qed.
Lemma jia_tof_elliptic_F a long : s <= 2 * a ->
  @jia_tof_elliptic XR (Fin mu) (Fin a) (Fin s) (Fin c) (Fin th) long
  = Fin (lag_time mu a (lag_A s a long) (lag_B (way th) (s - c) a)).
Proof.
  intros Ha. unfold jia_tof_elliptic. rewrite jia_angles_F by assumption.
  set (A := lag_A s a long). set (B := lag_B (way th) (s - c) a). clearbody A B.
  xunf. cbn [xmul xsub xlift2 xlift1]. rewrite xdiv_F by lra.
  assert (0 < a) by lra. assert (0 < a * a * a) by (repeat apply Rmult_lt_0_compat; lra).
  rewrite xsqrt_F by (apply Rmult_le_pos; [lra|left; now apply Rinv_0_lt_compat]).
  cbn [xmul xsub xlift2 xlift1]. apply (f_equal Fin). rewrite cube_sqrt by assumption. reflexivity.
Qed.
Lemma jia_tof_elliptic_inv a long t :
  @jia_tof_elliptic XR (Fin mu) a (Fin s) (Fin c) (Fin th) long = Fin t ->
  exists a', a = Fin a' /\ s <= 2 * a' /\ t = lag_time mu a' (lag_A s a' long) (lag_B (way th) (s - c) a').
Proof.
  intros H. pose proof H as H'. unfold jia_tof_elliptic in H'.
  destruct (@jia_elliptic_alpha_beta XR a (Fin s) (Fin c) (Fin th) long) as [[al|] be] eqn:E.
  - apply jia_angles_inv in E. destruct E as (a' & -> & Ha). exists a'. split; [reflexivity|]. split; [assumption|].
    rewrite jia_tof_elliptic_F in H by assumption. symmetry. now apply Fin_inj.
  - exfalso. revert H'. xunf. cbn [xmul xsub xlift2 xlift1]. destruct (xsqrt _); discriminate.
Qed.
Lemma jia_elliptic_p_F a n1 n2 long : s <= 2 * a ->
  @jia_elliptic_p XR (Fin a) (Fin n1) (Fin n2) (Fin c) (Fin s) (Fin th) long
  = let A := lag_A s a long in let B := lag_B (way th) (s - c) a in
    Fin (4 * a * (s - n1) * (s - n2) / (c * c) * (sin (A + B) * sin (A + B))).
Proof.
  intros Ha. cbv zeta. unfold jia_elliptic_p. rewrite jia_angles_F by assumption.
  set (A := lag_A s a long). set (B := lag_B (way th) (s - c) a). clearbody A B.
  xunf. cbn [xmul xsub xadd xlift2 xlift1]. rewrite !xdiv_F by nra. cbn [xmul xlift2 xlift1].
  replace ((2 * A + 2 * B) / 2) with (A + B) by field. reflexivity.
Qed.

Lemma jia_hangles_F a : a < 0 ->
  @jia_hyperbolic_alpha_beta XR (Fin a) (Fin s) (Fin c) (Fin th)
  = (Fin (2 * lagh_A s (- a)), Fin (2 * lagh_B (way th) (s - c) (- a))).
Proof.
  intros Ha. destruct (lagh_bounds s (s - c) (- a) ltac:(lra) ltac:(lra) ltac:(lra)) as [B1 B2].
  unfold jia_hyperbolic_alpha_beta. rewrite jia_beta_sign_F. xunf. cbn [xmul xsub xopp xlift2 xlift1].
  rewrite !xdiv_F by lra. 
  replace (-(2) * a) with (2 * - a) by ring.
  rewrite !xsqrt_F by lra. cbn [xmul xsub xlift2 xlift1].
  unfold lagh_A, lagh_B. apply f_equal2; apply (f_equal Fin); ring.
Qed.
Lemma jia_hangles_inv a al be :
  @jia_hyperbolic_alpha_beta XR a (Fin s) (Fin c) (Fin th) = (Fin al, be) -> exists a', a = Fin a' /\ a' < 0.
Proof.
  intros H. unfold jia_hyperbolic_alpha_beta in H. apply (f_equal fst) in H. cbn [fst] in H.
  xunf. destruct a as [a|]; [|discriminate]. exists a. split; [reflexivity|].
  destruct (xsqrt _) as [x|] eqn:E; [|discriminate]. clear H.
  apply xsqrt_inv in E. destruct E as (q & E & Hq & _).
  apply xdiv_inv in E. destruct E as (u1 & u2 & U1 & U2 & U3 & ->). apply Fin_inj in U1. subst u1.
  assert (U4 : u2 = - (2) * a) by (symmetry; apply Fin_inj; exact U2). subst u2.
  assert (E : s = s / (- (2) * a) * (- (2) * a)) by (field; lra).
  assert (0 < - (2) * a). { set (k := s / (- (2) * a)) in *. clearbody k. nra. } lra.
Qed.
Lemma jia_tof_hyperbolic_F a : a < 0 ->
  @jia_tof_hyperbolic XR (Fin mu) (Fin a) (Fin s) (Fin c) (Fin th)
  = Fin (lagh_time mu (- a) (lagh_A s (- a)) (lagh_B (way th) (s - c) (- a))).
Proof.
  intros Ha. unfold jia_tof_hyperbolic. rewrite jia_hangles_F by assumption.
  set (A := lagh_A s (- a)). set (B := lagh_B (way th) (s - c) (- a)). clearbody A B.
  xunf. cbn [xmul xsub xopp xlift2 xlift1]. rewrite xdiv_F by lra.
  assert (0 < - a) by lra. assert (0 < - a * - a * - a) by (repeat apply Rmult_lt_0_compat; lra).
  rewrite xsqrt_F by (apply Rmult_le_pos; [lra|left; now apply Rinv_0_lt_compat]).
  cbn [xmul xsub xlift2 xlift1]. apply (f_equal Fin). rewrite cube_sqrt by assumption. reflexivity.
Qed.
Lemma jia_tof_hyperbolic_inv a t :
  @jia_tof_hyperbolic XR (Fin mu) a (Fin s) (Fin c) (Fin th) = Fin t ->
  exists a', a = Fin a' /\ a' < 0 /\ t = lagh_time mu (- a') (lagh_A s (- a')) (lagh_B (way th) (s - c) (- a')).
Proof.
  intros H. pose proof H as H'. unfold jia_tof_hyperbolic in H'.
  destruct (@jia_hyperbolic_alpha_beta XR a (Fin s) (Fin c) (Fin th)) as [[al|] be] eqn:E.
  - apply jia_hangles_inv in E. destruct E as (a' & -> & Ha). exists a'. split; [reflexivity|]. split; [assumption|].
    rewrite jia_tof_hyperbolic_F in H by assumption. symmetry. now apply Fin_inj.
  - exfalso. revert H'. xunf. cbn [xmul xsub xlift2 xlift1]. destruct (xsqrt _); discriminate.
Qed.
Lemma jia_hyperbolic_p_F a n1 n2 : a < 0 ->
  @jia_hyperbolic_p XR (Fin a) (Fin n1) (Fin n2) (Fin c) (Fin s) (Fin th)
  = let A := lagh_A s (- a) in let B := lagh_B (way th) (s - c) (- a) in
    Fin (4 * (- a) * (s - n1) * (s - n2) / (c * c) * (sinh (A + B) * sinh (A + B))).
Proof.
  intros Ha. cbv zeta. unfold jia_hyperbolic_p. rewrite jia_hangles_F by assumption.
  set (A := lagh_A s (- a)). set (B := lagh_B (way th) (s - c) (- a)). clearbody A B.
  xunf. cbn [xmul xsub xadd xopp xlift2 xlift1]. rewrite !xdiv_F by nra. cbn [xmul xlift2 xlift1].
  replace ((2 * A + 2 * B) / 2) with (A + B) by field. apply (f_equal Fin). field. lra.
Qed.

Lemma pow_3_2 x : 0 < x -> @npow XR (Fin x) (nlit 3 2) = Fin (sqrt x * sqrt x * sqrt x).
Proof.
  intros Hx. change (@npow XR (Fin x) (nlit 3 2)) with (xpow (Fin x) (Fin (3 / 2))). rewrite xpow_F by assumption.
  apply (f_equal Fin). replace (3 / 2) with (/ 2 + (/ 2 + / 2)) by field. rewrite !Rpower_plus, Rpower_sqrt by assumption. ring.
Qed.
Lemma jia_tof_parabolic_F :
  @jia_tof_parabolic XR (Fin mu) (Fin s) (Fin c) (Fin th)
  = Fin (par_time mu (sqrt s) (way th * sqrt (s - c))).
Proof.
  unfold jia_tof_parabolic. rewrite jia_beta_sign_F, pow_3_2 by lra.
  change (@nsub XR (Fin s) (Fin c)) with (Fin (s - c)). rewrite pow_3_2 by lra.
  xunf. rewrite xdiv_F by lra. cbn [xmul xsub xlift2 xlift1].
  rewrite xsqrt_F by (apply Rmult_le_pos; [lra|left; now apply Rinv_0_lt_compat]). cbn [xmul xsub xlift2 xlift1].
  rewrite xdiv_F by lra. apply (f_equal Fin). rewrite sqrt_div_alt by assumption. unfold par_time.
  destruct (sqrt_facts mu Hm) as [M1 _].
  replace (way th * sqrt (s - c) * (way th * sqrt (s - c)) * (way th * sqrt (s - c)))
    with ((way th * way th) * (way th * (sqrt (s - c) * sqrt (s - c) * sqrt (s - c)))) by ring.
  rewrite way_sq. field. lra.
Qed.
Lemma jia_parabolic_p_F n1 n2 :
  @jia_parabolic_p XR (Fin n1) (Fin n2) (Fin c) (Fin s) (Fin th)
  = let x := sqrt s in let y := way th * sqrt (s - c) in
    Fin (2 * (s - n1) * (s - n2) / (c * c) * ((x + y) * (x + y))).
Proof.
  cbv zeta. unfold jia_parabolic_p. rewrite jia_beta_sign_F. xunf. cbn [xmul xsub xlift2 xlift1].
  rewrite !xsqrt_F by lra. rewrite xdiv_F by nra. reflexivity.
Qed.
End Times.

(** One pass of the search, for any residual. *)
Lemma jia_pass f at_ rt j x l h fl : l < x < h ->
  (@jia_newton_body XR f (Fin at_) (Fin rt) j (Fin x, Fin l, Fin h, fl) = Break (Fin x, j) /\
   exists t, f (Fin x) = Fin t /\ Rabs t <= at_) \/
  (exists x' l' h' fl', l' < x' < h' /\ x' <> x /\
   (@jia_newton_body XR f (Fin at_) (Fin rt) j (Fin x, Fin l, Fin h, fl) = Next (Fin x', Fin l', Fin h', fl') \/
    (@jia_newton_body XR f (Fin at_) (Fin rt) j (Fin x, Fin l, Fin h, fl) = Break (Fin x', j) /\
     exists t, f (Fin x') = Fin t /\
       (Rabs t <= at_ \/ exists t', f (Fin x) = Fin t' /\ Rabs (x' - x) <= at_ + rt * Rabs x' /\ Rabs t <= Rabs t')))).
Proof.
  intros H1. unfold jia_newton_body.
  destruct (@nleb XR (@nabs XR (f (Fin x))) (Fin at_)) eqn:E.
  { left. split; [reflexivity|]. destruct (f (Fin x)) as [t|]; [|discriminate]. exists t. split; [reflexivity|]. now apply le_true in E. }
  right. clear E.
  assert (HB : exists lo' hi' fl', (if @nleb XR (@nmul XR fl (f (Fin x))) (nofZ 0)
      then (Fin l, Fin x, fl) else (Fin x, Fin h, f (Fin x))) = (Fin lo', Fin hi', fl')
    /\ lo' < hi' /\ (hi' <= x \/ x <= lo')).
  { destruct (@nleb XR (@nmul XR fl (f (Fin x))) (nofZ 0)).
    - exists l, x, fl. split; [reflexivity|]. lra.
    - exists x, h, (f (Fin x)). split; [reflexivity|]. lra. }
  change (@num XR) with xr in *.
  destruct HB as (lo' & hi' & fl' & -> & B1 & B2). cbv iota.
  set (df := @jia_derivative XR f _ _ _). clearbody df.
  set (zn := if @nneqb XR df (nofZ 0) then _ else _). clearbody zn.
  rewrite middle'.
  assert (HN : exists z', (if negb (@nisfinite XR zn) || negb (@nltb XR (Fin lo') zn && @nltb XR zn (Fin hi')) then Fin ((lo' + hi') / 2) else zn) = Fin z'
    /\ lo' < z' < hi').
  { destruct zn as [zn|].
    - change (@nisfinite XR (Fin zn)) with true. cbn [negb orb].
      destruct (@nltb XR (Fin lo') (Fin zn)) eqn:E1; cbn [andb negb].
      2:{ exists ((lo' + hi') / 2). split; [reflexivity|]. lra. }
      destruct (@nltb XR (Fin zn) (Fin hi')) eqn:E2; cbn [negb].
      2:{ exists ((lo' + hi') / 2). split; [reflexivity|]. lra. }
      apply lt_true in E1. apply lt_true in E2. exists zn. split; [reflexivity|]. lra.
    - change (@nisfinite XR NaN) with false. cbn [negb orb].
      exists ((lo' + hi') / 2). split; [reflexivity|]. lra. }
  destruct HN as (z' & -> & Z). exists z', lo', hi', fl'. split; [exact Z|]. split; [lra|].
  match goal with |- context [if ?b then Break _ else _] => destruct b eqn:E3 end; [right|left; reflexivity].
  split; [reflexivity|]. apply orb_prop in E3. destruct E3 as [E3|E3].
  - destruct (f (Fin z')) as [t|]; [|discriminate]. exists t. split; [reflexivity|]. left. now apply le_true in E3.
  - apply andb_prop in E3. destruct E3 as [E3 E4]. destruct (f (Fin z')) as [t|]; [|discriminate].
    exists t. split; [reflexivity|]. right. destruct (f (Fin x)) as [t'|]; [|discriminate].
    exists t'. split; [reflexivity|]. split; [now apply le_true in E3|now apply le_true in E4].
Qed.

(** What the search returns, for any residual. *)
Lemma jia_search f lo hi mi at_ rt a k : lo < hi ->
  @jia_solve_semimajor_axis XR f (Fin lo) (Fin hi) mi (Fin at_) (Fin rt) = Ok (a, k) ->
  exists x t, a = Fin x /\ f (Fin x) = Fin t /\
    (Rabs t <= at_ \/
     exists y t', f (Fin y) = Fin t' /\ y <> x /\ Rabs (x - y) <= at_ + rt * Rabs x /\ Rabs t <= Rabs t').
Proof.
  intros H E. unfold jia_solve_semimajor_axis in E. rewrite middle' in E.
  destruct (for_range _ _ _ _) as [r|st|e] eqn:EF; try discriminate. apply Ok_inj in E. subst r.
  set (inv := fun (_ : Z) (st : xr * xr * xr * xr) => exists x l h fl, st = (Fin x, Fin l, Fin h, fl) /\ l < x < h).
  apply (for_range_inv _ inv) in EF.
  - destruct EF as (j & st & _ & (x & l & h & fl & -> & Hx) & EF).
    destruct (jia_pass f at_ rt j x l h fl Hx) as [[E (t & Et & Ht)]|(x' & l' & h' & fl' & _ & Hne & [E|[E (t & Et & Ht)]])];
      apply (eq_trans (eq_sym E)) in EF; try discriminate; apply Break_inj in EF; apply pair_equal_spec in EF; destruct EF as [<- _].
    + exists x, t. auto.
    + exists x', t. split; [reflexivity|]. split; [assumption|]. destruct Ht as [Ht|(t' & Et' & D & Ht)]; [auto|].
      right. exists x, t'. auto.
  - exists ((lo + hi) / 2), lo, hi, (f (Fin lo)). split; [reflexivity|]. lra.
  - intros j st st' _ (x & l & h & fl & -> & Hx) EN.
    destruct (jia_pass f at_ rt j x l h fl Hx) as [[E _]|(x' & l' & h' & fl' & Hx' & _ & [E|[E _]])];
      apply (eq_trans (eq_sym E)) in EN; try discriminate.
    assert (Q : st' = (Fin x', Fin l', Fin h', fl')) by congruence. subst st'. exists x', l', h', fl'. auto.
Qed.

Lemma pymax_F a b : @pymax XR (Fin a) (Fin b) = Fin (Rmax a b).
Proof.
  unfold pymax. destruct (@nltb XR _ _) eqn:E; [apply xltb_F in E|apply xltb_Ff in E]; apply (f_equal Fin).
  - rewrite Rmax_right; lra.
  - rewrite Rmax_left; lra.
Qed.

Section Brackets.
Variables (fuel : nat) (mu tof s c th : R).
Hypothesis Hs : 0 < s.
Lemma jia_elliptic_bracket_inv a0 long lo hi : 0 < a0 ->
  @jia_elliptic_bracket XR fuel (Fin mu) (Fin tof) (Fin a0) (Fin s) (Fin c) (Fin th) long = Ok (lo, hi) ->
  exists l h, lo = Fin l /\ hi = Fin h /\ a0 < l < h.
Proof.
  intros Ha H. unfold jia_elliptic_bracket in H.
  change (@nmul XR (Fin a0) (@nadd XR (nofZ 1) jia_eps)) with (Fin (a0 * (1 + 1 / 67108864))) in H.
  set (l := a0 * (1 + 1 / 67108864)) in *. assert (L : a0 < l) by (unfold l; lra). clearbody l.
  change (@nmul XR (nofZ 2) (Fin l)) with (Fin (2 * l)) in H. change (@nofZ XR 1) with (Fin 1) in H. rewrite pymax_F in H.
  set (f := fun axis => _) in H. clearbody f.
  destruct (jia_expand_elliptic _ _ _ _) as [u|u|e] eqn:E; try discriminate. apply Ok_inj in H.
  apply pair_equal_spec in H. destruct H as [<- <-].
  unfold jia_expand_elliptic in E.
  apply (while_true_inv _ (fun u => exists h, u = Fin h /\ l < h)) in E.
  - destruct E as (t & (h & -> & Hh) & E). destruct (@nltb XR _ _) in E; [discriminate|]. apply Break_inj in E. subst u. exists l, h. auto.
  - exists (Rmax (2 * l) 1). split; [reflexivity|]. pose proof (Rmax_l (2 * l) 1). lra.
  - intros t t' (h & -> & Hh) E'. destruct (@nltb XR _ _) in E'; [|discriminate].
    assert (Q : t' = Fin (h * 2)) by (change (Fin (h * 2)) with (@nmul XR (Fin h) (nofZ 2)); congruence).
    exists (h * 2). split; [exact Q|lra].
Qed.
Lemma jia_hyperbolic_bracket_inv lo hi :
  @jia_hyperbolic_bracket XR fuel (Fin mu) (Fin tof) (Fin s) (Fin c) (Fin th) = Ok (lo, hi) ->
  exists l h, lo = Fin l /\ hi = Fin h /\ l < h < 0.
Proof.
  intros H. unfold jia_hyperbolic_bracket in H. change (@nofZ XR 1) with (Fin 1) in H. rewrite !pymax_F in H.
  set (m := Rmax (Rmax s c) 1) in *. assert (M : 1 <= m) by apply Rmax_r. clearbody m.
  change (@nopp XR (Fin m)) with (Fin (- m)) in H. change (@nmul XR (@nopp XR jia_eps) (Fin m)) with (Fin (- (1 / 67108864) * m)) in H.
  set (f := fun axis => _) in H. clearbody f.
  destruct (jia_expand_hyperbolic _ _ _) as [u|u|e] eqn:E; try discriminate. apply Ok_inj in H.
  apply pair_equal_spec in H. destruct H as [<- <-].
  unfold jia_expand_hyperbolic in E.
  apply (while_true_inv _ (fun u => exists h, u = Fin h /\ h <= - m)) in E.
  - destruct E as (t & (h & -> & Hh) & E). destruct (@nltb XR _ _) in E; [discriminate|]. apply Break_inj in E. subst u.
    exists h, (- (1 / 67108864) * m). repeat split; lra.
  - exists (- m). split; [reflexivity|]. lra.
  - intros t t' (h & -> & Hh) E'. destruct (@nltb XR _ _) in E'; [|discriminate].
    assert (Q : t' = Fin (h * 2)) by (change (Fin (h * 2)) with (@nmul XR (Fin h) (nofZ 2)); congruence).
    exists (h * 2). split; [exact Q|lra].
Qed.
End Brackets.
