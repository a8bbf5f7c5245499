(** * jiang2016: where its bracketing terminates (C29) and what it returns (C43). *)
From Coq Require Import String ZArith List Bool Lia Reals Lra Psatz.
From Verif Require Import Num XReal XRealLemmas MApi ApiFacts Loops MLinalg MScipy MAssertions MAngles MJiang MInit
  Spec SpecLambert VecFacts VecXR AnglesXR UniversalKepler LambertUV LambertRev StumpffXR CallXR Godal GodalIzzo GodalXR GodalPan
  DelatorreXR LambertZ OrbitXR StumpffSmooth ZMono KeplerUnique LambertExist JiangXR BracketXR JiangRun JiangMono JiangLoop
  PropertiesAngles PropertiesMotion PropertiesOrbit PropertiesDelatorre.
Local Open Scope R_scope.

(** Every pair of velocities that jiang2016 returns belongs to a two-body motion
    from [r1] to [r2] without complete revolutions.  Its duration is within the
    tolerance of [tof], or the search stopped on a small step: then there is
    another such motion whose semi-major axis is within the tolerance of the
    first one's and whose duration is no closer to [tof]. *)
Theorem C43_jiang_solves_lambert :
  forall ev mu r1 r2 tof M prograde low_path maxiter atol rtol full_output o v1 v2,
  non_collinear r1 r2 -> 0 <= rtol ->
  @run XR Jiang ev (call mu r1 r2 tof M prograde low_path maxiter atol rtol full_output) = Ok o ->
  delivers o v1 v2 ->
  exists T, lambert_solution mu r1 v1 r2 v2 T 0 /\
    (Rabs (T - tof) <= atol + rtol * T \/
     exists w1 w2 T', lambert_solution mu r1 w1 r2 w2 T' 0 /\ w1 <> v1 /\
       Rabs (semimajor mu r1 v1 - semimajor mu r1 w1) <= atol + rtol * Rabs (semimajor mu r1 v1) /\
       Rabs (T - tof) <= Rabs (T' - tof)).
Proof.
  intros ev mu r1 r2 tof M p l mi at_ rt fo o v1 v2 Hn Hr H D. cbn [run] in H.
  unfold jiang2016 in H. skip_check H. enter H.
  destruct (transfer_angle r1 r2 p Hn) as (th & ET & F). rewrite ET in H.
  do 2 skip_check H. rewrite semiper_F in H.
  apply bind_ok in H. destruct H as ([q it] & EP & H).
  apply bind_ok in H. destruct H as (tpi & _ & H).
  destruct (jia_velocities _ _ _ _ _ _ _) as [w1 w2] eqn:EV.
  destruct (delivers_inv _ _ _ _ _ _ _ _ H D) as [-> ->].
  apply (jia_velocities_inv p r1 r2 th Hn F) in EV; [|assumption].
  destruct EV as (q' & -> & Hq & FG).
  destruct (geo_pos r1 r2 Hn) as (N1 & N2 & C1 & C2 & C3 & C4).
  change (vnorm (vminus r2 r1)) with (chord r1 r2) in EP.
  set (c := chord r1 r2) in *. set (s := semiper r1 r2) in *.
  unfold jia_solve_p in EP. cbn [a_mu a_r1 a_r2 a_tof a_M a_is_prograde a_is_low_path a_maxiter a_atol a_rtol a_full_output call] in EP.
  assert (Hc : 0 < c < s) by lra.
  rewrite jia_tof_parabolic_F in EP by assumption.
  destruct (np_isclose _ _ _ _) eqn:EI.
  { apply Ok_inj in EP. rewrite jia_parabolic_p_F in EP by assumption. cbv zeta in EP.
    apply pair_equal_spec in EP. destruct EP as [EP _]. apply Fin_inj in EP. subst q'.
    destruct (par_p p r1 r2 th Hn F) as [Ep Hp]. fold c s in Ep, Hp. rewrite Ep in FG.
    destruct (par_solution p mu r1 r2 th Hmu Hn F v1 v2 FG) as [L _]. fold c s in L.
    exists (par_time mu (sqrt s) (way th * sqrt (s - c))). split; [exact L|]. left.
    apply xleb_F in EI. destruct L as [[LT _] _]. rewrite (Rabs_right (par_time _ _ _)) in EI by lra.
    rewrite Rabs_minus_sym. exact EI. }
  destruct (@nltb XR (Fin (par_time mu (sqrt s) (way th * sqrt (s - c)))) (Fin tof)).
  - (* ellipse *)
    set (long := @nltb XR _ _) in EP. clearbody long.
    apply bind_ok in EP. destruct EP as ([sma k] & ES & EP). apply Ok_inj in EP. apply pair_equal_spec in EP. destruct EP as [EP _].
    unfold jia_find_and_solve_elliptic in ES. apply bind_ok in ES. destruct ES as ([lo hi] & EB & ES).
    assert (Es : @ndiv XR (Fin s) (nofZ 2) = Fin (s / 2)) by (xunf; apply xdiv_F; lra). rewrite Es in EB.
    apply jia_elliptic_bracket_inv in EB; [|lra]. destruct EB as (lo' & hi' & -> & -> & B1 & B2).
    apply jia_search in ES; [|assumption]. destruct ES as (a & t & -> & Et & HS).
    apply xsub_inv in Et. destruct Et as (T & tof' & Et & E' & ->). apply Fin_inj in E'. subst tof'.
    apply jia_tof_elliptic_inv in Et; try assumption. destruct Et as (a' & E' & Ha & ET'). apply Fin_inj in E'. subst a'.
    rewrite jia_elliptic_p_F in EP by assumption. cbv zeta in EP. apply Fin_inj in EP. subst q'.
    destruct (ell_p p r1 r2 th Hn F a long Ha) as [Ep Hp]. fold c s in Ep, Hp. rewrite Ep in FG.
    destruct (ell_solution p mu r1 r2 th Hmu Hn F a long v1 v2 Ha FG) as [L SM]. fold c s in L. rewrite <- ET' in L.
    exists T. split; [exact L|]. destruct HS as [HS|(y & t' & Ey & Hne & HD & HT)].
    { left. destruct L as [[LT _] _]. assert (0 <= rt * T) by (apply Rmult_le_pos; lra). lra. }
    right. apply xsub_inv in Ey. destruct Ey as (T' & tof' & Ey & E' & ->). apply Fin_inj in E'. subst tof'.
    apply jia_tof_elliptic_inv in Ey; try assumption. destruct Ey as (y' & E' & Hy & EY). apply Fin_inj in E'. subst y'.
    destruct (ell_p p r1 r2 th Hn F y long Hy) as [Epy Hpy]. fold c s in Epy, Hpy.
    assert (HV : 0 < 2 * y * (sin (lag_A s y long - lag_B (way th) (s - c) y) * sin (lag_A s y long - lag_B (way th) (s - c) y))).
    { rewrite <- Epy. apply Rdiv_lt_0_compat; [|exact Hpy]. pose proof (af_cos _ _ _ _ F). repeat apply Rmult_lt_0_compat; lra. }
    destruct (fg_exists p mu r1 r2 th Hn F _ HV) as (w1 & w2 & FW).
    destruct (ell_solution p mu r1 r2 th Hmu Hn F y long w1 w2 Hy FW) as [LW SW]. fold c s in LW. rewrite <- EY in LW.
    exists w1, w2, T'. split; [exact LW|]. split; [intros ->; congruence|]. rewrite SM, SW. split; assumption.
  - (* hyperbola *)
    apply bind_ok in EP. destruct EP as ([sma k] & ES & EP). apply Ok_inj in EP. apply pair_equal_spec in EP. destruct EP as [EP _].
    unfold jia_find_and_solve_hyperbolic in ES. apply bind_ok in ES. destruct ES as ([lo hi] & EB & ES).
    apply jia_hyperbolic_bracket_inv in EB. destruct EB as (lo' & hi' & -> & -> & B1 & B2).
    apply jia_search in ES; [|assumption]. destruct ES as (a & t & -> & Et & HS).
    apply xsub_inv in Et. destruct Et as (T & tof' & Et & E' & ->). apply Fin_inj in E'. subst tof'.
    apply jia_tof_hyperbolic_inv in Et; try assumption. destruct Et as (a' & E' & Ha & ET'). apply Fin_inj in E'. subst a'.
    rewrite jia_hyperbolic_p_F in EP by assumption. cbv zeta in EP. apply Fin_inj in EP. subst q'.
    destruct (hyp_p p r1 r2 th Hn F (- a) ltac:(lra)) as [Ep Hp]. fold c s in Ep, Hp. rewrite Ep in FG.
    destruct (hyp_solution p mu r1 r2 th Hmu Hn F (- a) v1 v2 ltac:(lra) FG) as [L SM]. fold c s in L. rewrite <- ET' in L.
    rewrite Ropp_involutive in SM.
    exists T. split; [exact L|]. destruct HS as [HS|(y & t' & Ey & Hne & HD & HT)].
    { left. destruct L as [[LT _] _]. assert (0 <= rt * T) by (apply Rmult_le_pos; lra). lra. }
    right. apply xsub_inv in Ey. destruct Ey as (T' & tof' & Ey & E' & ->). apply Fin_inj in E'. subst tof'.
    apply jia_tof_hyperbolic_inv in Ey; try assumption. destruct Ey as (y' & E' & Hy & EY). apply Fin_inj in E'. subst y'.
    destruct (hyp_p p r1 r2 th Hn F (- y) ltac:(lra)) as [Epy Hpy]. fold c s in Epy, Hpy.
    assert (HV : 0 < 2 * - y * (sinh (lagh_A s (- y) - lagh_B (way th) (s - c) (- y)) * sinh (lagh_A s (- y) - lagh_B (way th) (s - c) (- y)))).
    { rewrite <- Epy. apply Rdiv_lt_0_compat; [|exact Hpy]. pose proof (af_cos _ _ _ _ F). repeat apply Rmult_lt_0_compat; lra. }
    destruct (fg_exists p mu r1 r2 th Hn F _ HV) as (w1 & w2 & FW).
    destruct (hyp_solution p mu r1 r2 th Hmu Hn F (- y) w1 w2 ltac:(lra) FW) as [LW SW]. fold c s in LW. rewrite <- EY in LW.
    rewrite Ropp_involutive in SW.
    exists w1, w2, T'. split; [exact LW|]. split; [intros ->; congruence|]. rewrite SM, SW. split; assumption.
Qed.
Print Assumptions C43_jiang_solves_lambert.


(** ** C29 *)

(** The bracketing phase of jiang2016 does not terminate on an interval of
    times of flight around the minimum-energy one, and terminates on every
    other.  [t_par] is the time of the parabola; [t_lo] and [t_hi] are the times
    of the two transfers whose semi-major axis is [1 + 2^-26] times the smallest
    possible one; [t_min], the time of the transfer with the smallest possible
    semi-major axis, lies strictly between them. *)
Theorem C29_jiang_window : forall mu r1 r2 prograde,
  0 < mu -> non_collinear r1 r2 ->
  exists t_par t_lo t_min t_hi, 0 < t_par < t_lo /\ t_lo < t_min < t_hi /\
  (exists v1 v2, lambert_solution mu r1 v1 r2 v2 t_par 0 /\ energy mu r1 v1 = 0) /\
  (exists v1 v2, lambert_solution mu r1 v1 r2 v2 t_lo 0 /\ semimajor mu r1 v1 = semiper r1 r2 / 2 * (1 + 1 / 2 ^ 26)) /\
  (exists v1 v2, lambert_solution mu r1 v1 r2 v2 t_min 0 /\ semimajor mu r1 v1 = semiper r1 r2 / 2) /\
  (exists v1 v2, lambert_solution mu r1 v1 r2 v2 t_hi 0 /\ semimajor mu r1 v1 = semiper r1 r2 / 2 * (1 + 1 / 2 ^ 26)) /\
  forall tof low_path maxiter atol rtol full_output, 0 < tof ->
    (t_lo < tof < t_hi -> atol + rtol * t_par < tof - t_par -> forall ev,
      @run XR Jiang ev (call mu r1 r2 tof 0 prograde low_path maxiter atol rtol full_output) = Err OutOfFuel) /\
    (~ t_lo < tof < t_hi -> 0 <= atol -> 0 <= rtol -> exists n, forall ev, (n <= e_fuel ev)%nat ->
      @run XR Jiang ev (call mu r1 r2 tof 0 prograde low_path maxiter atol rtol full_output) <> Err OutOfFuel).
Proof.
  intros mu r1 r2 p Hm Hn. destruct (transfer_angle r1 r2 p Hn) as (th & ET & F).
  pose proof (l_axis_gt r1 r2 Hn) as HL. pose proof (Hc r1 r2 Hn) as HC.
  set (l := l_axis r1 r2) in *. set (s := semiper r1 r2) in *. set (c := chord r1 r2) in *.
  assert (El : l = s / 2 * (1 + 1 / 2 ^ 26)) by (unfold l, l_axis; fold s; field).
  assert (HV : forall x long, s <= 2 * x -> exists v1 v2, lambert_solution mu r1 v1 r2 v2 (e_time mu r1 r2 th x long) 0 /\ semimajor mu r1 v1 = x).
  { intros x long Hx. destruct (ell_p p r1 r2 th Hn F x long Hx) as [Ep Hp]. fold c s in Ep, Hp.
    assert (V0 : 0 < 2 * x * (sin (lag_A s x long - lag_B (way th) (s - c) x) * sin (lag_A s x long - lag_B (way th) (s - c) x))).
    { rewrite <- Ep. apply Rdiv_lt_0_compat; [|exact Hp]. destruct (norms_pos _ _ Hn). pose proof (af_cos _ _ _ _ F).
      repeat apply Rmult_lt_0_compat; lra. }
    destruct (fg_exists p mu r1 r2 th Hn F _ V0) as (v1 & v2 & FG). exists v1, v2.
    exact (ell_solution p mu r1 r2 th Hm Hn F x long v1 v2 Hx FG). }
  assert (Hs2 : s <= 2 * (s / 2)) by lra.
  assert (Emin : e_time mu r1 r2 th (s / 2) true = e_time mu r1 r2 th (s / 2) false) by (symmetry; apply (e_time_min mu r1 r2 th Hn)).
  exists (p_time mu r1 r2 th), (e_time mu r1 r2 th l false), (e_time mu r1 r2 th (s / 2) false), (e_time mu r1 r2 th l true).
  split. { split; [exact (p_time_pos p mu r1 r2 th Hm Hn F)|]. apply (e_time_par p mu r1 r2 th Hm Hn F). fold s. lra. }
  split.
  { split; [apply (e_time_short p mu r1 r2 th Hm Hn F); [exact Hs2|lra]|].
    rewrite <- Emin. apply (e_time_long p mu r1 r2 th Hm Hn F); [exact Hs2|lra]. }
  split.
  { destruct (p_tau p mu r1 r2 th Hm Hn F) as [_ V0].
    destruct (par_p p r1 r2 th Hn F) as [Ep Hp]. fold c s in Ep, Hp.
    assert (V1 : 0 < (sqrt s - way th * sqrt (s - c)) * (sqrt s - way th * sqrt (s - c))).
    { rewrite <- Ep. apply Rdiv_lt_0_compat; [|exact Hp]. destruct (norms_pos _ _ Hn). pose proof (af_cos _ _ _ _ F).
      repeat apply Rmult_lt_0_compat; lra. }
    destruct (fg_exists p mu r1 r2 th Hn F _ V1) as (v1 & v2 & FG). exists v1, v2.
    exact (par_solution p mu r1 r2 th Hm Hn F v1 v2 FG). }
  split. { rewrite <- El. apply HV. lra. }
  split. { apply HV. exact Hs2. }
  split. { rewrite <- El. apply HV. lra. }
  clear HV El.
  intros tof low mi at_ rt fo Ht. cbn [run].
  assert (Es : @ndiv XR (Fin s) (nofZ 2) = Fin (s / 2)) by (xunf; apply xdiv_F; lra).
  split.
  - intros [W1 W2] Hpar ev.
    apply (jiang_enter mu r1 r2 p th Hm Hn F ET ev tof low mi at_ rt fo Ht).
    fold c s. unfold jia_solve_p. cbn [a_mu a_tof a_maxiter a_atol a_rtol call].
    rewrite jia_tof_parabolic_F by assumption.
    change (par_time mu (sqrt s) (way th * sqrt (s - c))) with (p_time mu r1 r2 th).
    rewrite (parabolic_test mu r1 r2 p th Hm Hn F tof at_ rt).
    destruct (Rle_dec _ _) as [L|_].
    { exfalso. pose proof (Rle_abs (tof - p_time mu r1 r2 th)). lra. }
    pose proof (e_time_par p mu r1 r2 th Hm Hn F l false ltac:(fold s; lra)).
    replace (@nltb XR (Fin (p_time mu r1 r2 th)) (Fin tof)) with true by (symmetry; apply xltb_F; lra).
    rewrite Es, jia_tof_elliptic_F by assumption.
    change (lag_time mu (s / 2) (lag_A s (s / 2) false) (lag_B (way th) (s - c) (s / 2))) with (e_time mu r1 r2 th (s / 2) false).
    unfold jia_find_and_solve_elliptic.
    destruct (@nltb XR (Fin (e_time mu r1 r2 th (s / 2) false)) (Fin tof)) eqn:EL.
    + apply xltb_F in EL.
      pose proof (elliptic_diverges mu r1 r2 th Hm Hn ev tof true) as D. fold l s c in D. rewrite D; [reflexivity|].
      intros x Hx. assert (e_time mu r1 r2 th l true <= e_time mu r1 r2 th x true).
      { destruct (Req_dec l x) as [->|]; [lra|]. left. apply (e_time_long p mu r1 r2 th Hm Hn F); [fold s; lra|lra]. }
      apply Rmult_lt_0_compat; lra.
    + apply xltb_Ff in EL.
      pose proof (elliptic_diverges mu r1 r2 th Hm Hn ev tof false) as D. fold l s c in D. rewrite D; [reflexivity|].
      intros x Hx. assert (e_time mu r1 r2 th x false <= e_time mu r1 r2 th l false).
      { destruct (Req_dec l x) as [->|]; [lra|]. left. apply (e_time_short p mu r1 r2 th Hm Hn F); [fold s; lra|lra]. }
      nra.
  - intros W Ha Hr.
    assert (HB : exists n, forall fuel, (n <= fuel)%nat ->
      @jia_solve_p XR fuel (call mu r1 r2 tof 0 p low mi at_ rt fo) (Fin (vnorm r1)) (Fin (vnorm r2)) (Fin c) (Fin s) (Fin th) <> Err OutOfFuel).
    { unfold jia_solve_p. cbn [a_mu a_tof a_maxiter a_atol a_rtol call].
      rewrite jia_tof_parabolic_F by assumption.
      change (par_time mu (sqrt s) (way th * sqrt (s - c))) with (p_time mu r1 r2 th).
      rewrite (parabolic_test mu r1 r2 p th Hm Hn F tof at_ rt).
      destruct (Rle_dec _ _) as [L|NL]. { exists O. discriminate. }
      assert (Npar : tof <> p_time mu r1 r2 th).
      { intros ->. apply NL. rewrite Rminus_diag_eq, Rabs_R0 by reflexivity.
        pose proof (p_time_pos p mu r1 r2 th Hm Hn F). assert (0 <= rt * p_time mu r1 r2 th) by (apply Rmult_le_pos; lra). lra. }
      assert (HS : forall f lo hi, @jia_solve_semimajor_axis XR f lo hi mi (Fin at_) (Fin rt) <> Err OutOfFuel).
      { intros f lo hi. unfold jia_solve_semimajor_axis.
        assert (G : forall n i st, for_range (@jia_newton_body XR f (Fin at_) (Fin rt)) n i st <> Raise OutOfFuel).
        { intros n. induction n as [|n IH]; intros i [[[x a1] a2] a3]; cbn [for_range]; [discriminate|].
          unfold jia_newton_body at 1. destruct (@nleb XR _ _); [discriminate|].
          destruct (if @nleb XR _ _ then _ else _) as [[b1 b2] b3].
          match goal with |- context [if ?b then Break _ else _] => destruct b end; [discriminate|apply IH]. }
        match goal with |- context [for_range ?b ?n ?i ?st] => specialize (G n i st); destruct (for_range b n i st) as [r|r|e] end;
          [discriminate|discriminate|]. intros E. apply G. congruence. }
      destruct (@nltb XR (Fin (p_time mu r1 r2 th)) (Fin tof)) eqn:EP.
      - apply xltb_F in EP. rewrite Es, jia_tof_elliptic_F by assumption.
        change (lag_time mu (s / 2) (lag_A s (s / 2) false) (lag_B (way th) (s - c) (s / 2))) with (e_time mu r1 r2 th (s / 2) false).
        destruct (e_time_onto p mu r1 r2 th Hm Hn F tof EP) as (a0 & A0 & A1). fold s in A0.
        assert (HE : forall long, long = @nltb XR (Fin (e_time mu r1 r2 th (s / 2) false)) (Fin tof) ->
          exists n, forall fuel, (n <= fuel)%nat ->
          @jia_elliptic_bracket XR fuel (Fin mu) (Fin tof) (Fin (s / 2)) (Fin s) (Fin c) (Fin th) long <> Err OutOfFuel).
        { intros long E. pose proof (elliptic_terminates mu r1 r2 th Hm Hn tof long a0) as T. fold l s c in T. apply T. clear T.
          intros x X1 X2. destruct (A1 x X1) as [B1 B2].
          destruct long; symmetry in E; [apply xltb_F in E|apply xltb_Ff in E].
          - assert (e_time mu r1 r2 th l true <= tof).
            { destruct (Rle_dec (e_time mu r1 r2 th l true) tof) as [|N]; [assumption|]. exfalso. apply W.
              split; [|lra].
              assert (e_time mu r1 r2 th l false < e_time mu r1 r2 th (s / 2) false); [|lra].
              apply (e_time_short p mu r1 r2 th Hm Hn F); [exact Hs2|lra]. }
            nra.
          - assert (tof <= e_time mu r1 r2 th l false).
            { destruct (Rle_dec tof (e_time mu r1 r2 th l false)) as [|N]; [assumption|]. exfalso. apply W.
              split; [lra|].
              assert (e_time mu r1 r2 th (s / 2) true < e_time mu r1 r2 th l true).
              { apply (e_time_long p mu r1 r2 th Hm Hn F); [exact Hs2|lra]. }
              rewrite Emin in *. lra. }
            nra. }
        destruct (HE _ eq_refl) as (n & HnE). exists n. intros fuel Hf. specialize (HnE fuel Hf).
        set (long := @nltb XR _ (Fin tof)) in *. clearbody long. unfold jia_find_and_solve_elliptic.
        destruct (jia_elliptic_bracket _ _ _ _ _ _ _ _) as [[lo hi]|e]; cbn [bind]; [|congruence].
        match goal with |- context [jia_solve_semimajor_axis ?f ?a ?b ?m ?t ?u] => pose proof (HS f a b) as G; destruct (jia_solve_semimajor_axis f a b m t u) as [[x k]|e] end;
          cbn [bind]; [discriminate|congruence].
      - apply xltb_Ff in EP.
        destruct (h_time_onto p mu r1 r2 th Hm Hn F tof Ht ltac:(lra)) as (b0 & B0 & B1).
        destruct (hyperbolic_terminates mu r1 r2 th Hm Hn tof b0) as (n & HnE).
        { intros x X1 X2. specialize (B1 x X1). lra. }
        fold s c in HnE. exists n. intros fuel Hf. specialize (HnE fuel Hf). unfold jia_find_and_solve_hyperbolic.
        destruct (jia_hyperbolic_bracket _ _ _ _ _ _) as [[lo hi]|e]; cbn [bind]; [|congruence].
        match goal with |- context [jia_solve_semimajor_axis ?f ?a ?b ?m ?t ?u] => pose proof (HS f a b) as G; destruct (jia_solve_semimajor_axis f a b m t u) as [[x k]|e] end;
          cbn [bind]; [discriminate|congruence]. }
    destruct HB as (n & HB). exists n. intros ev Hf E.
    apply (HB (e_fuel ev) Hf). now apply (jiang_enter mu r1 r2 p th Hm Hn F ET ev tof low mi at_ rt fo Ht).
Qed.
Print Assumptions C29_jiang_window.

(** So the claim is false of every geometry: some transfer exists on which
    jiang2016 doubles its upper bound for ever, whatever the iteration budget,
    for all tolerances below some positive number. *)
Corollary C29_jiang_refuted : forall mu r1 r2 prograde,
  0 < mu -> non_collinear r1 r2 ->
  exists tof eps v1 v2, 0 < eps /\ lambert_solution mu r1 v1 r2 v2 tof 0 /\ energy mu r1 v1 < 0 /\
  forall ev low_path maxiter atol rtol full_output, atol <= eps -> rtol <= eps ->
    @run XR Jiang ev (call mu r1 r2 tof 0 prograde low_path maxiter atol rtol full_output) = Err OutOfFuel.
Proof.
  intros mu r1 r2 p Hm Hn.
  destruct (C29_jiang_window mu r1 r2 p Hm Hn) as (tp & tl & tm & th & HA & HB & _ & _ & (v1 & v2 & L & E) & _ & HW).
  exists tm, ((tm - tp) / (2 * (1 + tp))), v1, v2.
  split. { apply Rdiv_lt_0_compat; lra. }
  split; [exact L|]. split.
  { unfold semimajor in E. pose proof (Hc r1 r2 Hn) as C.
    destruct (Rlt_dec (energy mu r1 v1) 0) as [|N]; [assumption|]. exfalso.
    destruct (Req_dec (energy mu r1 v1) 0) as [Z|NZ].
    - rewrite Z in E. unfold Rdiv in E at 1. rewrite Rmult_0_r, Rinv_0 in E. lra.
    - assert (0 < mu / (2 * energy mu r1 v1)) by (apply Rdiv_lt_0_compat; lra).
      replace (- mu / (2 * energy mu r1 v1)) with (- (mu / (2 * energy mu r1 v1))) in E by (field; lra). lra. }
  intros ev low mi at_ rt fo Ha Hr. apply (proj1 (HW tm low mi at_ rt fo ltac:(lra))); [lra|].
  assert (G : (tm - tp) / (2 * (1 + tp)) * (1 + tp) = (tm - tp) / 2) by (field; lra).
  set (e := (tm - tp) / (2 * (1 + tp))) in *. clearbody e. nra.
Qed.
Print Assumptions C29_jiang_refuted.

(** The hypotheses hold: the quarter turn of a unit circle, both directions. *)
Example C29_case : 0 < 1 /\ non_collinear ex_r1 ex_r2.
Proof. split; [lra|exact ex_nc]. Qed.

(** ** Cases for C43 *)

(** Every geometry has an elliptic time of flight that jiang2016 solves exactly:
    the first midpoint of its bracket is then the answer. *)
Lemma jiang_midpoint ev mu r1 r2 p low full : 0 < mu -> non_collinear r1 r2 -> (0 < e_fuel ev)%nat ->
  exists tof o v1 v2, @run XR Jiang ev (call mu r1 r2 tof 0 p low 1 0 0 full) = Ok o /\ delivers o v1 v2.
Proof.
  intros Hm Hn Hf. destruct (transfer_angle r1 r2 p Hn) as (th & ET & F).
  pose proof (l_axis_gt r1 r2 Hn) as HL. pose proof (Hc r1 r2 Hn) as HC.
  set (l := l_axis r1 r2) in *. set (s := semiper r1 r2) in *. set (c := chord r1 r2) in *.
  set (u := Rmax (2 * l) 1). assert (Hu : 2 * l <= u) by apply Rmax_l.
  set (x := (l + u) / 2). set (tof := e_time mu r1 r2 th x false).
  assert (Hx : s <= 2 * x) by (unfold x; lra).
  pose proof (e_time_par p mu r1 r2 th Hm Hn F x false Hx) as HP. fold tof in HP.
  pose proof (p_time_pos p mu r1 r2 th Hm Hn F) as PP.
  pose proof (e_time_short p mu r1 r2 th Hm Hn F l x ltac:(fold s; lra) ltac:(unfold x; lra)) as O1. fold tof in O1.
  pose proof (e_time_short p mu r1 r2 th Hm Hn F x u Hx ltac:(unfold x; lra)) as O2. fold tof in O2.
  pose proof (e_time_short p mu r1 r2 th Hm Hn F (s / 2) x ltac:(fold s; lra) ltac:(unfold x; lra)) as O3. fold tof in O3.
  exists tof. cbn [run].
  set (a := call mu r1 r2 tof 0 p low 1 0 0 full).
  assert (EP : exists q, 0 < q /\ @jia_solve_p XR (e_fuel ev) a (Fin (vnorm r1)) (Fin (vnorm r2)) (Fin c) (Fin s) (Fin th) = Ok (Fin q, 1%Z)).
  { destruct (ell_p p r1 r2 th Hn F x false Hx) as [_ Hq]. fold c s in Hq. eexists. split; [exact Hq|].
    unfold jia_solve_p, a. cbn [a_mu a_tof a_maxiter a_atol a_rtol call].
    rewrite jia_tof_parabolic_F by assumption.
    change (par_time mu (sqrt s) (way th * sqrt (s - c))) with (p_time mu r1 r2 th).
    rewrite (parabolic_test mu r1 r2 p th Hm Hn F tof 0 0).
    destruct (Rle_dec _ _) as [L|_]. { exfalso. pose proof (Rle_abs (tof - p_time mu r1 r2 th)). lra. }
    replace (@nltb XR (Fin (p_time mu r1 r2 th)) (Fin tof)) with true by (symmetry; apply xltb_F; lra).
    assert (Es : @ndiv XR (Fin s) (nofZ 2) = Fin (s / 2)) by (xunf; apply xdiv_F; lra).
    rewrite Es, jia_tof_elliptic_F by (assumption || lra).
    change (lag_time mu (s / 2) (lag_A s (s / 2) false) (lag_B (way th) (s - c) (s / 2))) with (e_time mu r1 r2 th (s / 2) false).
    replace (@nltb XR (Fin (e_time mu r1 r2 th (s / 2) false)) (Fin tof)) with false by (symmetry; apply xltb_Ff; lra).
    unfold jia_find_and_solve_elliptic, jia_elliptic_bracket.
    change (@nmul XR (Fin (s / 2)) (@nadd XR (nofZ 1) jia_eps)) with (Fin l).
    change (@nmul XR (nofZ 2) (Fin l)) with (Fin (2 * l)). change (@nofZ XR 1) with (Fin 1). rewrite pymax_F. fold u.
    destruct (e_fuel ev) as [|fu]; [lia|]. unfold jia_expand_elliptic. cbn [while_true].
    pose proof (fun y long => elliptic_residual mu r1 r2 th Hm Hn tof y long) as ER. fold s c in ER.
    rewrite !ER by lra.
    change (@nmul XR (Fin (e_time mu r1 r2 th l false - tof)) (Fin (e_time mu r1 r2 th u false - tof)))
      with (Fin ((e_time mu r1 r2 th l false - tof) * (e_time mu r1 r2 th u false - tof))).
    match goal with |- context [@nltb XR (nofZ 0) (Fin ?y)] => replace (@nltb XR (nofZ 0) (Fin y)) with false by (symmetry; apply xltb_Ff; nra) end.
    cbn [bind]. unfold jia_solve_semimajor_axis. rewrite middle'. fold x. change (Z.to_nat 1) with 1%nat. cbn [for_range].
    unfold jia_newton_body. rewrite (ER x false Hx). fold tof.
    replace (@nleb XR (@nabs XR (Fin (tof - tof))) (Fin 0)) with true.
    2: { symmetry. change (@nabs XR (Fin (tof - tof))) with (Fin (Rabs (tof - tof))). apply xleb_F. rewrite Rminus_diag_eq, Rabs_R0 by reflexivity. lra. }
    cbn [bind]. rewrite jia_elliptic_p_F by assumption. reflexivity. }
  destruct EP as (q & Hq & EP).
  assert (EV : forall A k, @validated XR A a k = k (vfin r1) (vfin r2)).
  { intros A k. apply (validated_call_ok mu r1 r2 tof 0 p low 1 0 0 full). apply non_collinear_valid; lra || assumption. }
  unfold jiang2016. change (a_M a) with 0%Z. cbn [Z.ltb Z.compare raise_if bind]. rewrite EV.
  change (a_is_prograde a) with p. rewrite ET, !norm_F, vsub_F, norm_F, semiper_F. fold s.
  change (vnorm (vminus r2 r1)) with c.
  pose proof F as [F1 F2 F3 F4 F5 F6 F7 F8 F9].
  unfold assert_transfer_angle_not_zero, assert_transfer_angle_not_pi.
  replace (@neqb XR (Fin th) (nofZ 0)) with false by (symmetry; apply xeqb_Ff; lra).
  replace (@neqb XR (Fin th) npi) with false by (symmetry; apply xeqb_Ff; assumption).
  cbn [bind]. rewrite EP. cbn [bind Z.eqb].
  assert (EJ : exists v1 v2, @jia_velocities XR (a_mu a) (vfin r1) (vfin r2) (Fin (vnorm r1)) (Fin (vnorm r2)) (Fin th) (Fin q) = (vfin v1, vfin v2)).
  { unfold jia_velocities. change (a_mu a) with (Fin mu). destruct (norms_pos _ _ Hn) as [N1 N2].
    assert (D1 : vnorm r1 * vnorm r2 * sin th <> 0).
    { assert (0 < vnorm r1 * vnorm r2) by now apply Rmult_lt_0_compat. intros Z. apply Rmult_integral in Z. destruct Z; lra. }
    xunf. cbn [xmul xlift2 xlift1]. rewrite xsqrt_F by nra. rewrite !xdiv_F by (assumption || lra). cbn [xmul xsub xlift2 xlift1].
    rewrite !vsub_F, !vscale_F, vadd_F, vsub_F, !vscale_F. eexists _, _. reflexivity. }
  destruct EJ as (v1 & v2 & EJ).
  assert (ET' : exists t, @time_per_iteration XR (e_clock ev) (a_full_output a) 1 = Ok t).
  { unfold time_per_iteration. destruct (a_full_output a); cbn [Z.eqb]; eexists; reflexivity. }
  destruct ET' as (t & ET'). rewrite ET'. cbn [bind]. rewrite EJ.
  eexists _, v1, v2. split; [reflexivity|]. unfold mk_out, delivers. destruct (a_full_output a); split; reflexivity.
Qed.

Example C43_case : exists tof o v1 v2, non_collinear ex_r1 ex_r2 /\ 0 <= 0 /\
  @run XR Jiang no_scipy (call 1 ex_r1 ex_r2 tof 0 false true 1 0 0 true) = Ok o /\ delivers o v1 v2.
Proof.
  destruct (jiang_midpoint no_scipy 1 ex_r1 ex_r2 false true true ltac:(lra) ex_nc) as (tof & o & v1 & v2 & H); [cbn; lia|].
  exists tof, o, v1, v2. split; [exact ex_nc|]. split; [lra|exact H].
Qed.
