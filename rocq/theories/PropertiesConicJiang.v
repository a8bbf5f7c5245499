(** * C69 for jiang2016 and thorne2004. *)
From Coq Require Import String ZArith List Bool Lia Reals Lra Psatz.
From Verif Require Import Num XReal XRealLemmas MApi ApiFacts Loops MLinalg MScipy MAssertions MAngles MJiang MInit
  Spec SpecLambert VecFacts VecXR AnglesXR UniversalKepler LambertUV LambertRev StumpffXR CallXR Godal GodalIzzo GodalXR GodalPan
  DelatorreXR LambertZ OrbitXR StumpffSmooth ZMono KeplerUnique LambertExist JiangXR BracketXR JiangRun JiangMono JiangLoop
  PropertiesAngles PropertiesMotion PropertiesOrbit PropertiesDelatorre PropertiesJiang ThorneXR ThorneRun PropertiesThorne.
Local Open Scope R_scope.

Lemma par_time_euler mu p r1 r2 th : 0 < mu -> non_collinear r1 r2 -> angle_facts p r1 r2 th ->
  par_time mu (sqrt (semiper r1 r2)) (way th * sqrt (semiper r1 r2 - chord r1 r2)) = euler_time mu p r1 r2.
Proof.
  intros Hm Hn F. destruct (geo_pos r1 r2 Hn) as (N1 & N2 & C1 & C2 & _). unfold euler_time. fold (chord r1 r2).
  assert (EW : (if short_way_dec p r1 r2 then 1 else -1) = way th).
  { unfold way. pose proof (af_npi _ _ _ _ F) as NP. pose proof (af_pi _ _ _ _ F) as AP.
    destruct (short_way_dec p r1 r2) as [S|S], (Rle_dec th PI) as [L|L]; try reflexivity; exfalso.
    - apply AP in S. lra.
    - apply S, AP. lra. }
  rewrite EW. set (s := semiper r1 r2) in *. set (c := chord r1 r2) in *.
  replace (vnorm r1 + vnorm r2 + c) with (2 * s) by (unfold s, semiper; fold c; field).
  replace (vnorm r1 + vnorm r2 - c) with (2 * (s - c)) by (unfold s, semiper; fold c; field).
  destruct (sqrt_facts _ Hm) as [M1 _]. destruct (sqrt_facts s) as [X1 X2]; [lra|]. destruct (sqrt_facts (s - c)) as [Y1 Y2]; [lra|].
  assert (Q : forall t, 0 < t -> sqrt (2 * t * (2 * t) * (2 * t)) = 2 * sqrt 2 * (sqrt t * sqrt t * sqrt t)).
  { intros t Ht. rewrite sqrt_mult, sqrt_square, sqrt_mult by (try lra; apply Rmult_le_pos; lra). rewrite sqrt_sqrt by lra. ring. }
  rewrite !Q by lra. unfold par_time. pose proof (way_cases th) as W.
  assert (W3 : way th * way th * way th = way th) by (destruct W as [-> | ->]; ring).
  replace (way th * sqrt (s - c) * (way th * sqrt (s - c)) * (way th * sqrt (s - c))) with (way th * way th * way th * (sqrt (s - c) * sqrt (s - c) * sqrt (s - c))) by ring.
  rewrite W3. field. lra.
Qed.

Lemma semimajor_sign mu r v : 0 < mu -> (0 < semimajor mu r v -> energy mu r v < 0) /\ (semimajor mu r v < 0 -> 0 < energy mu r v).
Proof.
  intros Hm. unfold semimajor. set (E := energy mu r v).
  destruct (Rtotal_order E 0) as [L|[L|L]].
  - split; [lra|]. intros N. exfalso. assert (0 < mu / (2 * - E)) by (apply Rdiv_lt_0_compat; lra). replace (mu / (2 * - E)) with (- mu / (2 * E)) in * by (field; lra). lra.
  - rewrite L, Rmult_0_r. unfold Rdiv. rewrite Rinv_0. split; lra.
  - split; [|lra]. intros N. exfalso. assert (0 < mu / (2 * E)) by (apply Rdiv_lt_0_compat; lra). replace (- mu / (2 * E)) with (- (mu / (2 * E))) in N by (field; lra). lra.
Qed.

(** jiang2016 returns the parabola exactly for the times its tolerances identify with
    the parabolic one, an ellipse for the longer and a hyperbola for the shorter times. *)
Theorem C69_jiang : forall ev mu r1 r2 tof M prograde low_path maxiter atol rtol full_output o v1 v2,
  non_collinear r1 r2 ->
  @run XR Jiang ev (call mu r1 r2 tof M prograde low_path maxiter atol rtol full_output) = Ok o ->
  delivers o v1 v2 ->
  let T := euler_time mu prograde r1 r2 in
  (energy mu r1 v1 = 0 <-> Rabs (tof - T) <= atol + rtol * Rabs T) /\
  (energy mu r1 v1 < 0 <-> atol + rtol * Rabs T < Rabs (tof - T) /\ T < tof) /\
  (0 < energy mu r1 v1 <-> atol + rtol * Rabs T < Rabs (tof - T) /\ tof <= T).
Proof.
  intros ev mu r1 r2 tof M p l mi at_ rt fo o v1 v2 Hn H D. cbn [run] in H.
  unfold jiang2016 in H. skip_check H. enter H.
  destruct (transfer_angle r1 r2 p Hn) as (th & ET & F). rewrite ET in H.
  do 2 skip_check H. rewrite semiper_F in H.
  apply bind_ok in H. destruct H as ([q it] & EP & H).
  apply bind_ok in H. destruct H as (tpi & _ & H).
  destruct (jia_velocities _ _ _ _ _ _ _) as [w1 w2] eqn:EV.
  destruct (delivers_inv _ _ _ _ _ _ _ _ H D) as [-> ->].
  apply (jia_velocities_inv p r1 r2 th Hn F) in EV; [|assumption].
  destruct EV as (q' & -> & Hq & FG).
  destruct (geo_pos r1 r2 Hn) as (N1 & N2 & C1 & C2 & C3 & C4).
  change (vnorm (vminus r2 r1)) with (chord r1 r2) in EP.
  set (c := chord r1 r2) in *. set (s := semiper r1 r2) in *.
  unfold jia_solve_p in EP. cbn [a_mu a_r1 a_r2 a_tof a_M a_is_prograde a_is_low_path a_maxiter a_atol a_rtol a_full_output call] in EP.
  assert (Hc : 0 < c < s) by lra.
  rewrite jia_tof_parabolic_F in EP by assumption.
  assert (EP0 : par_time mu (sqrt s) (way th * sqrt (s - c)) = euler_time mu p r1 r2) by (now apply par_time_euler).
  intros TT. rewrite EP0 in EP. fold TT in EP. destruct (semimajor_sign mu r1 v1 Hmu) as [SM1 SM2].
  destruct (np_isclose _ _ _ _) eqn:EI.
  { apply Ok_inj in EP. rewrite jia_parabolic_p_F in EP by assumption. cbv zeta in EP.
    apply pair_equal_spec in EP. destruct EP as [EP _]. apply Fin_inj in EP. subst q'.
    destruct (par_p p r1 r2 th Hn F) as [Ep Hp]. fold c s in Ep, Hp. rewrite Ep in FG.
    destruct (par_solution p mu r1 r2 th Hmu Hn F v1 v2 FG) as [_ E0].
    apply xleb_F in EI. rewrite E0. repeat split; lra. }
  assert (NI : at_ + rt * Rabs TT < Rabs (tof - TT)).
  { destruct (Rlt_dec (at_ + rt * Rabs TT) (Rabs (tof - TT))) as [|N]; [assumption|]. exfalso. revert EI. unfold np_isclose. xunf. cbn [xsub xadd xmul xabs xlift1 xlift2].
    intros EI. apply xleb_Ff in EI. lra. }
  destruct (@nltb XR (Fin TT) (Fin tof)) eqn:EL.
  - apply xltb_F in EL.
    set (long := @nltb XR _ _) in EP. clearbody long.
    apply bind_ok in EP. destruct EP as ([sma k] & ES & EP). apply Ok_inj in EP. apply pair_equal_spec in EP. destruct EP as [EP _].
    unfold jia_find_and_solve_elliptic in ES. apply bind_ok in ES. destruct ES as ([lo hi] & EB & ES).
    assert (Es : @ndiv XR (Fin s) (nofZ 2) = Fin (s / 2)) by (xunf; apply xdiv_F; lra). rewrite Es in EB.
    apply jia_elliptic_bracket_inv in EB; [|lra]. destruct EB as (lo' & hi' & -> & -> & B1 & B2).
    apply jia_search in ES; [|assumption]. destruct ES as (a & t & -> & Et & HS).
    apply xsub_inv in Et. destruct Et as (T & tof' & Et & E' & ->). apply Fin_inj in E'. subst tof'.
    apply jia_tof_elliptic_inv in Et; try assumption. destruct Et as (a' & E' & Ha & ET'). apply Fin_inj in E'. subst a'.
    rewrite jia_elliptic_p_F in EP by assumption. cbv zeta in EP. apply Fin_inj in EP. subst q'.
    destruct (ell_p p r1 r2 th Hn F a long Ha) as [Ep Hp]. fold c s in Ep, Hp. rewrite Ep in FG.
    destruct (ell_solution p mu r1 r2 th Hmu Hn F a long v1 v2 Ha FG) as [_ SM]. fold s in Ha.
    assert (energy mu r1 v1 < 0) by (apply SM1; lra). repeat split; try lra.
  - apply xltb_Ff in EL.
    apply bind_ok in EP. destruct EP as ([sma k] & ES & EP). apply Ok_inj in EP. apply pair_equal_spec in EP. destruct EP as [EP _].
    unfold jia_find_and_solve_hyperbolic in ES. apply bind_ok in ES. destruct ES as ([lo hi] & EB & ES).
    apply jia_hyperbolic_bracket_inv in EB. destruct EB as (lo' & hi' & -> & -> & B1 & B2).
    apply jia_search in ES; [|assumption]. destruct ES as (a & t & -> & Et & HS).
    apply xsub_inv in Et. destruct Et as (T & tof' & Et & E' & ->). apply Fin_inj in E'. subst tof'.
    apply jia_tof_hyperbolic_inv in Et; try assumption. destruct Et as (a' & E' & Ha & ET'). apply Fin_inj in E'. subst a'.
    rewrite jia_hyperbolic_p_F in EP by assumption. cbv zeta in EP. apply Fin_inj in EP. subst q'.
    destruct (hyp_p p r1 r2 th Hn F (- a) ltac:(lra)) as [Ep Hp]. fold c s in Ep, Hp. rewrite Ep in FG.
    destruct (hyp_solution p mu r1 r2 th Hmu Hn F (- a) v1 v2 ltac:(lra) FG) as [_ SM].
    assert (0 < energy mu r1 v1) by (apply SM2; lra). repeat split; try lra.
Qed.
Print Assumptions C69_jiang.

Example C69_jiang_case : exists tof o v1 v2, non_collinear ex_r1 ex_r2 /\
  @run XR Jiang no_scipy (call 1 ex_r1 ex_r2 tof 0 false true 1 0 0 true) = Ok o /\ delivers o v1 v2.
Proof. destruct C43_case as (tof & o & v1 & v2 & Hn & _ & H). exists tof, o, v1, v2. exact (conj Hn H). Qed.

(** thorne2004 returns an ellipse or a hyperbola as the requested time is longer or
    shorter than the parabolic one, except within the tolerances of the latter. *)
Theorem C69_thorne : forall ev mu r1 r2 tof M prograde low_path maxiter atol rtol full_output o v1 v2,
  brentq_brackets ev -> non_collinear r1 r2 ->
  @run XR Thorne ev (call mu r1 r2 tof M prograde low_path maxiter atol rtol full_output) = Ok o ->
  delivers o v1 v2 ->
  let T := euler_time mu prograde r1 r2 in
  atol + rtol * Rabs T < Rabs (tof - T) ->
  (energy mu r1 v1 < 0 <-> T < tof) /\ (0 < energy mu r1 v1 <-> tof < T).
Proof.
  intros ev mu r1 r2 tof M p l mi at_ rt fo o v1 v2 HB Hn H D T HT. cbn [run] in H.
  destruct (thorne_run _ _ _ _ _ _ _ _ _ _ _ _ _ _ _ HB Hn H D) as (Hm & th & e & F & HE & _ & _ & C). cbv zeta in C.
  assert (EP : pt mu r1 r2 (way th) = T) by (now apply par_time_euler). rewrite EP in C. destruct (semimajor_sign mu r1 v1 Hm) as [SM1 SM2].
  pose proof (semiper_pos _ _ Hn) as [Hs _].
  destruct C as [[_ C]|[(long & x & x' & _ & SM & X & X' & _ & C)|(x & x' & _ & SM & X & X' & _ & C)]].
  - lra.
  - pose proof (e_time_par p mu r1 r2 th Hm Hn F x long ltac:(lra)) as P1. pose proof (e_time_par p mu r1 r2 th Hm Hn F x' long ltac:(lra)) as P2.
    change (p_time mu r1 r2 th) with (pt mu r1 r2 (way th)) in P1, P2. rewrite EP in P1, P2.
    change (e_time mu r1 r2 th) with (et mu r1 r2 (way th)) in P1, P2. set (t := et mu r1 r2 (way th) x long) in *. set (t' := et mu r1 r2 (way th) x' long) in *.
    assert (T < tof) by (destruct (Rlt_dec T tof) as [|N]; [assumption|exfalso; assert (0 < (t - tof) * (t' - tof)) by (apply Rmult_lt_0_compat; lra); lra]).
    assert (energy mu r1 v1 < 0) by (apply SM1; lra). split; split; lra.
  - pose proof (h_time_par p mu r1 r2 th Hm Hn F x X) as P1. pose proof (h_time_par p mu r1 r2 th Hm Hn F x' X') as P2.
    change (p_time mu r1 r2 th) with (pt mu r1 r2 (way th)) in P1, P2. rewrite EP in P1, P2.
    change (h_time mu r1 r2 th) with (ht mu r1 r2 (way th)) in P1, P2. set (t := ht mu r1 r2 (way th) x) in *. set (t' := ht mu r1 r2 (way th) x') in *.
    assert (tof < T) by (destruct (Rlt_dec tof T) as [|N]; [assumption|exfalso; assert (0 < (tof - t) * (tof - t')) by (apply Rmult_lt_0_compat; lra); lra]).
    assert (0 < energy mu r1 v1) by (apply SM2; lra). split; split; lra.
Qed.
Print Assumptions C69_thorne.

Example C69_thorne_case : exists tof o v1 v2, brentq_brackets (brentq_left 1) /\ non_collinear ex_r1 ex_r2 /\
  0 + 0 * Rabs (euler_time 1 true ex_r1 ex_r2) < Rabs (tof - euler_time 1 true ex_r1 ex_r2) /\
  @run XR Thorne (brentq_left 1) (call 1 ex_r1 ex_r2 tof 0 true true 35 0 0 true) = Ok o /\ delivers o v1 v2.
Proof.
  pose proof ex_non_collinear as Hn. destruct (transfer_angle ex_r1 ex_r2 true Hn) as (th & ET & F).
  destruct (m_axis_gt ex_r1 ex_r2 Hn) as [M1 M2].
  pose proof (e_time_par true 1 ex_r1 ex_r2 th ltac:(lra) Hn F (m_axis ex_r1 ex_r2) false ltac:(lra)) as T3.
  pose proof (p_time_pos true 1 ex_r1 ex_r2 th ltac:(lra) Hn F) as T0.
  change (p_time 1 ex_r1 ex_r2 th) with (pt 1 ex_r1 ex_r2 (way th)) in T0, T3.
  change (e_time 1 ex_r1 ex_r2 th) with (et 1 ex_r1 ex_r2 (way th)) in T3.
  exists (et 1 ex_r1 ex_r2 (way th) (m_axis ex_r1 ex_r2) false).
  assert (EP : pt 1 ex_r1 ex_r2 (way th) = euler_time 1 true ex_r1 ex_r2) by (apply par_time_euler; (lra || assumption)).
  assert (X : exists o v1 v2, @run XR Thorne (brentq_left 1) (call 1 ex_r1 ex_r2 (et 1 ex_r1 ex_r2 (way th) (m_axis ex_r1 ex_r2) false) 0 true true 35 0 0 true) = Ok o /\ delivers o v1 v2).
  { apply (thorne_left 1 ex_r1 ex_r2 true th true 35 0 0 true ltac:(lra) Hn F ET); lra. }
  destruct X as (o & v1 & v2 & R & D). exists o, v1, v2. split; [apply brentq_left_brackets|]. split; [exact Hn|]. split; [|exact (conj R D)].
  rewrite <- EP. rewrite (Rabs_pos_eq (_ - _)) by lra. lra.
Qed.
