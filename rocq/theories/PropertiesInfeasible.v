(** * Infeasible multi-revolution requests: C35. *)
From Coq Require Import String Reals ZArith Bool Lra Lia Psatz List.
From Coquelicot Require Import Coquelicot.
From Verif Require Import Num XReal XRealLemmas MApi ApiFacts Loops MLinalg MIzzo MInit Spec SpecLambert VecFacts VecXR CallXR Godal GodalXR GodalIzzo GodalPan
  LambertRev LambertZ LambertUnique LambertExist AnglesXR Hyp2F1 IzzoXR OrbitXR PropertiesAngles PropertiesMotion PropertiesOrbit PropertiesDerivIzzo PropertiesUnique
  MinTime XParam PropertiesMultiRev PropertiesDerMin.
Import ListNotations.
Local Open Scope R_scope.

(** ** Bounds on the shortest time *)
Section Bounds.
Variables (ll : R) (M : Z).
Hypothesis Hl : -1 < ll < 1.
Hypothesis HM : (1 <= M)%Z.

Lemma T_above x : -1 < x < 1 -> IZR M * PI <= izzo_T ll M x.
Proof.
  intros H. rewrite (mt_T ll M Hl x H). unfold T_ell. destruct (mt_Y ll Hl x) as [P E]. set (y := sqrt (1 - ll * ll * (1 - x * x))) in *.
  assert (Q : 0 < 1 - x * x) by nra. destruct (sqrt_facts _ Q) as [Q1 Q2]. set (q := sqrt (1 - x * x)) in *. pose proof (mt_M M HM) as M1. pose proof PI_RGT_0 as HP.
  assert (L1 : 0 < 1 - ll * ll) by nra. assert (XY : x < y) by (assert (0 < (1 - ll * ll) * (1 - x * x)) by (apply Rmult_lt_0_compat; lra); nra).
  pose proof (xy_c_ell ll x y Hl ltac:(lra) E H) as B. pose proof (xy_c2 ll x y E) as C2. set (c := x * y + ll * (1 - x * x)) in *.
  set (psi := acos c). assert (B1 : -1 <= c <= 1) by lra. pose proof (acos_bound c) as B2. fold psi in B2.
  assert (ES : sin psi = q * (y - ll * x)).
  { unfold psi. rewrite sin_acos by assumption. unfold Rsqr. rewrite C2. replace (1 - (1 - (1 - x * x) * ((y - ll * x) * (y - ll * x)))) with ((q * (y - ll * x)) * (q * (y - ll * x))) by (rewrite <- Q2; ring).
    apply sqrt_square. pose proof (xy_eta ll x y Hl ltac:(lra) E). nra. }
  assert (SP : sin psi <= psi) by (destruct (Rle_lt_or_eq_dec 0 psi ltac:(lra)) as [L|<-]; [left; now apply sin_lt_x|rewrite sin_0; lra]).
  assert (KEY : q * (x - ll * y) <= psi).
  { assert (q * (x - ll * y) <= q * (y - ll * x)); [|lra]. apply Rmult_le_compat_l; [lra|]. nra. }
  assert (q3 : q * q * q <= 1) by nra.
  apply Rmult_le_reg_r with (q * q * q); [repeat apply Rmult_lt_0_compat; assumption|].
  replace (((psi + IZR M * PI) / q - x + ll * y) / (1 - x * x) * (q * q * q)) with (psi + IZR M * PI - q * (x - ll * y)) by (rewrite <- Q2; field; lra).
  assert (IZR M * PI * (q * q * q) <= IZR M * PI * 1); [|lra]. apply Rmult_le_compat_l; [nra|assumption].
Qed.

Lemma T_zero : izzo_T ll M 0 = acos ll + ll * sqrt (1 - ll * ll) + IZR M * PI.
Proof.
  rewrite (mt_T ll M Hl 0 ltac:(lra)). unfold T_ell. replace (1 - 0 * 0) with 1 by ring. rewrite sqrt_1, !Rmult_1_r, Rmult_0_l, Rplus_0_l. field.
Qed.
Lemma T_zero_below : izzo_T ll M 0 <= (IZR M + 1) * PI.
Proof.
  rewrite T_zero. pose proof (acos_bound ll) as B. pose proof (cos_acos ll ltac:(lra)) as E. pose proof (sin_acos ll ltac:(lra)) as ES. unfold Rsqr in ES. rewrite <- ES. rewrite <- E at 2.
  set (t := acos ll) in *. set (f := PI - t). assert (sin (2 * f) = - (2 * (cos t * sin t))).
  { unfold f. rewrite sin_2a. rewrite sin_minus, cos_minus, sin_PI, cos_PI. ring. }
  assert (- (2 * f) <= sin (2 * f)).
  { destruct (Req_dec f 0) as [-> |]; [rewrite Rmult_0_r, sin_0; lra|]. assert (0 < 2 * f) by (unfold f in *; lra).
    destruct (Rle_dec (2 * f) PI); [assert (0 <= sin (2 * f)) by (apply sin_ge_0; lra); lra|]. pose proof (SIN_bound (2 * f)). pose proof PI2_3_2. lra. }
  unfold f in *. lra.
Qed.
End Bounds.

(** ** izzo2015 *)
Definition infeasible_error : exn := ValueError "No feasible solution, try lower M!".

Section Izzo.
Variables (ll tau : R) (M : Z) (mi : Z) (at_ rt : xr) (low : bool).
Hypothesis Hl : -1 < ll < 1.
Hypothesis HM : (1 <= M)%Z.

(** The search for the minimum with [M] revolutions, izzo.py:250-252. *)
Definition izzo_search : res xr :=
  @izzo_halley XR (nlit 1 10) (@izzo_tof XR (nlit 1 10) (nofZ 0) (Fin ll) (Fin (IZR M))) (Fin ll) at_ rt mi.

Definition izzo_gate (K : Z) : res xr :=
  if @nltb XR (Fin tau) (Fin (acos ll + ll * sqrt (1 - ll * ll) + IZR K * PI)) && @nltb XR (nofZ 0) (Fin (IZR K)) then
    bind (@izzo_T_min XR (Fin ll) (Fin (IZR K)) mi at_ rt) (fun '(_, T_min) =>
      Ok (if @nltb XR (Fin tau) T_min then Fin (IZR K - 1) else Fin (IZR K)))
  else Ok (Fin (IZR K)).

Lemma find_xy_gate :
  @izzo_find_xy XR (Fin ll) (Fin tau) (Fin (IZR M)) mi at_ rt low =
  bind (izzo_gate (Int_part (tau / PI))) (fun M_max =>
    if @nltb XR M_max (Fin (IZR M)) then Err infeasible_error
    else bind (@izzo_householder XR (@izzo_initial_guess XR (Fin tau) (Fin ll) (Fin (IZR M)) low) (Fin tau) (Fin ll) (Fin (IZR M)) at_ rt mi)
           (fun x => Ok (x, @izzo_y XR x (Fin ll)))).
Proof.
  unfold izzo_find_xy. pose proof PI_RGT_0 as HP.
  replace (negb (@nltb XR (@nabs XR (Fin ll)) (nofZ 1))) with false.
  2:{ symmetry. apply negb_false_iff. apply xltb_F. apply Rabs_def1; lra. }
  assert (EK : @nfloor XR (@ndiv XR (Fin tau) npi) = Fin (IZR (Int_part (tau / PI)))).
  { xunf. rewrite xdiv_F by lra. reflexivity. }
  rewrite EK. set (K := Int_part (tau / PI)).
  assert (E0 : @nadd XR (@nacos XR (Fin ll)) (@nmul XR (Fin ll) (@nsqrt XR (@nsub XR (nofZ 1) (@sq XR (Fin ll))))) = Fin (acos ll + ll * sqrt (1 - ll * ll))).
  { unfold sq. xunf. cbn [xsub xmul xlift2]. rewrite xsqrt_F by nra. rewrite xacos_F by lra. reflexivity. }
  rewrite E0. reflexivity.
Qed.

Lemma tmin_search : @izzo_T_min XR (Fin ll) (Fin (IZR M)) mi at_ rt = bind izzo_search (fun x => Ok (x, @izzo_tof XR x (nofZ 0) (Fin ll) (Fin (IZR M)))).
Proof.
  unfold izzo_T_min. replace (@neqb XR (Fin ll) (nofZ 1)) with false by (symmetry; apply xeqb_Ff; lra).
  replace (@neqb XR (Fin (IZR M)) (nofZ 0)) with false; [reflexivity|]. symmetry. apply xeqb_Ff. change (IZR 0) with 0. pose proof (IZR_le _ _ HM). lra.
Qed.
End Izzo.

(** izzo2015's run in terms of [_find_xy]. *)
Lemma izzo_run_find ev mu r1 r2 tof M p low mi at_ rt : 0 < mu -> non_collinear r1 r2 ->
  exists ll, lambda_facts p r1 r2 ll /\ -1 < ll < 1 /\
  let s := semiper r1 r2 in
  let found := @izzo_find_xy XR (Fin ll) (Fin (sqrt (2 * mu / (s * s * s)) * tof)) (Fin (IZR M)) mi (Fin at_) (Fin rt) low in
  (forall e, @run XR Izzo ev (call mu r1 r2 tof M p low mi at_ rt false) = Err e <-> found = Err e) /\
  ((exists o, @run XR Izzo ev (call mu r1 r2 tof M p low mi at_ rt false) = Ok o) <-> exists xy, found = Ok xy).
Proof.
  intros Hm Hn. destruct (izzo_geometry_F r1 r2 p Hn) as (e & ll & t1 & t2 & EG & _ & _ & LF & _ & _).
  exists ll. split; [exact LF|]. split; [exact (lambda_bounds _ _ _ _ Hn LF)|]. cbv zeta. set (s := semiper r1 r2) in *.
  destruct (semiper_pos _ _ Hn) as [Hs _]. fold s in Hs. assert (Hc : 0 < s * s * s) by (apply Rmult_lt_0_compat; nra).
  assert (ET : @nmul XR (@nsqrt XR (@ndiv XR (@nmul XR (nofZ 2) (Fin mu)) (@cube XR (Fin s)))) (Fin tof) = Fin (sqrt (2 * mu / (s * s * s)) * tof)).
  { clear - Hc Hm. unfold cube. xunf. cbn [xmul xlift2]. rewrite xdiv_F by lra. rewrite xsqrt_F by (apply Rlt_le, Rdiv_lt_0_compat; lra). reflexivity. }
  cbn [run]. unfold izzo2015.
  cbn [a_mu a_r1 a_r2 a_tof a_M a_is_prograde a_is_low_path a_maxiter a_atol a_rtol a_full_output call raise_if bind].
  rewrite !as_vec_of_vec. cbn [bind]. rewrite EG. rewrite ET. change (@nofZ XR M) with (Fin (IZR M)).
  destruct (izzo_find_xy _ _ _ _ _ _ _) as [[x y]|e']; cbn [bind].
  - destruct (izzo_velocities _ _ _ _ _ _ _ _ _ _ _ _) as [v1 v2]. split; [intros; split; discriminate|]. split; intros _; eexists; reflexivity.
  - split; [intros; split; intros E; injection E as ->; reflexivity|]. split; intros [? E]; discriminate.
Qed.

(** A request that cannot be met is answered only if the search for the shortest
    time left the elliptic range: otherwise the time found is that of a real
    transfer, hence at least the shortest one, and the request is refused. *)
Theorem C35_izzo_refuses :
  forall ev mu r1 r2 tof M prograde low_path maxiter atol rtol o,
  0 < mu -> vz (vcross r1 r2) <> 0 -> (1 <= M)%Z ->
  ~ feasible mu r1 r2 prograde M tof ->
  @run XR Izzo ev (call mu r1 r2 tof M prograde low_path maxiter atol rtol false) = Ok o ->
  let s := (vnorm r1 + vnorm r2 + vnorm (vminus r2 r1)) / 2 in
  exists ll x,
    s * (ll * ll) = s - vnorm (vminus r2 r1) /\ (0 < ll <-> short_way prograde r1 r2) /\
    izzo_search ll M maxiter (Fin atol) (Fin rtol) = Ok x /\ ~ (exists r, x = Fin r /\ -1 < r < 1).
Proof.
  intros ev mu r1 r2 tof M p l mi at_ rt o Hm Hz HM NF H s. pose proof (vz_non_collinear _ _ Hz) as Hn.
  destruct (izzo_run_find ev mu r1 r2 tof M p l mi at_ rt Hm Hn) as (ll & LF & Hl & _ & R). cbv zeta in R.
  apply proj1 in R. destruct (R (ex_intro _ o H)) as [xy F]. clear R H. pose proof (lf_dir _ _ _ _ LF Hz) as LS.
  destruct (mt_critical ll M Hl HM) as (x0 & H0 & D).
  destruct (shortest mu r1 r2 p M ll x0 Hm Hz HM LF LS H0 D) as (R0 & _ & S). set (rate := sqrt (2 * mu / _)) in *.
  rewrite feasible_requested, S in NF. set (tau := rate * tof) in *.
  rewrite (find_xy_gate ll tau M mi (Fin at_) (Fin rt) l Hl) in F. set (K := Int_part (tau / PI)) in *.
  pose proof PI_RGT_0 as HP. assert (B : IZR K * PI <= tau < (IZR K + 1) * PI).
  { destruct (base_Int_part (tau / PI)) as [B1 B2]. fold K in B1, B2. replace tau with (tau / PI * PI) by (field; lra). split; [apply Rmult_le_compat_r; lra|apply Rmult_lt_compat_r; lra]. }
  assert (T0 : izzo_T ll M x0 <= izzo_T ll M 0) by (left; apply mt_minimum; try assumption; lra).
  pose proof (T_zero_below ll M Hl) as T1. pose proof (T_zero ll M Hl) as TZ.
  assert (KM : (K <= M)%Z).
  { destruct (Z_le_gt_dec K M) as [|G]; [assumption|]. exfalso. assert (IZR M + 1 <= IZR K) by (rewrite <- plus_IZR; apply IZR_le; lia). nra. }
  apply bind_ok in F. destruct F as (mm & G & F). destruct (@nltb XR mm (Fin (IZR M))) eqn:LT; [discriminate|]. clear F.
  exists ll. unfold izzo_gate in G.
  destruct (_ && _) eqn:C in G.
  - destruct (Z_lt_le_dec K M) as [LK|LK].
    + exfalso. apply bind_ok in G. destruct G as ([x t] & _ & G). apply Ok_inj in G. subst mm. apply IZR_lt in LK.
      destruct (@nltb XR (Fin tau) t); apply xltb_Ff in LT; lra.
    + assert (K = M) by lia. subst K. rewrite H in *. clear H.
      rewrite (tmin_search ll M mi _ _ Hl HM) in G. apply bind_ok in G. destruct G as ([x t] & G1 & G). apply bind_ok in G1. destruct G1 as (x' & ES & G1). apply Ok_inj in G1. apply pair_equal_spec in G1. destruct G1 as [-> <-].
      exists x. split; [exact (lf_sq _ _ _ _ LF)|]. split; [exact LS|]. split; [exact ES|]. intros (r & -> & Hr).
      change (@nofZ XR 0) with (Fin 0) in G. destruct (izzo_T_F ll M Hl r (mt_dom M r Hr)) as [ER _]. rewrite ER in G.
      assert (izzo_T ll M x0 <= izzo_T ll M r) by (destruct (Req_dec r x0) as [-> |N]; [lra|left; now apply mt_minimum]).
      replace (@nltb XR (Fin tau) (Fin (izzo_T ll M r))) with true in G by (symmetry; apply xltb_F; lra).
      apply Ok_inj in G. subst mm. apply xltb_Ff in LT. lra.
  - exfalso. apply Ok_inj in G. subst mm. apply xltb_Ff in LT. apply le_IZR in LT. assert (K = M) by lia. subst K. rewrite H in *. clear H.
    apply andb_false_iff in C. destruct C as [C|C]; apply xltb_Ff in C.
    + rewrite <- TZ in C. lra.
    + apply (le_IZR M 0) in C. lia.
Qed.
Print Assumptions C35_izzo_refuses.

(** Which requests are refused, when the search ends at an elliptic [x]: those
    shorter than the time of the transfer at [x] and of the transfer at zero. *)
Theorem C35_izzo_window :
  forall ev mu r1 r2 tof M prograde low_path maxiter atol rtol ll x,
  0 < mu -> vz (vcross r1 r2) <> 0 -> (1 <= M)%Z -> -1 < x < 1 ->
  let s := (vnorm r1 + vnorm r2 + vnorm (vminus r2 r1)) / 2 in
  s * (ll * ll) = s - vnorm (vminus r2 r1) -> (0 < ll <-> short_way prograde r1 r2) ->
  izzo_search ll M maxiter (Fin atol) (Fin rtol) = Ok (Fin x) ->
  let tau := sqrt (2 * mu / (s * s * s)) * tof in
  IZR M * PI <= tau < (IZR M + 1) * PI ->
  exists T T0 : R,
    @izzo_tof XR (Fin x) (Fin 0) (Fin ll) (Fin (IZR M)) = Fin T /\
    @izzo_tof XR (Fin 0) (Fin 0) (Fin ll) (Fin (IZR M)) = Fin T0 /\
    (@run XR Izzo ev (call mu r1 r2 tof M prograde low_path maxiter atol rtol false) = Err infeasible_error
     <-> tau < T /\ tau < T0).
Proof.
  intros ev mu r1 r2 tof M p l mi at_ rt ll x Hm Hz HM Hx s El Sl ES tau B. pose proof (vz_non_collinear _ _ Hz) as Hn.
  destruct (izzo_run_find ev mu r1 r2 tof M p l mi at_ rt Hm Hn) as (ll' & LF & Hl & R & _). cbv zeta in R.
  change (semiper r1 r2) with s in R. fold tau in R.
  assert (ll' = ll) as ->.
  { pose proof (lf_sq _ _ _ _ LF) as E'. change (semiper r1 r2) with s in E'. change (chord r1 r2) with (vnorm (vminus r2 r1)) in E'.
    pose proof (lf_dir _ _ _ _ LF Hz) as S'. pose proof (lf_nz _ _ _ _ LF) as N'. destruct (semiper_pos _ _ Hn) as [Hs _]. change (semiper r1 r2) with s in Hs.
    assert (Z : (ll' - ll) * (ll' + ll) = 0) by (apply Rmult_eq_reg_l with s; lra).
    apply Rmult_integral in Z. destruct Z as [Z|Z]; [lra|]. exfalso.
    destruct (Rlt_dec 0 ll) as [P|P]; [assert (0 < ll') by tauto; lra|]. assert (~ 0 < ll') by tauto. lra. }
  exists (izzo_T ll M x), (izzo_T ll M 0). split; [apply izzo_T_F; [exact Hl|now apply mt_dom]|]. split; [apply izzo_T_F; [exact Hl|apply mt_dom; lra]|].
  rewrite R. clear R. rewrite (find_xy_gate ll tau M mi (Fin at_) (Fin rt) l Hl).
  pose proof PI_RGT_0 as HP.
  assert (EK : Int_part (tau / PI) = M).
  { destruct (base_Int_part (tau / PI)) as [B1 B2]. set (K := Int_part (tau / PI)) in *. assert (IZR M <= tau / PI < IZR M + 1).
    2:{ assert (K < M + 1)%Z by (apply lt_IZR; rewrite plus_IZR; lra). assert (M < K + 1)%Z by (apply lt_IZR; rewrite plus_IZR; lra). lia. }
    split; [apply Rmult_le_reg_r with PI|apply Rmult_lt_reg_r with PI]; try lra; replace (tau / PI * PI) with tau by (field; lra); lra. }
  rewrite EK. unfold izzo_gate. rewrite (tmin_search ll M mi _ _ Hl HM), ES. cbn [bind]. change (@nofZ XR 0) with (Fin 0).
  destruct (izzo_T_F ll M Hl x (mt_dom M x Hx)) as [ER _]. rewrite ER. rewrite <- (T_zero ll M Hl).
  assert (M0 : 0 < IZR M) by (apply (IZR_lt 0); lia). replace (@nltb XR (Fin 0) (Fin (IZR M))) with true by (symmetry; now apply xltb_F). rewrite andb_true_r.
  set (rest := bind (izzo_householder _ _ _ _ _ _ _) _).
  assert (RN : rest <> Err infeasible_error).
  { unfold rest. intros E. unfold izzo_householder in E. destruct (for_range _ _ _ _) as [q|q|q] eqn:FR; cbn [bind] in E; try discriminate. 
    assert (forall n i t, for_range (@izzo_householder_body XR (Fin tau) (Fin ll) (Fin (IZR M)) (Fin at_) (Fin rt)) n i t <> Raise q).
    { induction n as [|n IH]; intros i t; cbn [for_range]; [discriminate|]. unfold izzo_householder_body at 1. cbv zeta. destruct (nltb _ _); [discriminate|]. apply IH. }
    exact (H _ _ _ FR). }
  clearbody rest.
  destruct (@nltb XR (Fin tau) (Fin (izzo_T ll M 0))) eqn:C0; cbn [bind].
  - apply xltb_F in C0. destruct (@nltb XR (Fin tau) (Fin (izzo_T ll M x))) eqn:C1.
    + apply xltb_F in C1. replace (@nltb XR (Fin (IZR M - 1)) (Fin (IZR M))) with true by (symmetry; apply xltb_F; lra). tauto.
    + apply xltb_Ff in C1. replace (@nltb XR (Fin (IZR M)) (Fin (IZR M))) with false by (symmetry; apply xltb_Ff; lra). split; [intros E; now apply RN in E|lra].
  - apply xltb_Ff in C0. replace (@nltb XR (Fin (IZR M)) (Fin (IZR M))) with false by (symmetry; apply xltb_Ff; lra). split; [intros E; now apply RN in E|lra].
Qed.
Print Assumptions C35_izzo_window.

(** So unless the search hits the minimum exactly, requests that can be met are
    refused. *)
Theorem C35_izzo_refuses_feasible_refuted :
  forall mu r1 r2 M prograde maxiter atol rtol ll x,
  0 < mu -> vz (vcross r1 r2) <> 0 -> (1 <= M)%Z -> -1 < x < 1 ->
  let s := (vnorm r1 + vnorm r2 + vnorm (vminus r2 r1)) / 2 in
  s * (ll * ll) = s - vnorm (vminus r2 r1) -> (0 < ll <-> short_way prograde r1 r2) ->
  izzo_search ll M maxiter (Fin atol) (Fin rtol) = Ok (Fin x) ->
  ~ is_derive (fun x => xget (@izzo_tof XR (Fin x) (Fin 0) (Fin ll) (Fin (IZR M)))) x 0 ->
  exists tof, 0 < tof /\ feasible mu r1 r2 prograde M tof /\
  forall ev low_path,
  @run XR Izzo ev (call mu r1 r2 tof M prograde low_path maxiter atol rtol false) = Err infeasible_error.
Proof.
  intros mu r1 r2 M p mi at_ rt ll x Hm Hz HM Hx s El Sl ES ND. pose proof (vz_non_collinear _ _ Hz) as Hn.
  pose proof PI_RGT_0 as HP.
  assert (LF : lambda_facts p r1 r2 ll).
  { destruct (lambda_exists p r1 r2 Hn) as (ll' & LF & LS). specialize (LS). 
    assert (ll' = ll) as <-; [|exact LF].
    pose proof (lf_sq _ _ _ _ LF) as E'. change (semiper r1 r2) with s in E'. change (chord r1 r2) with (vnorm (vminus r2 r1)) in E'.
    pose proof (lf_dir _ _ _ _ LF Hz) as S'. pose proof (lf_nz _ _ _ _ LF) as N'. destruct (semiper_pos _ _ Hn) as [Hs _]. change (semiper r1 r2) with s in Hs.
    assert (Z : (ll' - ll) * (ll' + ll) = 0) by (apply Rmult_eq_reg_l with s; lra).
    apply Rmult_integral in Z. destruct Z as [Z|Z]; [lra|]. exfalso.
    destruct (Rlt_dec 0 ll) as [P|P]; [assert (0 < ll') by tauto; lra|]. assert (~ 0 < ll') by tauto. lra. }
  pose proof (lambda_bounds _ _ _ _ Hn LF) as Hl.
  destruct (mt_critical ll M Hl HM) as (x0 & H0 & D).
  destruct (shortest mu r1 r2 p M ll x0 Hm Hz HM LF Sl H0 D) as (R0 & _ & S). change (semiper r1 r2) with s in S, R0. set (rate := sqrt (2 * mu / _)) in *.
  assert (NX : x <> x0).
  { intros ->. apply ND. pose proof (izzo_T_derive ll M Hl x0 (mt_dom M x0 Hx)) as DD. fold (d1 ll M x0) in DD. rewrite D in DD. exact DD. }
  pose proof (mt_minimum ll M Hl HM x0 x H0 D Hx NX) as L1. pose proof (mt_minimum ll M Hl HM x0 0 H0 D ltac:(lra) ltac:(lra)) as L2.
  pose proof (T_above ll M Hl HM x0 ltac:(lra)) as LA. pose proof (T_zero_below ll M Hl) as LB.
  assert (M0 : 0 < IZR M) by (apply (IZR_lt 0); lia). assert (0 < IZR M * PI) by now apply Rmult_lt_0_compat.
  exists (izzo_T ll M x0 / rate). assert (ER : rate * (izzo_T ll M x0 / rate) = izzo_T ll M x0) by (field; lra).
  split; [apply Rdiv_lt_0_compat; lra|]. split; [apply feasible_requested, S; lra|]. intros ev l.
  destruct (C35_izzo_window ev mu r1 r2 (izzo_T ll M x0 / rate) M p l mi at_ rt ll x Hm Hz HM Hx El Sl ES) as (T & T0 & E1 & E2 & W).
  { fold s. fold rate. rewrite ER. lra. }
  destruct (izzo_T_F ll M Hl x (mt_dom M x Hx)) as [F1 _]. rewrite F1 in E1. injection E1 as <-.
  destruct (izzo_T_F ll M Hl 0 (mt_dom M 0 ltac:(lra))) as [F2 _]. rewrite F2 in E2. injection E2 as <-.
  apply W. fold s. fold rate. rewrite ER. lra.
Qed.
Print Assumptions C35_izzo_refuses_feasible_refuted.

(** The search for the quarter turn between equal radii ([ll = sqrt 2 - 1]) with
    one revolution, one step allowed and a wide tolerance, ends inside the
    elliptic range. *)
Example C35_search_case : exists x, izzo_search (sqrt 2 - 1) 1 1 (Fin 1) (Fin 0) = Ok (Fin x) /\ -1 < x < 1.
Proof.
  destruct (sqrt_facts 2) as [W1 W2]; [lra|]. assert (Wb : 1.41 < sqrt 2 < 1.42) by nra.
  set (l := sqrt 2 - 1). assert (Hl : -1 < l < 1) by (unfold l; lra). assert (Lb : 0.41 < l < 0.42) by (unfold l; lra). clearbody l. clear W1 W2 Wb.
  unfold izzo_search. change (@nlit XR 1 10) with (Fin (1 / 10)). change (@nofZ XR 0) with (Fin 0).
  destruct (izzo_T_F l 1 Hl (1 / 10) (mt_dom 1 (1 / 10) ltac:(lra))) as [-> EL]. 
  pose proof (T_above l 1 Hl ltac:(lia) (1 / 10) ltac:(lra)) as LA. pose proof PI2_3_2 as P3. pose proof PI_4 as P4.
  destruct (mt_Y l Hl (1 / 10)) as [Y1 Y2]. destruct (mt_Y1 l Hl (1 / 10) ltac:(lra)) as [Y3 _].
  assert (UB : izzo_T l 1 (1 / 10) <= 10).
  { rewrite (mt_T l 1 Hl (1 / 10) ltac:(lra)). unfold T_ell. set (y := sqrt (1 - l * l * (1 - 1 / 10 * (1 / 10)))) in *.
    replace (1 - 1 / 10 * (1 / 10)) with (99 / 100) in * by lra. pose proof (acos_bound (1 / 10 * y + l * (99 / 100))) as AB. set (a := acos _) in *. clearbody a.
    destruct (sqrt_facts (99 / 100)) as [Q1 Q2]; [lra|]. set (q := sqrt (99 / 100)) in *. assert (Q3 : 0.99 < q) by nra.
    assert (H : (a + 1 * PI) / q <= 9). { apply Rmult_le_reg_r with q; [assumption|]. replace ((a + 1 * PI) / q * q) with (a + 1 * PI) by (field; lra). lra. }
    apply Rmult_le_reg_r with (99 / 100); [lra|]. replace (((a + 1 * PI) / q - 1 / 10 + l * y) / (99 / 100) * (99 / 100)) with ((a + 1 * PI) / q - 1 / 10 + l * y) by (field; lra). assert (l * y <= 0.42) by nra. lra. }
  set (T := izzo_T l 1 (1 / 10)) in *. assert (TB : 3 <= T <= 10) by lra. clearbody T. clear EL LA UB.
  assert (EY : @izzo_y XR (Fin (1 / 10)) (Fin l) = Fin (sqrt (1 - l * l * (1 - 1 / 10 * (1 / 10))))).
  { unfold izzo_y, sq. xunf. cbn [xsub xmul xlift2]. rewrite xsqrt_F; [reflexivity|]. nra. }
  set (y := sqrt (1 - l * l * (1 - 1 / 10 * (1 / 10)))) in *. assert (YB : 0.9 < y <= 1) by nra. clearbody y. clear Y1 Y2 Y3.
  set (f1 := (3 * T * (1 / 10) - 2 + 2 * (l * l * l) * (1 / 10) / y) / (1 - 1 / 10 * (1 / 10))).
  set (f2 := (3 * T + 5 * (1 / 10) * f1 + 2 * (1 - l * l) * (l * l * l) / (y * y * y)) / (1 - 1 / 10 * (1 / 10))).
  set (f3 := (7 * (1 / 10) * f2 + 8 * f1 - 6 * (1 - l * l) * (l * (l * (l * (l * l)))) * (1 / 10) / (y * (y * (y * (y * y))))) / (1 - 1 / 10 * (1 / 10))).
  assert (Iy : 0 < / y < 1.2).
  { split; [apply Rinv_0_lt_compat; lra|]. apply Rmult_lt_reg_r with y; [lra|]. rewrite Rinv_l by lra. lra. }
  assert (I3 : 0 < / y * / y * / y < 1.8). { split; [repeat apply Rmult_lt_0_compat; lra|]. assert (/ y * / y < 1.44) by nra. nra. }
  assert (I5 : 0 < / y * / y * / y * / y * / y < 2.7). { split; [repeat apply Rmult_lt_0_compat; lra|]. assert (J2 : 0 < / y * / y < 1.44) by nra. set (j := / y) in *. assert (0 < (j * j) * (j * j) < 2.08) by nra. replace (j * j * j * j * j) with ((j * j) * (j * j) * j) by ring. nra. }
  assert (C3 : 0 < l * l * l < 0.08). { split; [repeat apply Rmult_lt_0_compat; lra|]. assert (l * l < 0.18) by nra. nra. }
  assert (C5 : 0 < l * l * l * l * l < 0.02). { split; [repeat apply Rmult_lt_0_compat; lra|]. assert (J2 : 0 < l * l < 0.18) by nra. assert (0 < (l * l) * (l * l) < 0.04) by nra. replace (l * l * l * l * l) with ((l * l) * (l * l) * l) by ring. nra. }
  assert (B1 : -1.2 <= f1 <= 1.2).
  { unfold f1. replace (2 * (l * l * l) * (1 / 10) / y) with (1 / 5 * ((l * l * l) * / y)) by (field; lra). set (c3 := l * l * l) in *. assert (0 < c3 * / y < 0.1) by nra. lra. }
  assert (B2 : 8 <= f2).
  { unfold f2. replace (2 * (1 - l * l) * (l * l * l) / (y * y * y)) with (2 * ((1 - l * l) * ((l * l * l) * (/ y * / y * / y)))) by (field; lra).
    assert (0 < 1 - l * l) by nra. assert (0 < (l * l * l) * (/ y * / y * / y)) by nra. assert (0 < (1 - l * l) * ((l * l * l) * (/ y * / y * / y))) by nra. lra. }
  assert (B3 : 0.7 * f2 - 10 <= f3 <= 0.72 * f2 + 10).
  { unfold f3. replace (6 * (1 - l * l) * (l * (l * (l * (l * l)))) * (1 / 10) / (y * (y * (y * (y * y))))) with (6 / 10 * ((1 - l * l) * ((l * l * l * l * l) * (/ y * / y * / y * / y * / y)))) by (field; lra).
    assert (0 < 1 - l * l < 1) by nra. assert (0 < (l * l * l * l * l) * (/ y * / y * / y * / y * / y) < 0.06) by nra. set (u := l * l * l * l * l * _) in *.
    assert (0 < (1 - l * l) * u < 0.06) by nra. lra. }
  set (d := 2 * (f2 * f2) - f1 * f3). assert (Dp : 12 * f2 <= d).
  { unfold d. assert (f1 * f3 <= 1.2 * (0.72 * f2 + 10)); [|nra].
    destruct (Rle_dec 0 f1); destruct (Rle_dec 0 f3); nra. }
  set (p := 1 / 10 - 2 * f1 * f2 / d).
  assert (DB : -0.25 <= 2 * f1 * f2 / d <= 0.25).
  { split; (apply Rmult_le_reg_r with d; [lra|]); replace (2 * f1 * f2 / d * d) with (2 * f1 * f2) by (field; lra); nra. }
  exists p. split; [|unfold p; lra].
  unfold izzo_halley. change (Z.to_nat 1) with 1%nat. cbn [for_range]. unfold izzo_halley_body. rewrite EY.
  assert (E1 : @izzo_tof_p XR (Fin (1 / 10)) (Fin y) (Fin T) (Fin l) = Fin f1).
  { unfold izzo_tof_p, cube, sq. xunf. cbn [xadd xsub xmul xlift2]. rewrite xdiv_F by lra. cbn [xadd xsub xmul xlift2]. rewrite xdiv_F by lra. reflexivity. }
  assert (E2 : @izzo_tof_p2 XR (Fin (1 / 10)) (Fin y) (Fin T) (Fin f1) (Fin l) = Fin f2).
  { unfold izzo_tof_p2, cube, sq. xunf. cbn [xadd xsub xmul xlift2]. rewrite xdiv_F by (repeat apply Rmult_integral_contrapositive_currified; lra). cbn [xadd xsub xmul xlift2]. rewrite xdiv_F by lra. reflexivity. }
  assert (E3 : @izzo_tof_p3 XR (Fin (1 / 10)) (Fin y) (Fin f1) (Fin f2) (Fin l) = Fin f3).
  { unfold izzo_tof_p3, sq, npown. cbn [Nat.iter nat_rect]. xunf. cbn [xadd xsub xmul xlift2]. rewrite xdiv_F by (repeat apply Rmult_integral_contrapositive_currified; lra). cbn [xadd xsub xmul xlift2]. rewrite xdiv_F by lra.
    apply (f_equal Fin). unfold f3. field. lra. }
  rewrite E1. cbv zeta. rewrite E2. replace (@neqb XR (Fin f2) (nofZ 0)) with false by (symmetry; apply xeqb_Ff; lra).
  rewrite E3. unfold sq. xunf. cbn [xsub xmul xlift2]. fold d. rewrite xdiv_F by lra. cbn [xsub xadd xmul xlift2 xabs xlift1]. fold p.
  replace (xltb (Fin (Rabs (p - 1 / 10))) (Fin (0 * Rabs (1 / 10) + 1))) with true; [reflexivity|]. symmetry. apply xltb_F. apply Rabs_def1; unfold p; lra.
Qed.
