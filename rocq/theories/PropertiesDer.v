(** * der2011: its answers solve Lambert's problem (C47), its derivatives (C27)
    and its minimum time (C48). *)
From Coq Require Import String ZArith List Bool Lia Reals Lra Psatz.
From Coquelicot Require Import Coquelicot.
From Verif Require Import Num XReal XRealLemmas MApi ApiFacts Loops MLinalg MScipy MAssertions MAngles MDer MInit
  Spec SpecLambert VecFacts VecXR AnglesXR UniversalKepler LambertUV LambertRev StumpffXR CallXR Godal GodalIzzo GodalXR GodalMore GodalPan
  DelatorreXR LambertZ OrbitXR MIzzo Hyp2F1 IzzoXR PropertiesAngles PropertiesMotion PropertiesOrbit PropertiesDelatorre PropertiesDerivIzzo ThorneRun DerXR.
From Verif Require PropertiesIzzo.
Local Open Scope R_scope.

(** ** The iterations *)
Lemma Next_inj' {A S} (a b : S) : @Next A S a = Next b -> a = b.
Proof. intros H. now inversion H. Qed.
Section Run.
Variables (sg tau : R) (M : Z) (at_ rt : R).
Hypothesis Hs : 0 < sg * sg < 1.

(** What an accepted iterate [x] of a time equation [T] guarantees on the
    domain [D]. *)
Definition accepted (D : R -> Prop) (T : R -> R) (x : R) : Prop :=
  D x /\ (Rabs (T x - tau) <= at_ + rt * Rabs tau \/
          exists x', D x' /\ Rabs (x - x') <= at_ + rt * Rabs x /\ (T x - tau) * (T x' - tau) <= 0).

Lemma der_tof_elliptic_NaN y : @der_tof_elliptic XR (Fin sg) NaN y M = NaN.
Proof.
  unfold der_tof_elliptic. change (@ndiv XR) with xdiv. 
  match goal with |- xdiv ?a ?b = NaN => destruct a; [|reflexivity] end. reflexivity.
Qed.

Lemma der_eps_val : @der_eps XR = Fin (1 / 4503599627370496).
Proof. reflexivity. Qed.

Lemma solve_elliptic_run ev x0 mi x y it :
  brentq_brackets ev -> -1 < x0 < 1 ->
  @der_solve_elliptic XR ev (Fin sg) (Fin tau) M (Fin x0) mi (Fin at_) (Fin rt) = Ok (x, y, it) ->
  exists x', x = Fin x' /\ y = @der_y XR (Fin sg) x /\ accepted (fun x => -1 < x < 1) (T_ell sg M) x'.
Proof.
  intros HB Hx H. unfold der_solve_elliptic in H.
  assert (B : @der_solve_elliptic_bracketed XR ev (Fin sg) (Fin tau) M (Fin x0) mi (Fin at_) (Fin rt) = Ok (x, y, it) ->
    exists x', x = Fin x' /\ y = @der_y XR (Fin sg) x /\ accepted (fun x => -1 < x < 1) (T_ell sg M) x').
  { clear H. unfold der_solve_elliptic_bracketed. intros K.
    assert (EI : exists lo hi, (if @nltb XR (Fin x0) (nofZ 0) then (@nadd XR (@nopp XR (nofZ 1)) der_eps, nofZ 0) else (nofZ 0, @nsub XR (nofZ 1) der_eps)) = (Fin lo, Fin hi)
       /\ -1 < lo /\ lo < hi /\ hi < 1).
    { rewrite der_eps_val. destruct (@nltb XR (Fin x0) (nofZ 0)); do 2 eexists; (split; [reflexivity|]); lra. }
    destruct EI as (lo & hi & EI & L1 & L2 & L3). rewrite EI in K. clear EI.
    apply bind_ok in K. destruct K as ([x1 it'] & K1 & K). apply Ok_inj in K.
    do 2 (apply pair_equal_spec in K; destruct K as [K ?]). subst x1 y it.
    destruct (e_brentq ev _ _ _ _ _ _) as [[x2 k]|e] eqn:EB.
    2:{ destruct e; discriminate K1. }
    cbn [der_reraise] in K1. apply Ok_inj in K1. apply pair_equal_spec in K1. destruct K1 as [-> ->].
    assert (HF : forall t, lo <= t <= hi -> @der_elliptic_equation XR (Fin sg) (Fin tau) M (Fin t) = Ok (Fin (T_ell sg M t - tau))).
    { intros t Ht. unfold der_elliptic_equation. rewrite der_tof_elliptic_F by (assumption || lra). reflexivity. }
    destruct (HB _ _ _ _ _ _ _ _ _ L2 HF EB) as (t & t' & -> & T1 & T2 & T3 & T4).
    exists t. split; [reflexivity|]. split; [reflexivity|]. split; [lra|]. right. exists t'. split; [lra|]. split; assumption. }
  destruct (for_range _ _ _ _) as [[r|]|st|e] eqn:EF; try exact (B H). clear B.
  apply Ok_inj in H. subst r.
  apply (for_range_inv _ (fun _ x => x = NaN \/ exists t, x = Fin t /\ -1 < t < 1)) in EF.
  - destruct EF as (j & t & _ & P & EF). unfold der_elliptic_body in EF. cbv zeta in EF.
    destruct P as [-> |(t' & -> & Ht)].
    + rewrite der_tof_elliptic_NaN in EF. change (@nleb XR (@nabs XR (@nsub XR NaN (Fin tau)))  _) with false in EF. cbv iota in EF.
      case_if EF; discriminate.
    + rewrite der_tof_elliptic_F in EF by assumption. destruct (@nleb XR _ _) eqn:EL in EF.
      * apply Break_inj in EF. injection EF as <- <- <-. exists t'. split; [reflexivity|]. split; [reflexivity|]. split; [assumption|]. left.
        apply xleb_F in EL. exact EL.
      * case_if EF; discriminate.
  - right. exists x0. auto.
  - intros j t t' _ P K. unfold der_elliptic_body in K. cbv zeta in K. case_if K; [discriminate|]. 
    destruct (@nleb XR _ _) eqn:E2 in K; [discriminate|]. apply Next_inj' in K; subst t'.
    match goal with |- ?u = NaN \/ _ => set (xn := u) in * end. clearbody xn. destruct xn as [xn|]; [right|left; reflexivity].
    exists xn. split; [reflexivity|]. apply xleb_Ff in E2. apply Rabs_def2 in E2. lra.
Qed.

Lemma solve_hyperbolic_run ev x0 mi x y it :
  brentq_brackets ev ->
  @der_solve_hyperbolic XR ev (Fin sg) (Fin tau) (Fin x0) mi (Fin at_) (Fin rt) = Ok (x, y, it) ->
  exists x', x = Fin x' /\ y = @der_y XR (Fin sg) x /\ accepted (fun x => 1 < x) (T_hyp sg) x'.
Proof.
  intros HB H. unfold der_solve_hyperbolic in H.
  assert (B : @der_solve_hyperbolic_bracketed XR ev (Fin sg) (Fin tau) mi (Fin at_) (Fin rt) = Ok (x, y, it) ->
    exists x', x = Fin x' /\ y = @der_y XR (Fin sg) x /\ accepted (fun x => 1 < x) (T_hyp sg) x').
  { clear H. unfold der_solve_hyperbolic_bracketed. intros K.
    destruct (while_true _ _ _) as [up|s'|e] eqn:EW; try discriminate.
    apply (while_true_inv _ (fun u => exists h, u = Fin h /\ 2 <= h)) in EW.
    - destruct EW as (t & (h & -> & Hh) & EW). cbv beta in EW. case_if EW; [discriminate|]. apply Break_inj in EW. subst up.
      apply bind_ok in K. destruct K as ([x1 it'] & K1 & K). apply Ok_inj in K.
      do 2 (apply pair_equal_spec in K; destruct K as [K ?]). subst x1 y it.
      destruct (e_brentq ev _ _ _ _ _ _) as [[x2 k]|e] eqn:EB.
      2:{ destruct e; discriminate K1. }
      cbn [der_reraise] in K1. apply Ok_inj in K1. apply pair_equal_spec in K1. destruct K1 as [-> ->].
      change (@nadd XR (nofZ 1) (@der_sqrt_eps XR)) with (Fin (1 + 1 / 67108864)) in EB.
      assert (L2 : 1 + 1 / 67108864 < h) by lra.
      assert (HF : forall t, 1 + 1 / 67108864 <= t <= h -> @Ok xr (@der_hyperbolic_equation XR (Fin sg) (Fin tau) (Fin t)) = Ok (Fin (T_hyp sg t - tau))).
      { intros t Ht. unfold der_hyperbolic_equation. rewrite der_tof_hyperbolic_F by (assumption || lra). reflexivity. }
      destruct (HB (fun x => Ok (@der_hyperbolic_equation XR (Fin sg) (Fin tau) x)) _ _ _ _ _ _ _ _ L2 HF EB) as (t & t' & -> & T1 & T2 & T3 & T4).
      exists t. split; [reflexivity|]. split; [reflexivity|]. split; [lra|]. right. exists t'. split; [lra|]. split; assumption.
    - exists 2. split; [reflexivity|lra].
    - intros u u' (h & -> & Hh) K'. case_if K'; [|discriminate]. apply Next_inj' in K'; subst u'. exists (h * 2). split; [reflexivity|lra]. }
  destruct (for_range _ _ _ _) as [[r|]|st|e] eqn:EF; try exact (B H). clear B.
  apply Ok_inj in H. subst r.
  apply (for_range_inv _ (fun _ x => exists t, x = Fin t /\ 1 < t)) in EF.
  - destruct EF as (j & t & _ & (t' & -> & Ht) & EF). unfold der_hyperbolic_body in EF. cbv zeta in EF.
    rewrite der_tof_hyperbolic_F in EF by assumption. destruct (@nleb XR _ _) eqn:EL in EF.
    * apply Break_inj in EF. injection EF as <- <- <-. exists t'. split; [reflexivity|]. split; [reflexivity|]. split; [assumption|]. left.
      apply xleb_F in EL. exact EL.
    * destruct (der_hyperbolic_derivatives _ _ _). case_if EF; discriminate.
  - unfold pymax. destruct (@nltb XR _ _) eqn:E.
    + exists (x0 + 1). split; [reflexivity|]. apply xltb_F in E. lra.
    + exists (11 / 10). split; [reflexivity|lra].
  - intros j t t' _ P K. unfold der_hyperbolic_body in K. cbv zeta in K. case_if K; [discriminate|].
    destruct (der_hyperbolic_derivatives _ _ _). case_if K; [discriminate|]. apply Next_inj' in K; subst t'.
    match goal with |- context [pymax _ ?u] => set (xn := u) in * end. clearbody xn.
    change (@nadd XR (nofZ 1) (@der_eps XR)) with (Fin (1 + 1 / 4503599627370496)). unfold pymax.
    destruct (@nltb XR _ _) eqn:E.
    + destruct xn as [xn|]; [|discriminate E]. apply xltb_F in E. exists xn. split; [reflexivity|lra].
    + eexists. split; [reflexivity|lra].
Qed.
End Run.

(** ** C47 *)
Lemma tau_val mu r1 r2 t : 0 < mu -> non_collinear r1 r2 ->
  @der_normalized_time XR (Fin mu) (Fin (vnorm r1 + vnorm r2 + chord r1 r2)) (Fin t) =
    Fin (sqrt (2 * mu / (semiper r1 r2 * semiper r1 r2 * semiper r1 r2)) * t).
Proof.
  intros Hm Hn. destruct (semiper_pos _ _ Hn) as [S0 S1].
  replace (vnorm r1 + vnorm r2 + chord r1 r2) with (2 * semiper r1 r2) by (unfold semiper; field). set (s := semiper r1 r2) in *.
  assert (0 < s * s * s) by (apply Rmult_lt_0_compat; nra).
  unfold der_normalized_time, cube. xunf. cbn [xmul xlift2]. rewrite xdiv_F by nra.
  assert (0 < mu / (2 * s * (2 * s) * (2 * s))) by (apply Rdiv_lt_0_compat; nra).
  rewrite xsqrt_F by lra. cbn [xmul xlift2]. apply (f_equal Fin).
  replace (2 * mu / (s * s * s)) with ((4 * 4) * (mu / (2 * s * (2 * s) * (2 * s)))) by (field; lra).
  rewrite sqrt_mult, sqrt_square by lra. ring.
Qed.

(** The motion of the velocities rebuilt from [x], and its duration. *)
Lemma der_motion mu p r1 r2 sg x v1 v2 M :
  non_collinear r1 r2 -> 0 < mu -> lambda_facts p r1 r2 sg -> (0 <= M)%Z -> izzo_domain M x ->
  let y := sqrt (1 - sg * sg * (1 - x * x)) in
  fg_pair mu r1 r2 (sqrt 2 * semiper r1 r2 * sg) (semiper r1 r2 * ((y - sg * x) * (y - sg * x))) v1 v2 ->
  energy mu r1 v1 = - mu * (1 - x * x) / semiper r1 r2 /\
  exists T, lambert_solution mu r1 v1 r2 v2 T M /\
    izzo_T sg M x = sqrt (2 * mu / (semiper r1 r2 * semiper r1 r2 * semiper r1 r2)) * T.
Proof.
  intros Hn Hm LF HM HD y FG. pose proof (lambda_bounds _ _ _ _ Hn LF) as Hl.
  destruct (Y_facts sg Hl x) as [Y0 Y1]. fold y in Y0, Y1.
  destruct (xy_lambert mu p r1 r2 sg x y v1 v2 Hn Hm LF (Rlt_le _ _ Y0) Y1 FG) as [HE HT]. split; [exact HE|].
  destruct HD as (D1 & D2 & D3).
  destruct (HT M 0 HM D1 D3) as (T & L & ET). exists T. split; [exact L|].
  destruct (izzo_T_F sg M Hl x) as [EI _]; [now repeat split|]. unfold izzo_tof in EI. rewrite izzo_y_F in EI by assumption. fold y in EI.
  rewrite EI in ET. apply Fin_inj in ET. rewrite ET. ring.
Qed.

Lemma der_motion_exists mu p r1 r2 sg x M :
  non_collinear r1 r2 -> 0 < mu -> lambda_facts p r1 r2 sg -> (0 <= M)%Z -> izzo_domain M x ->
  exists v1 v2 T, lambert_solution mu r1 v1 r2 v2 T M /\ energy mu r1 v1 = - mu * (1 - x * x) / semiper r1 r2 /\
    izzo_T sg M x = sqrt (2 * mu / (semiper r1 r2 * semiper r1 r2 * semiper r1 r2)) * T.
Proof.
  intros Hn Hm LF HM HD. pose proof (lambda_bounds _ _ _ _ Hn LF) as Hl.
  set (y := sqrt (1 - sg * sg * (1 - x * x))). destruct (Y_facts sg Hl x) as [Y0 Y1]. fold y in Y0, Y1.
  pose proof (xy_eta sg x y Hl (Rlt_le _ _ Y0) Y1) as He. destruct (semiper_pos _ _ Hn) as [S0 _].
  set (A := sqrt 2 * semiper r1 r2 * sg). set (V := semiper r1 r2 * ((y - sg * x) * (y - sg * x))).
  assert (FG : fg_pair mu r1 r2 A V (vmult (/ (A * sqrt V / sqrt mu)) (vminus r2 (vmult (1 - V / vnorm r1) r1)))
    (vmult (/ (A * sqrt V / sqrt mu)) (vminus (vmult (1 - V / vnorm r2) r2) r1))).
  { split; try reflexivity; [apply (lambda_A p); assumption|]. unfold V. apply Rmult_lt_0_compat; [assumption|]. now apply Rmult_lt_0_compat. }
  destruct (der_motion mu p r1 r2 sg x _ _ M Hn Hm LF HM HD FG) as (E & T & L & ET). eauto 8.
Qed.

(** Away from the parabola every pair of velocities that der2011 returns belongs
    to a two-body motion from [r1] to [r2] with the requested number of
    revolutions.  Its duration is within the tolerance of [tof], both measured
    in the solver's unit of time.  Or the bracketing search was used: then
    there is another such motion, with a path parameter [x] that differs by no
    more than the tolerance, and [tof] lies between both durations.  ([x]
    determines the energy and is measured from the minimum-energy ellipse,
    [x = 0], to the parabola, [x = 1].) *)
Theorem C47_der_solves_lambert :
  forall ev mu r1 r2 tof M prograde low_path maxiter atol rtol full_output o v1 v2,
  brentq_brackets ev -> non_collinear r1 r2 ->
  (M = 0%Z -> ~ near_parabolic mu prograde r1 r2 tof atol rtol) ->
  @run XR Der ev (call mu r1 r2 tof M prograde low_path maxiter atol rtol full_output) = Ok o ->
  delivers o v1 v2 ->
  let s := (vnorm r1 + vnorm r2 + vnorm (vminus r2 r1)) / 2 in
  let rate := sqrt (2 * mu / (s * s * s)) in
  exists T, lambert_solution mu r1 v1 r2 v2 T M /\
    (Rabs (rate * T - rate * tof) <= atol + rtol * (rate * tof) \/
     exists x x' w1 w2 T', lambert_solution mu r1 w1 r2 w2 T' M /\
       energy mu r1 v1 = - mu * (1 - x * x) / s /\ energy mu r1 w1 = - mu * (1 - x' * x') / s /\
       Rabs (x - x') <= atol + rtol * Rabs x /\ (T <= tof <= T' \/ T' <= tof <= T)).
Proof.
  intros ev mu r1 r2 tof M p l mi at_ rt fo o v1 v2 HB Hn NP H D s rate. cbn [run] in H.
  unfold der2011 in H. enter H.
  destruct (transfer_angle r1 r2 p Hn) as (th & ET & F). rewrite ET in H.
  do 2 skip_check H. fold (chord r1 r2) in H.
  change (@nadd XR (@nadd XR (Fin (vnorm r1)) (Fin (vnorm r2))) (Fin (chord r1 r2)))
    with (Fin (vnorm r1 + vnorm r2 + chord r1 r2)) in H.
  change (@nsub XR (@nadd XR (Fin (vnorm r1)) (Fin (vnorm r2))) (Fin (chord r1 r2)))
    with (Fin (vnorm r1 + vnorm r2 - chord r1 r2)) in H.
  destruct (der_sigma_F p r1 r2 th Hn F) as (sg & ES & S2 & Sr & Sd). rewrite ES in H.
  do 2 skip_check H.
  apply bind_ok in H. destruct H as ([[x y] it] & EX & H).
  pose proof (der_lambda p r1 r2 sg Hn S2 Sr Sd) as LF.
  change s with (semiper r1 r2) in *. clear s. destruct (semiper_pos _ _ Hn) as [S0 _].
  unfold der_find_path_parameter in EX.
  assert (NP' : (M =? 0)%Z && @np_isclose XR
       (@der_normalized_time XR (Fin mu) (Fin (vnorm r1 + vnorm r2 + chord r1 r2)) (Fin tof))
       (@der_parabolic_time XR (Fin sg)) (Fin rt) (Fin at_) = false).
  { destruct (Z.eqb_spec M 0) as [E|E]; [|reflexivity]. cbn [andb].
    destruct (np_isclose _ _ _ _) eqn:EN; [|reflexivity]. exfalso.
    apply (NP E). apply (der_parabolic_iff mu p r1 r2 tof at_ rt sg); assumption. }
  rewrite NP' in EX. clear NP NP'. rewrite tau_val in EX by assumption. fold rate in EX.
  assert (R0 : 0 < rate) by (apply sqrt_lt_R0, Rdiv_lt_0_compat; [lra|]; apply Rmult_lt_0_compat; nra).
  assert (G : exists x' y' , x = Fin x' /\ y = @der_y XR (Fin sg) x /\ izzo_domain M x' /\ accepted (rate * tof) at_ rt (izzo_domain M) (izzo_T sg M) x' /\ y' = 0).
  { assert (Hl := lambda_bounds _ _ _ _ Hn LF).
    assert (E1 : forall x, -1 < x < 1 -> izzo_domain M x /\ izzo_T sg M x = T_ell sg M x).
    { intros u Hu. assert (Du : izzo_domain M u) by (repeat split; try lra; right; lra). split; [exact Du|].
      destruct (izzo_T_F sg M Hl u Du) as [_ ->]. destruct (Rlt_dec u 1); [reflexivity|lra]. }
    destruct (_ || _) eqn:EE in EX.
    - assert (X0 : exists x0, -1 < x0 < 1 /\ @der_solve_elliptic XR ev (Fin sg) (Fin (rate * tof)) M (Fin x0) mi (Fin at_) (Fin rt) = Ok (x, y, it)).
      { destruct (M =? 0)%Z.
        - destruct (_ && _) in EX; [exists (- (1 / 2))|exists (1 / 2)]; (split; [lra|]); exact EX.
        - destruct l; [exists (1 / 2)|exists (- (1 / 2))]; (split; [lra|]); exact EX. }
      destruct X0 as (x0 & B0 & EX'). destruct (solve_elliptic_run sg (rate * tof) M at_ rt Sr ev x0 mi x y it HB B0 EX') as (x' & -> & Ey & A1 & A2).
      exists x', 0. split; [reflexivity|]. split; [exact Ey|]. destruct (E1 x' A1) as [D1 T1]. split; [exact D1|]. split; [|reflexivity]. split; [exact D1|].
      rewrite T1. destruct A2 as [A2|(x2 & B1 & B2 & B3)]; [left; exact A2|right]. exists x2. destruct (E1 x2 B1) as [D2 T2]. split; [exact D2|]. split; [exact B2|]. rewrite T2. exact B3.
    - assert (M0 : M = 0%Z). { apply orb_false_iff in EE. destruct EE as [EE _]. apply Z.ltb_ge in EE. lia. }
      subst M. cbn [Z.eqb andb] in EX.
      change (@der_solve_hyperbolic XR ev (Fin sg) (Fin (rate * tof)) (Fin (1 / 2)) mi (Fin at_) (Fin rt) = Ok (x, y, it)) in EX.
      destruct (solve_hyperbolic_run sg (rate * tof) at_ rt Sr ev (1 / 2) mi x y it HB EX) as (x' & -> & Ey & A1 & A2).
      assert (E2 : forall x, 1 < x -> izzo_domain 0 x /\ izzo_T sg 0 x = T_hyp sg x).
      { intros u Hu. assert (Du : izzo_domain 0 u) by (repeat split; try lra; left; reflexivity). split; [exact Du|].
        destruct (izzo_T_F sg 0 Hl u Du) as [_ ->]. destruct (Rlt_dec u 1); [lra|reflexivity]. }
      exists x', 0. split; [reflexivity|]. split; [exact Ey|]. destruct (E2 x' A1) as [D1 T1]. split; [exact D1|]. split; [|reflexivity]. split; [exact D1|].
      rewrite T1. destruct A2 as [A2|(x2 & B1 & B2 & B3)]; [left; exact A2|right]. exists x2. destruct (E2 x2 B1) as [D2 T2]. split; [exact D2|]. split; [exact B2|]. rewrite T2. exact B3. }
  destruct G as (x' & _ & -> & -> & HD & (_ & HA) & _). clear EX.
  finish H D.
  destruct (der_motion mu p r1 r2 sg x' v1 v2 M Hn Hmu LF HM HD) as (HE & T & L & EI).
  { apply (der_velocities_fg mu p); assumption. }
  fold rate in EI. exists T. split; [exact L|]. rewrite EI in HA.
  destruct HA as [HA|(x2 & D2 & X1 & X2)].
  - left. rewrite (Rabs_right (rate * tof)) in HA by nra. exact HA.
  - right. destruct (der_motion_exists mu p r1 r2 sg x2 M Hn Hmu LF HM D2) as (w1 & w2 & T' & L' & HE' & EI'). fold rate in EI'.
    exists x', x2, w1, w2, T'. split; [exact L'|]. split; [exact HE|]. split; [exact HE'|]. split; [exact X1|]. rewrite EI' in X2.
    replace ((rate * T - rate * tof) * (rate * T' - rate * tof)) with ((rate * rate) * ((T - tof) * (T' - tof))) in X2 by ring.
    assert (X3 : (T - tof) * (T' - tof) <= 0).
    { apply Rnot_lt_le. intros X3. assert (0 < rate * rate * ((T - tof) * (T' - tof))) by (apply Rmult_lt_0_compat; [now apply Rmult_lt_0_compat|exact X3]). lra. }
    destruct (Rle_dec T tof) as [U|U]; destruct (Rle_dec tof T') as [W|W]; [left; lra| | |right; lra].
    + right. destruct (Req_dec T tof); [lra|]. exfalso. nra.
    + right. destruct (Req_dec T' tof); [lra|]. exfalso. nra.
Qed.
Print Assumptions C47_der_solves_lambert.

(** ** C27 for der2011 *)
Section Deriv.
Variables (sg : R) (M : Z).
Hypothesis Hs : 0 < sg * sg < 1.
Let Y (x : R) : R := sqrt (1 - sg * sg * (1 - x * x)).

Lemma der_prime_F x t : -1 < x < 1 ->
  @der_tof_elliptic_prime XR (Fin sg) (Fin x) (@der_y XR (Fin sg) (Fin x)) (Fin t) =
    Fin ((3 * x * t - 2 * (1 - sg * sg * sg * x / (sgn sg * Y x))) / (1 - x * x)).
Proof.
  intros H. rewrite der_y_val by assumption. fold (Y x). destruct (Yf sg Hs x) as [P _]. fold (Y x) in P.
  assert (W : sgn sg * Y x <> 0) by (destruct (sgn_cases sg Hs) as [[-> ?]|[-> ?]]; lra).
  unfold der_tof_elliptic_prime, cube, sq. xunf. cbn [xmul xsub xlift2]. rewrite xdiv_F by assumption. cbn [xmul xsub xlift2]. rewrite xdiv_F by nra. reflexivity.
Qed.

Lemma der_second_F x t : -1 < x < 1 -> x <> 0 ->
  @der_tof_elliptic_second XR (Fin sg) (Fin x) (@der_y XR (Fin sg) (Fin x)) (Fin t) =
    Fin (((1 + 4 * (x * x)) * t + 2 * (1 - sg ^ 5 * (x * x * x) / (sgn sg * Y x * (sgn sg * Y x) * (sgn sg * Y x)))) / (x * (1 - x * x))).
Proof.
  intros H H0. rewrite der_y_val by assumption. fold (Y x). destruct (Yf sg Hs x) as [P _]. fold (Y x) in P.
  assert (W : sgn sg * Y x <> 0) by (destruct (sgn_cases sg Hs) as [[-> ?]|[-> ?]]; lra).
  set (wy := sgn sg * Y x) in *. clearbody wy.
  unfold der_tof_elliptic_second. unfold nneqb. replace (@neqb XR (Fin x) (nofZ 0)) with false by (symmetry; apply xeqb_Ff; assumption). cbn [negb].
  unfold npown, cube, sq. cbn [Nat.iter nat_rect]. xunf. cbn [xmul xsub xadd xlift2].
  rewrite xdiv_F by (repeat apply Rmult_integral_contrapositive_currified; assumption). cbn [xmul xsub xadd xlift2].
  rewrite xdiv_F by (apply Rmult_integral_contrapositive_currified; [assumption|nra]). apply (f_equal Fin). unfold Rdiv. f_equal. ring.
Qed.
End Deriv.

(** For transfers by less than half a turn ([0 < sigma]) the two formulas are
    the first two derivatives of the time equation (the second one at every
    [x <> 0]). *)
Theorem C27_der_derivatives : forall (sigma : R) (M : Z), 0 < sigma < 1 ->
  exists T T' T'' : R -> R, forall x : R, -1 < x < 1 ->
    let y := @der_y XR (Fin sigma) (Fin x) in
    @der_tof_elliptic XR (Fin sigma) (Fin x) y M = Fin (T x) /\
    @der_tof_elliptic_prime XR (Fin sigma) (Fin x) y (Fin (T x)) = Fin (T' x) /\
    (x <> 0 -> @der_tof_elliptic_second XR (Fin sigma) (Fin x) y (Fin (T' x)) = Fin (T'' x)) /\
    is_derive T x (T' x) /\ is_derive T' x (T'' x).
Proof.
  intros sg M H. assert (Hs : 0 < sg * sg < 1) by nra. assert (Hl : -1 < sg < 1) by lra.
  exists (izzo_T sg M), (d1 sg M), (d2 sg M). intros x Hx y. unfold y.
  assert (D : izzo_domain M x) by (split; [lra|split; [lra|right; lra]]).
  assert (EW : sgn sg = 1) by (destruct (sgn_cases sg Hs) as [[? ?]|[? ?]]; [assumption|lra]).
  destruct (Yf sg Hs x) as [P E]. assert (Q : 0 < 1 - x * x) by nra.
  split; [|split; [|split; [|split]]].
  - rewrite der_tof_elliptic_F by assumption. apply (f_equal Fin). destruct (izzo_T_F sg M Hl x D) as [_ ->]. destruct (Rlt_dec x 1); [reflexivity|lra].
  - rewrite der_prime_F by assumption. rewrite EW. apply (f_equal Fin). unfold d1, T1. set (Y := sqrt _) in *. field. split; lra.
  - intros Hx0. rewrite der_second_F by assumption. rewrite EW. apply (f_equal Fin).
    assert (S : x * (1 - x * x) * d2 sg M x = (1 + 4 * (x * x)) * d1 sg M x + 2 * (1 - sg ^ 5 * (x * x * x) / (sqrt (1 - sg * sg * (1 - x * x)) * sqrt (1 - sg * sg * (1 - x * x)) * sqrt (1 - sg * sg * (1 - x * x))))).
    { unfold d2, T2, d1, T1. set (t := izzo_T sg M x). set (y' := sqrt _) in *. clearbody y' t.
      assert (Hy2 : y' * y' = 1 - sg * sg * (1 - x * x)) by lra. field [Hy2]. split; lra. }
    rewrite !Rmult_1_l, <- S. field. split; lra.
  - apply izzo_T_derive; assumption.
  - apply d1_derive; assumption.
Qed.
Print Assumptions C27_der_derivatives.

(** For transfers by more than half a turn ([sigma < 0]) neither formula gives
    the derivative: [_compute_y] returns the negative root, but the cubes and
    fifth powers of [sigma] are the ones for the positive root (der.py:305,
    312-314).  The second formula is wrong even when it is given the right first
    derivative. *)
Theorem C27_der_derivatives_refuted : forall (sigma : R) (M : Z), -1 < sigma < 0 ->
  exists T T' T'' : R -> R, forall x : R, -1 < x < 1 -> x <> 0 ->
    let y := @der_y XR (Fin sigma) (Fin x) in
    @der_tof_elliptic XR (Fin sigma) (Fin x) y M = Fin (T x) /\
    is_derive T x (T' x) /\ is_derive T' x (T'' x) /\
    @der_tof_elliptic_prime XR (Fin sigma) (Fin x) y (Fin (T x)) <> Fin (T' x) /\
    @der_tof_elliptic_second XR (Fin sigma) (Fin x) y (Fin (T' x)) <> Fin (T'' x).
Proof.
  intros sg M H. assert (Hs : 0 < sg * sg < 1) by nra. assert (Hl : -1 < sg < 1) by lra.
  exists (izzo_T sg M), (d1 sg M), (d2 sg M). intros x Hx Hx0 y. unfold y.
  assert (D : izzo_domain M x) by (split; [lra|split; [lra|right; lra]]).
  assert (EW : sgn sg = -1) by (destruct (sgn_cases sg Hs) as [[? ?]|[? ?]]; [lra|assumption]).
  destruct (Yf sg Hs x) as [P E]. assert (Q : 0 < 1 - x * x) by nra.
  split; [|split; [|split; [|split]]].
  - rewrite der_tof_elliptic_F by assumption. apply (f_equal Fin). destruct (izzo_T_F sg M Hl x D) as [_ ->]. destruct (Rlt_dec x 1); [reflexivity|lra].
  - apply izzo_T_derive; assumption.
  - apply d1_derive; assumption.
  - rewrite der_prime_F by assumption. rewrite EW. intros K. apply Fin_inj in K. unfold d1, T1 in K. set (Y := sqrt _) in *.
    assert (K' : 4 * (sg * sg * sg * x) = 0).
    { transitivity ((1 - x * x) * Y * ((3 * izzo_T sg M x * x - 2 + 2 * (sg * sg * sg) * x / Y) / (1 - x * x) - (3 * x * izzo_T sg M x - 2 * (1 - sg * sg * sg * x / (-1 * Y))) / (1 - x * x))); [field; split; lra|].
      rewrite K. ring. }
    apply Rmult_integral in K'. destruct K' as [K'|K']; [lra|]. apply Rmult_integral in K'. destruct K' as [K'|K']; [|lra].
    apply Rmult_integral in K'. destruct K' as [K'|K']; [|lra]. lra.
  - rewrite der_second_F by assumption. rewrite EW. intros K. apply Fin_inj in K.
    assert (S : x * (1 - x * x) * d2 sg M x = (1 + 4 * (x * x)) * d1 sg M x + 2 * (1 - sg ^ 5 * (x * x * x) / (sqrt (1 - sg * sg * (1 - x * x)) * sqrt (1 - sg * sg * (1 - x * x)) * sqrt (1 - sg * sg * (1 - x * x))))).
    { unfold d2, T2, d1, T1. set (t := izzo_T sg M x). set (y' := sqrt _) in *. clearbody y' t.
      assert (Hy2 : y' * y' = 1 - sg * sg * (1 - x * x)) by lra. field [Hy2]. split; lra. }
    rewrite <- K in S. set (Y := sqrt _) in *. set (a := d1 sg M x) in *. clearbody a Y.
    assert (K' : 4 * (sg ^ 5 * (x * x * x)) = 0).
    { transitivity (Y * Y * Y * (x * (1 - x * x) * (((1 + 4 * (x * x)) * a + 2 * (1 - sg ^ 5 * (x * x * x) / (-1 * Y * (-1 * Y) * (-1 * Y)))) / (x * (1 - x * x))) - ((1 + 4 * (x * x)) * a + 2 * (1 - sg ^ 5 * (x * x * x) / (Y * Y * Y))))); [field; repeat split; lra|].
      rewrite S. ring. }
    assert (N1 : sg ^ 5 <> 0) by (apply pow_nonzero; lra). assert (N2 : x * x * x <> 0) by (repeat apply Rmult_integral_contrapositive_currified; assumption).
    apply Rmult_integral in K'. destruct K' as [K'|K']; [lra|]. apply Rmult_integral in K'. tauto.
Qed.
Print Assumptions C27_der_derivatives_refuted.

Example C27_der_case : 0 < 1 / 2 < 1 /\ -1 < - (1 / 2) < 0 /\ -1 < 1 / 3 < 1 /\ 1 / 3 <> 0.
Proof. repeat split; lra. Qed.
