(** * arora2013 solves Lambert's problem: C14. *)
From Coq Require Import String ZArith List Bool Lia Reals Lra Psatz.
From Coquelicot Require Import Rcomplements.
From Verif Require Import Num XReal XRealLemmas MApi ApiFacts Loops MLinalg MScipy MArora MInit MAssertions
  Spec SpecLambert VecFacts VecXR CallXR Godal GodalXR GodalMore OrbitXR UniversalKepler LambertUV LambertRev LambertZ DelatorreXR AroraW
  PropertiesAngles PropertiesMotion PropertiesFlags PropertiesOrbit.
Local Open Scope R_scope.

Lemma aro_sq2_F : @aro_sq2 XR = Fin (sqrt 2).
Proof. unfold aro_sq2. apply xsqrt_F. lra. Qed.

Lemma aro_W_series_F k : @aro_W_series XR (Fin k) = Fin (Wser k).
Proof.
  unfold aro_W_series. rewrite aro_sq2_F. xunf. rewrite xsqrt_F by lra. rewrite !xdiv_F by lra.
  cbn [npown]. cbn [nmul XR xmul xsub xadd xlift2]. unfold Wser. reflexivity.
Qed.

Lemma xsign_cases k : exists g, @nsign XR (Fin k) = Fin g /\ (0 < k -> g = 1) /\ (k = 0 -> g = 0) /\ (k < 0 -> g = -1).
Proof.
  unfold nsign. xunf. destruct (xltb (Fin 0) (Fin k)) eqn:E1.
  - apply xltb_F in E1. exists 1. repeat split; lra.
  - apply xltb_Ff in E1. destruct (xltb (Fin k) (Fin 0)) eqn:E2.
    + apply xltb_F in E2. exists (-1). repeat split; lra.
    + apply xltb_Ff in E2. destruct (xeqb (Fin k) (Fin 0)) eqn:E3.
      * exists 0. repeat split; lra.
      * apply xeqb_Ff in E3. lra.
Qed.

(** Every value of W accepted by the code is, up to the truncation of the
    series, that of an orbit with [sqrt 2 * C0 z = k]. *)
Lemma aro_W_true k M W : (0 <= M)%Z ->
  @aro_W XR (Fin k) M = Ok (Fin W) ->
  exists z Wt M', z < PI * PI /\ sqrt 2 * C0 z = k /\ (k < sqrt 2 -> 0 < z) /\
    (M' <> 0%Z -> 0 < z) /\ (M' = if Rlt_dec k (sqrt 2) then M else 0%Z) /\
    (Wt <> W -> Rabs (k - sqrt 2) <= 1 / 50) /\ Rabs (Wt - W) <= 1 / 10 ^ 17 /\
    forall mu A V, 0 < mu -> 0 < V -> tz mu A V z M' = (V * sqrt V * Wt + A * sqrt V) / sqrt mu.
Proof.
  intros HM H. destruct sqrt2_facts as [W1 W2].
  assert (HE : forall s, 0 < s < PI -> k = sqrt 2 * cos s ->
    let z := s * s in z < PI * PI /\ sqrt 2 * C0 z = k /\ (k < sqrt 2 -> 0 < z) /\ (M <> 0%Z -> 0 < z) /\
    (M = if Rlt_dec k (sqrt 2) then M else 0%Z) /\
    forall mu A V, 0 < mu -> 0 < V -> tz mu A V z M =
      (V * sqrt V * ((2 * s - sin (2 * s) + 2 * PI * IZR M) / (2 * sqrt 2 * (sin s * sin s * sin s))) + A * sqrt V) / sqrt mu).
  { intros s Hs Hk z. assert (0 < sin s) by (apply sin_gt_0; lra). pose proof (sin2_cos2 s) as SC. unfold Rsqr in SC.
    assert (cos s < 1) by nra. unfold z. rewrite C0_ell by lra. split; [nra|]. split; [lra|]. split; [nra|]. split; [nra|].
    split; [destruct (Rlt_dec k (sqrt 2)); [reflexivity|exfalso; nra]|].
    intros mu A V Hmu HV. rewrite tz_ell by assumption. unfold Rdiv. ring. }
  assert (HH : forall s, 0 < s -> k = sqrt 2 * cosh s ->
    let z := - (s * s) in z < PI * PI /\ sqrt 2 * C0 z = k /\ (k < sqrt 2 -> 0 < z) /\ (0%Z <> 0%Z -> 0 < z) /\
    (0%Z = if Rlt_dec k (sqrt 2) then M else 0%Z) /\
    forall mu A V, 0 < mu -> 0 < V -> tz mu A V z 0 =
      (V * sqrt V * ((sinh (2 * s) - 2 * s) / (2 * sqrt 2 * (sinh s * sinh s * sinh s))) + A * sqrt V) / sqrt mu).
  { intros s Hs Hk z. pose proof (cosh_ge_1 s). pose proof PI_RGT_0. unfold z. rewrite C0_hyp by lra. split; [nra|]. split; [lra|].
    split; [nra|]. split; [congruence|]. split; [destruct (Rlt_dec k (sqrt 2)); [exfalso; nra|reflexivity]|].
    intros mu A V Hmu HV. rewrite tz_hyp by assumption. unfold Rdiv. ring. }
  unfold aro_W in H. rewrite aro_sq2_F in H. cbv zeta in H.
  destruct (orb _ _) eqn:B1.
  - (* ellipse *)
    apply ok_inj in H.
    assert (K : - sqrt 2 <= k < sqrt 2).
    { clear H. apply orb_true_iff in B1. destruct B1 as [B1|B1]; [|apply andb_true_iff in B1; destruct B1 as [_ B1]];
      apply andb_true_iff in B1; destruct B1 as [B1 B2]; unfold aro_eps in *; xunf; cbn [xopp xsub xlift2 xlift1] in B1, B2;
      apply xleb_F in B1; apply xltb_F in B2; lra. }
    unfold aro_W_elliptic in H. destruct (xsign_cases k) as (g & EG & G1 & G0 & G2). rewrite EG in H. cbv zeta in H.
    assert (K2 : 2 - k * k <> 0 /\ W = ((1 - g) * PI + g * acos (1 - (2 - k * k)) + 2 * PI * IZR M) / sqrt ((2 - k * k) * (2 - k * k) * (2 - k * k)) - k / (2 - k * k)).
    { clear - H K W1 W2. unfold sq, cube in H. xunf. cbn [xmul xsub xadd xlift2] in H. rewrite xacos_F in H by nra.
      cbn [xmul xsub xadd xlift2] in H. xinv. subst. split; [assumption|reflexivity]. }
    destruct K2 as [K2 EW].
    destruct (C0_onto (k / sqrt 2)) as [(s & Hs & E & L)|[E|(s & Hs & E & L)]].
    + apply Rmult_lt_reg_r with (sqrt 2); [assumption|]. unfold Rdiv. rewrite Rmult_assoc, Rinv_l by lra.
      destruct (proj1 K) as [|E]; [lra|]. exfalso. apply K2. rewrite <- E. lra.
    + assert (Ek : k = sqrt 2 * cos s) by (rewrite <- E; field; lra).
      destruct (HE s Hs Ek) as (A1 & A2 & A3 & A4 & A5 & A6). exists (s * s). eexists _, M.
      split; [exact A1|]. split; [exact A2|]. split; [exact A3|]. split; [exact A4|]. split; [exact A5|].
      rewrite <- (W_closed_ell k s M Hs Ek g G1 G0 G2) in A6. rewrite <- EW in A6.
      split; [|split; [|exact A6]]; [intros Z; exfalso; now apply Z|]. rewrite Rminus_diag_eq, Rabs_R0 by reflexivity. lra.
    + exfalso. assert (k = sqrt 2) by (apply Rmult_eq_reg_r with (/ sqrt 2); [rewrite Rinv_r by lra; exact E|apply Rinv_neq_0_compat; lra]). lra.
    + exfalso. assert (k = sqrt 2 * (k / sqrt 2)) by (field; lra). nra.
  - match type of H with (if ?b then _ else _) = _ => destruct b eqn:B2 end.
    + (* hyperbola *)
      apply ok_inj in H. assert (K : sqrt 2 < k).
      { clear H. unfold aro_eps in *; xunf; cbn [xopp xsub xadd xlift2 xlift1] in B2. apply xltb_F in B2. lra. }
      unfold aro_W_hyperbolic in H. cbv zeta in H.
      assert (EW : W = - arcosh (1 - (2 - k * k)) / sqrt (- ((2 - k * k) * (2 - k * k) * (2 - k * k))) - k / (2 - k * k)).
      { clear - H K W1 W2. unfold sq, cube in H. xunf. cbn [xmul xsub xadd xopp xlift1 xlift2] in H. rewrite xacosh_F in H by nra.
        cbn [xmul xsub xadd xopp xlift1 xlift2] in H. xinv. subst. reflexivity. }
      assert (C1 : 1 < k / sqrt 2).
      { apply Rmult_lt_reg_r with (sqrt 2); [assumption|]. unfold Rdiv. rewrite Rmult_assoc, Rinv_l by lra. lra. }
      destruct (C0_onto (k / sqrt 2)) as [(s & Hs & E & L)|[E|(s & Hs & E & L)]]; try (exfalso; lra); [lra|].
      assert (Ek : k = sqrt 2 * cosh s) by (rewrite <- E; field; lra).
      destruct (HH s Hs Ek) as (A1 & A2 & A3 & A4 & A5 & A6). exists (- (s * s)). eexists _, 0%Z.
      split; [exact A1|]. split; [exact A2|]. split; [exact A3|]. split; [exact A4|]. split; [exact A5|].
      rewrite <- (W_closed_hyp k s Hs Ek) in A6. rewrite <- EW in A6.
      split; [|split; [|exact A6]]; [intros Z; exfalso; now apply Z|]. rewrite Rminus_diag_eq, Rabs_R0 by reflexivity. lra.
    + match type of H with (if ?b then _ else _) = _ => destruct b eqn:B3 end; [|discriminate]. apply ok_inj in H. rewrite aro_W_series_F in H. apply Fin_inj in H. subst W.
      apply andb_true_iff in B3. destruct B3 as [B3 B4]. apply Z.eqb_eq in B3. subst M.
      assert (K : Rabs (k - sqrt 2) <= 1 / 50).
      { apply andb_true_iff in B4. destruct B4 as [B4 B5]. unfold aro_eps in *; xunf; cbn [xopp xsub xadd xlift2 xlift1] in B4, B5.
        apply xleb_F in B4, B5. apply Rabs_le. lra. }
      assert (K' : 7 / 5 - 1 / 50 < k) by (apply Rabs_le_between in K; assert (7 / 5 < sqrt 2) by nra; lra).
      destruct (C0_onto (k / sqrt 2)) as [(s & Hs & E & L)|[E|(s & Hs & E & L)]].
      * assert (0 < k / sqrt 2) by (apply Rdiv_lt_0_compat; lra). lra.
      * assert (Ek : k = sqrt 2 * cos s) by (rewrite <- E; field; lra).
        destruct (HE s Hs Ek) as (A1 & A2 & A3 & A4 & A5 & A6). exists (s * s). eexists _, 0%Z.
        split; [exact A1|]. split; [exact A2|]. split; [exact A3|]. split; [exact A4|]. split; [exact A5|].
        split; [|split; [|exact A6]]; [intros _; exact K|]. rewrite Rmult_0_r, Rplus_0_r. rewrite Ek in *. apply W_ell_err; [|exact K].
        split; [lra|]. destruct (Rlt_dec s (PI / 2)) as [|N]; [assumption|exfalso].
        assert (cos s <= 0) by (apply cos_le_0; lra). nra.
      * assert (Ek : k = sqrt 2).
        { apply Rmult_eq_reg_r with (/ sqrt 2); [rewrite Rinv_r by lra; exact E|apply Rinv_neq_0_compat; lra]. }
        exists 0, (sqrt 2 / 3), 0%Z. pose proof PI_RGT_0. destruct at_0 as (-> & _ & _). split; [nra|]. split; [lra|]. split; [lra|]. split; [congruence|].
        split; [destruct (Rlt_dec _ _); reflexivity|]. split; [intros _; exact K|]. split.
        -- replace (sqrt 2 / 3 - Wser k) with 0; [rewrite Rabs_R0; lra|]. rewrite Ek. unfold Wser. cbv zeta. field.
        -- intros mu A V Hmu HV. rewrite tz_par by assumption. unfold Rdiv. ring.
      * assert (Ek : k = sqrt 2 * cosh s) by (rewrite <- E; field; lra).
        destruct (HH s Hs Ek) as (A1 & A2 & A3 & A4 & A5 & A6). exists (- (s * s)). eexists _, 0%Z.
        split; [exact A1|]. split; [exact A2|]. split; [exact A3|]. split; [exact A4|]. split; [exact A5|].
        split; [|split; [|exact A6]]; [intros _; exact K|]. rewrite Ek in *. apply W_hyp_err; assumption.
Qed.

Lemma C0_gt z : z < PI * PI -> -1 < C0 z.
Proof.
  intros Hz. destruct (Rtotal_order z 0) as [L|[L|L]].
  - destruct (sqrt_facts (- z)) as [S1 S2]; [lra|]. replace z with (- (sqrt (- z) * sqrt (- z))) by lra.
    rewrite C0_hyp by assumption. pose proof (cosh_ge_1 (sqrt (- z))). lra.
  - rewrite L. destruct at_0 as [-> _]. lra.
  - destruct (sqrt_facts z L) as [S1 S2]. pose proof PI_RGT_0. rewrite <- S2, C0_ell by assumption. rewrite <- cos_PI.
    apply cos_decreasing_1; nra.
Qed.

Lemma energy_sign mu X c : 0 < mu -> 0 < X -> -1 < c -> (- mu * (1 - c * c) / X < 0 <-> c < 1).
Proof.
  intros Hm HX Hc. assert (IX : 0 < / X) by now apply Rinv_0_lt_compat. unfold Rdiv.
  replace (- mu * (1 - c * c) * / X) with ((mu * / X * (c + 1)) * (c - 1)) by ring.
  assert (0 < mu * / X * (c + 1)) by (apply Rmult_lt_0_compat; [apply Rmult_lt_0_compat|]; lra).
  set (q := mu * / X * (c + 1)) in *. clearbody q. split; intros; nra.
Qed.
Lemma series_small kr tau e : tau * tau <= 1 / 2 -> 0 < 1 - kr * tau -> - (1 / 50) <= kr - sqrt 2 <= 1 / 50 ->
  Rabs e <= 1 / 10 ^ 17 ->
  Rabs ((1 - kr * tau) * sqrt (1 - kr * tau) * e) <= 1 / 10 ^ 16.
Proof.
  intros tau2 Hu Hwin He. destruct sqrt2_facts as [W1 W2]. set (u := 1 - kr * tau) in *. destruct (sqrt_facts u Hu) as [U1 U2].
  assert (S2 : 1 < sqrt 2 < 3 / 2) by nra.
  assert (TA : - 1 <= tau <= 1) by nra.
  assert (HU : u <= 4) by (unfold u; nra).
  assert (HU2 : sqrt u <= 2) by nra.
  assert (HU3 : 0 < u * sqrt u <= 8) by nra.
  rewrite Rabs_mult, (Rabs_pos_eq (u * sqrt u)) by lra. pose proof (Rabs_pos e).
  set (q := u * sqrt u) in *. set (r := Rabs e) in *. clearbody q r. nra.
Qed.

(** ** C14 *)

(** If arora2013 returns [(v1, v2)] there is a two-body motion from [(r1, v1)]
    to [(r2, v2)], without revolutions if none were asked for, whose duration
    differs from [tof] by at most [atol] in the unit of time
    [sqrt (|r1|^3 / mu)], plus [10^-16] in the unit [sqrt ((|r1| + |r2|)^3 / mu)]
    for the truncation of the series used near the parabola.  An elliptic
    answer makes exactly the requested number of revolutions. *)
Theorem C14_arora_solves_lambert :
  forall ev mu r1 r2 tof M prograde low_path maxiter atol rtol full_output o v1 v2,
  non_collinear r1 r2 ->
  @run XR Arora ev (call mu r1 r2 tof M prograde low_path maxiter atol rtol full_output) = Ok o ->
  delivers o v1 v2 ->
  exists T,
    lambert_solution mu r1 v1 r2 v2 T (if Rlt_dec (energy mu r1 v1) 0 then M else 0) /\
    Rabs (T - tof) <= atol * sqrt (vnorm r1 ^ 3 / mu) + 1 / 10 ^ 16 * sqrt ((vnorm r1 + vnorm r2) ^ 3 / mu).
Proof.
  intros ev mu r1 r2 tof M p l mi at_ rt f o v1 v2 Hn H D. cbn [run] in H.
  destruct (arora_returns_k _ _ _ _ _ _ _ _ _ _ _ _ _ _ _ Hn D H) as (Hmu & HM & th & d & tau & k & tp & dp & j & n & F & Dd & Ds & Et & EB & EV).
  set (h := vnorm r2 / vnorm r1) in *. set (T0 := sqrt (vnorm r1 * vnorm r1 * vnorm r1 / mu)) in *.
  set (S := sqrt ((1 + h) * (1 + h) * (1 + h))) in *.
  destruct (arora_velocities_ab mu p r1 r2 th d S tau k v1 v2 Hn Hmu F Dd Ds eq_refl Et EV)
    as (kr & a & b & -> & Hu & E1 & E2 & Hab & Hat & _ & HV & HA).
  destruct (norms_pos _ _ Hn) as [N1 N2]. set (P := vnorm r1 + vnorm r2) in *. assert (HP : 0 < P) by (unfold P; lra).
  assert (Hh : 0 < h) by (apply Rdiv_lt_0_compat; assumption).
  destruct sqrt2_facts as [W1 W2]. pose proof (Kgeo_pos _ _ Hn) as K0.
  assert (Ht0 : tau <> 0) by (intros ->; rewrite !Rmult_0_l in HA; lra).
  assert (Ha0 : a <> 0) by (intros ->; rewrite !Rmult_0_l in Hab; lra).
  assert (HaA : 0 < a * (tau * P)).
  { destruct (Rlt_dec 0 a) as [L|L].
    - assert (0 < tau) by tauto. apply Rmult_lt_0_compat; [|apply Rmult_lt_0_compat]; assumption.
    - assert (~ 0 < tau) by tauto. assert (tau < 0) by lra. assert (a < 0) by lra.
      replace (a * (tau * P)) with ((- a) * (- tau) * P) by ring. apply Rmult_lt_0_compat; [apply Rmult_lt_0_compat|]; lra. }
  pose proof (ab_fg mu r1 r2 a b (tau * P) v1 v2 Hn Hmu E1 E2 Hab HA HaA) as FG. rewrite HV in FG.
  set (u := 1 - kr * tau) in *.
  assert (tau2 : tau * tau <= 1 / 2).
  { destruct (dot_bounds _ _ Hn) as [_ B]. unfold Kgeo in HA.
    assert (4 * (vnorm r1 * vnorm r2) <= P * P) by (unfold P; pose proof (Rle_0_sqr (vnorm r1 - vnorm r2)) as RS; unfold Rsqr in RS; lra).
    apply Rmult_le_reg_r with (P * P); [nra|]. replace (tau * tau * (P * P)) with (tau * P * (tau * P)) by ring. lra. }
  (* the loop stopped *)
  unfold aro_body in EB. destruct (@aro_W XR (Fin kr) M) as [W|] eqn:EW; [|discriminate].
  cbv zeta in EB. match type of EB with (if ?b then _ else _) = _ => destruct b eqn:EL end; [|discriminate]. clear EB.
  assert (EL' : exists w, W = Fin w /\ Rabs (tof / T0 - S * sqrt u * (tau + u * w)) <= at_).
  { clear - EL Hu. destruct W as [w|].
    - exists w. split; [reflexivity|]. unfold aro_TOF in EL. xunf. cbn [xmul xsub xadd xlift2] in EL. fold u in EL.
      rewrite xsqrt_F in EL by lra. cbn [xmul xsub xadd xabs xlift1 xlift2] in EL. apply xleb_F in EL. exact EL.
    - exfalso. unfold aro_TOF in EL. xunf. cbn [xmul xsub xadd xlift2] in EL. fold u in EL.
      rewrite xsqrt_F in EL by lra. cbn in EL. discriminate. }
  destruct EL' as (w & -> & HL). 
  destruct (aro_W_true kr M w HM EW) as (z & Wt & M' & Hz & HC & Hz0 & HM' & EM & Hwin & Herr & Htz).
  assert (HM0 : (0 <= M')%Z) by (rewrite EM; destruct (Rlt_dec _ _); lia).
  assert (HCC : P - u * P = sqrt 2 * (tau * P) * C0 z).
  { replace (sqrt 2 * (tau * P) * C0 z) with (sqrt 2 * C0 z * (tau * P)) by ring. rewrite HC. unfold u. ring. }
  pose proof (fg_lambert mu r1 r2 (tau * P) (u * P) v1 v2 z M' Hmu Hn FG Hz HM0 HM' HCC) as LS.
  exists (tz mu (tau * P) (u * P) z M'). split.
  - assert (EE : energy mu r1 v1 = - mu * (1 - C0 z * C0 z) / (u * P)) by (eapply fg_energy; eauto).
    assert (HuP : 0 < u * P) by (apply Rmult_lt_0_compat; assumption).
    assert (Q : energy mu r1 v1 < 0 <-> kr < sqrt 2).
    { assert (C1 : -1 < C0 z).
      { now apply C0_gt. }
      rewrite EE, (energy_sign mu (u * P) (C0 z)) by assumption. rewrite <- HC. clear - W1. split; intros; nra. }
    replace (if Rlt_dec (energy mu r1 v1) 0 then M else 0%Z) with M'; [exact LS|].
    rewrite EM. destruct (Rlt_dec kr (sqrt 2)), (Rlt_dec (energy mu r1 v1) 0); tauto.
  - rewrite Htz by (try apply Rmult_lt_0_compat; assumption).
    destruct (sqrt_facts u Hu) as [U1 U2]. destruct (sqrt_facts P HP) as [P1 P2]. destruct (sqrt_facts mu Hmu) as [M1 M2].
    assert (S1 : 0 < S /\ S * S = (1 + h) * (1 + h) * (1 + h)) by (apply sqrt_facts; repeat apply Rmult_lt_0_compat; lra).
    assert (T1 : 0 < T0 /\ T0 * T0 = vnorm r1 * vnorm r1 * vnorm r1 / mu).
    { apply sqrt_facts. apply Rdiv_lt_0_compat; [repeat apply Rmult_lt_0_compat|]; assumption. }
    assert (Hh' : (1 + h) * vnorm r1 = P) by (unfold h, P; field; lra).
    assert (Q0 : 0 < P ^ 3 / mu) by (apply Rdiv_lt_0_compat; [apply pow_lt|]; assumption).
    assert (TS : T0 * S = sqrt (P ^ 3 / mu)).
    { apply Rsqr_inj; [apply Rlt_le, Rmult_lt_0_compat; tauto|apply sqrt_pos|]. unfold Rsqr. rewrite sqrt_sqrt by lra.
      transitivity ((T0 * T0) * (S * S)); [ring|]. destruct T1 as [_ ->], S1 as [_ ->]. rewrite <- Hh'. field. lra. }
    assert (EP : sqrt (P ^ 3 / mu) = P * sqrt P / sqrt mu).
    { apply Rsqr_inj; [apply sqrt_pos|apply Rlt_le, Rdiv_lt_0_compat; [apply Rmult_lt_0_compat|]; assumption|].
      unfold Rsqr. rewrite sqrt_sqrt by lra. transitivity (P * P * (sqrt P * sqrt P) / (sqrt mu * sqrt mu)); [|field; lra].
      rewrite P2, M2. field. lra. }
    replace (vnorm r1 ^ 3 / mu) with (vnorm r1 * vnorm r1 * vnorm r1 / mu) by (field; lra). fold T0.
    set (Q := sqrt (P ^ 3 / mu)) in *. assert (HQ : 0 < Q) by (rewrite <- TS; apply Rmult_lt_0_compat; tauto).
    rewrite (sqrt_mult u P) by lra.
    replace ((u * P * (sqrt u * sqrt P) * Wt + tau * P * (sqrt u * sqrt P)) / sqrt mu) with (Q * (sqrt u * (tau + u * w)) + Q * (u * sqrt u * (Wt - w)))
      by (rewrite EP; field; lra).
    replace (Q * (sqrt u * (tau + u * w)) + Q * (u * sqrt u * (Wt - w)) - tof)
      with (- (T0 * (tof / T0 - S * sqrt u * (tau + u * w))) + Q * (u * sqrt u * (Wt - w))) by (rewrite <- TS; field; lra).
    eapply Rle_trans; [apply Rabs_triang|]. apply Rplus_le_compat.
    + rewrite Rabs_Ropp, Rabs_mult, (Rabs_pos_eq T0) by lra. rewrite (Rmult_comm at_). apply Rmult_le_compat_l; lra.
    + rewrite Rabs_mult, (Rabs_pos_eq Q) by lra. rewrite (Rmult_comm _ Q). apply Rmult_le_compat_l; [lra|].
      destruct (Req_dec Wt w) as [E|NE].
      * rewrite E, Rminus_diag_eq, Rmult_0_r, Rabs_R0 by reflexivity. lra.
      * specialize (Hwin NE). apply Rabs_le_between in Hwin.
        now apply (series_small kr tau).
Qed.
Print Assumptions C14_arora_solves_lambert.

(** A case: the quarter turn in the time arora2013 tabulates for [k = 0]. *)
Lemma sqrt2_bounds : 141 / 100 < sqrt 2 < 142 / 100.
Proof. destruct sqrt2_facts as [W1 W2]. split; nra. Qed.

Example C14_case : exists tof o v1 v2, 4 < tof /\
  non_collinear ex_r1 ex_r2 /\
  @run XR Arora no_scipy (call 1 ex_r1 ex_r2 tof 0 true true 35 1 (1 / 10000000) true) = Ok o /\
  delivers o v1 v2.
Proof.
  pose proof ex_non_collinear as Hn. destruct ex_norms as (N1 & N2 & DD). destruct sqrt2_facts as [W1 W2]. pose proof sqrt2_bounds as WB.
  destruct (transfer_angle ex_r1 ex_r2 true Hn) as (th & ET & F).
  assert (SW : short_way true ex_r1 ex_r2) by (unfold short_way, vcross, ex_r1, ex_r2; cbn [vx vy vz]; lra).
  pose proof (proj2 (af_pi _ _ _ _ F) SW) as HT. pose proof (af_K _ _ _ _ F) as HK. unfold Kgeo in HK. rewrite N1, N2, DD in HK.
  destruct (sqrt_facts 8) as [S1 S2]; [lra|]. set (S := sqrt 8) in *.
  assert (SB : 28 / 10 < S < 29 / 10) by nra.
  set (c0 := 1110720735 / 1000000000). set (tof := S * 1 * (1 / 2 + 1 * c0)).
  assert (Htof : 4 < tof < 5) by (unfold tof, c0; nra).
  exists tof.
  assert (R : exists w1 w2 t, @run XR Arora no_scipy (call 1 ex_r1 ex_r2 tof 0 true true 35 1 (1 / 10000000) true)
      = Ok (Full (vfin w1) (vfin w2) 1 t)).
  2:{ destruct R as (w1 & w2 & t & R). eexists _, w1, w2. split; [lra|]. split; [exact Hn|]. split; [exact R|]. split; reflexivity. }
  cbn [run]. unfold arora2013. rewrite validated_call_ok.
  2:{ unfold valid_input, ex_r1, ex_r2, vzero. split; [lra|]. split; [intros E; injection E; lra|]. split; [intros E; injection E; lra|]. split; [lra|lia]. }
  cbn [a_mu a_r1 a_r2 a_tof a_M a_is_prograde a_is_low_path a_maxiter a_atol a_rtol a_full_output call].
  rewrite ET.
  unfold MAssertions.assert_transfer_angle_not_zero.
  replace (@neqb XR (Fin th) (nofZ 0)) with false by (symmetry; apply xeqb_Ff; pose proof (af_range _ _ _ _ F); lra).
  cbn [bind]. rewrite !norm_F, !N1. rewrite !vdivs_F by lra. rewrite !norm_F, !vnorm_mult, N1, N2.
  replace (Rabs (/ 1)) with 1 by (rewrite Rinv_1, Rabs_R1; reflexivity). rewrite !Rmult_1_l.
  replace (@nsqrt XR (@ndiv XR (@cube XR (Fin 1)) (Fin 1))) with (Fin 1).
  2:{ unfold cube. xunf. cbn [xmul xlift2]. rewrite xdiv_F by lra. rewrite xsqrt_F by lra. f_equal. replace (1 * 1 * 1 / 1) with 1 by field. now rewrite sqrt_1. }
  replace (@nmul XR (Fin 1) (@ndiv XR (@sq XR (Fin 1)) (@cube XR (Fin 1)))) with (Fin 1).
  2:{ unfold cube, sq. xunf. cbn [xmul xlift2]. rewrite xdiv_F by lra. cbn [xmul xlift2]. f_equal. field. }
  replace (@nsqrt XR (@ndiv XR (@cube XR (@nadd XR (Fin 1) (Fin 1))) (Fin 1))) with (Fin S).
  2:{ unfold cube. xunf. cbn [xmul xadd xlift2]. rewrite xdiv_F by lra. rewrite xsqrt_F by lra. unfold S. do 2 f_equal. field. }
  replace (@nleb XR (Fin th) npi) with true by (symmetry; apply xleb_F; lra).
  replace (@ndiv XR (@nmul XR (nofZ 1) (@nsqrt XR (@nmul XR (@nmul XR (Fin 1) (Fin 1)) (@nadd XR (nofZ 1) (@ncos XR (Fin th))))))
             (@nadd XR (Fin 1) (Fin 1))) with (Fin (1 / 2)).
  2:{ xunf. cbn [xmul xadd xlift1 xlift2]. replace (1 * 1 * (1 + cos th)) with 1 by lra. rewrite xsqrt_F, sqrt_1 by lra.
      cbn [xmul xlift2]. rewrite xdiv_F by lra. f_equal. field. }
  replace (@ndiv XR (Fin tof) (Fin 1)) with (Fin tof) by (symmetry; xunf; rewrite xdiv_F by lra; f_equal; field).
  replace (@nsqrt XR (nofZ 2)) with (Fin (sqrt 2)) by (symmetry; apply xsqrt_F; lra).
  (* the parabolic time *)
  destruct (sqrt_facts (1 - sqrt 2 * (1 / 2))) as [Q1 Q2]; [lra|]. set (q := sqrt (1 - sqrt 2 * (1 / 2))) in *.
  set (tp := S * q * (1 / 2 + sqrt 2) / 3).
  replace (@ndiv XR (@nmul XR (@nmul XR (Fin S) (@nsqrt XR (@nsub XR (nofZ 1) (@nmul XR (Fin (sqrt 2)) (Fin (1 / 2)))))) (@nadd XR (Fin (1 / 2)) (Fin (sqrt 2)))) (nofZ 3))
    with (Fin tp).
  2:{ xunf. cbn [xmul xadd xsub xlift1 xlift2]. rewrite xsqrt_F by lra. cbn [xmul xadd xsub xlift1 xlift2]. rewrite xdiv_F by lra. reflexivity. }
  assert (Htp : 0 < tp < 2).
  { assert (0 < q < 1) by nra. unfold tp. assert (0 < S * q < 29 / 10) by nra. nra. }
  replace (@nleb XR (Fin tof) (Fin tp)) with false by (symmetry; apply xleb_Ff; lra).
  cbn [Z.eqb bind].
  (* the first guess *)
  destruct (sqrt_facts (1 - 1 / sqrt 2 * (1 / 2))) as [P1 P2].
  { assert (1 / sqrt 2 < 1); [|lra]. apply Rmult_lt_reg_r with (sqrt 2); [lra|]. unfold Rdiv. rewrite Rmult_assoc, Rinv_l; lra. }
  set (pp := sqrt (1 - 1 / sqrt 2 * (1 / 2))) in *.
  assert (PB : pp < 1).
  { assert (0 < / sqrt 2) by (apply Rinv_0_lt_compat; lra). unfold Rdiv in P2. nra. }
  assert (G : @aro_guess_elliptic XR (Fin tof) (Fin tp) (Fin (1 / 2)) (Fin S) = Fin 0).
  { unfold aro_guess_elliptic.
    assert (E0 : @aro_TOF XR (nofZ 0) (Fin (1 / 2)) (Fin S) (nlit 1110720735 1000000000) = Fin tof).
    { unfold aro_TOF, tof, c0. xunf. cbn [xmul xadd xsub xlift1 xlift2].
      replace (1 - 0 * (1 / 2)) with 1 by ring. rewrite xsqrt_F, sqrt_1 by lra. reflexivity. }
    rewrite E0.
    set (Fi := S * pp * (1 / 2 + (1 - 1 / sqrt 2 * (1 / 2)) * (6686397730 / 10000000000))).
    assert (E1 : @aro_TOF XR (@ndiv XR (nofZ 1) (@nsqrt XR (nofZ 2))) (Fin (1 / 2)) (Fin S) (nlit 6686397730 10000000000) = Fin Fi).
    { unfold aro_TOF. xunf. rewrite xsqrt_F by lra. rewrite xdiv_F by lra. cbn [xmul xadd xsub xlift1 xlift2].
      rewrite xsqrt_F by nra. reflexivity. }
    rewrite E1.
    assert (HFi : Fi < 4).
    { unfold Fi. rewrite <- P2. assert (0 < pp * pp < 1) by nra. assert (0 < S * pp < 29 / 10) by nra. nra. }
    replace (@nleb XR (Fin tof) (Fin tof)) with true by (symmetry; apply xleb_F; lra).
    unfold aro_x. xunf. rewrite xsqrt_F by lra. rewrite (xdiv_F 1 2) by lra. cbn [xmul xadd xsub xlift1 xlift2].
    rewrite xdiv_F; [cbn [xmul xadd xsub xlift1 xlift2]; f_equal; field|]; nra. }
  rewrite G. change (Z.to_nat 35) with 35%nat. cbn [for_range].
  assert (B : @aro_body XR true (Fin tof) (Fin tp) (Fin (1 / 2)) (Fin S) 0 (Fin 1) 1 (Fin 0) = Break (1%Z, Fin 0)).
  { unfold aro_body. set (W0 := PI / (2 * sqrt 2)).
    assert (EW : @aro_W XR (Fin 0) 0 = Ok (Fin W0)).
    { unfold aro_W. rewrite aro_sq2_F. unfold aro_eps. cbv zeta.
      replace (@nleb XR (@nopp XR (Fin (sqrt 2))) (Fin 0)) with true by (symmetry; xunf; cbn [xopp xlift1]; apply xleb_F; lra).
      replace (@nltb XR (Fin 0) (@nsub XR (Fin (sqrt 2)) (nlit 2 100))) with true by (symmetry; xunf; cbn [xsub xlift2]; apply xltb_F; lra).
      cbn [andb orb]. apply f_equal. unfold aro_W_elliptic, sq, cube. destruct (xsign_cases 0) as (g & -> & _ & G0 & _). rewrite (G0 eq_refl).
      xunf. cbn [xmul xadd xsub xlift1 xlift2]. rewrite xacos_F by lra. rewrite xsqrt_F by lra. cbn [xmul xadd xsub xlift1 xlift2].
      replace ((2 - 0 * 0) * (2 - 0 * 0) * (2 - 0 * 0)) with ((2 * sqrt 2) * (2 * sqrt 2)) by (transitivity (4 * (sqrt 2 * sqrt 2)); [ring|rewrite W2; ring]).
      rewrite sqrt_square by lra. rewrite !xdiv_F by lra. cbn [xsub xlift2]. f_equal. unfold W0. field. lra. }
    rewrite EW. cbv zeta.
    assert (L : @nleb XR (@nabs XR (@nsub XR (Fin tof) (@aro_TOF XR (Fin 0) (Fin (1 / 2)) (Fin S) (Fin W0)))) (Fin 1) = true).
    { unfold aro_TOF. xunf. cbn [xmul xadd xsub xlift1 xlift2].
      replace (1 - 0 * (1 / 2)) with 1 by ring. rewrite xsqrt_F, sqrt_1 by lra. cbn [xmul xadd xsub xabs xlift1 xlift2]. apply xleb_F.
      assert (HW : 1 <= W0 <= 142 / 100).
      { pose proof PI2_3_2 as P3. unfold PI2 in P3. pose proof PI_4. unfold W0. split; apply Rmult_le_reg_r with (2 * sqrt 2); try lra;
          unfold Rdiv; rewrite Rmult_assoc, Rinv_l by lra; lra. }
      unfold tof. replace (S * 1 * (1 / 2 + 1 * c0) - S * 1 * (1 / 2 + 1 * W0)) with (S * (c0 - W0)) by ring.
      apply Rabs_le. unfold c0. split; nra. }
    rewrite L. reflexivity. }
  rewrite B. destruct (@time_per_iteration XR (e_clock no_scipy) true 1) as [t|e] eqn:ETP.
  2:{ destruct (tpi_ok (e_clock no_scipy) true 1) as [t Et]; [lia|]. rewrite Et in ETP. discriminate. }
  cbn [bind].
  assert (EV : exists w1 w2, @aro_velocities XR (Fin 1) (Fin 1) (Fin 1) (vfin (vmult (/ 1) ex_r1)) (vfin (vmult (/ 1) ex_r2)) (Fin 1) (Fin 1) (Fin (1 / 2)) (Fin S) (Fin 0)
     = (vfin w1, vfin w2)).
  { unfold aro_velocities. xunf. cbn [xmul xadd xsub xlift1 xlift2]. replace ((1 - 0 * (1 / 2)) * 1) with 1 by ring.
    rewrite xsqrt_F, sqrt_1 by lra. cbn [xmul xadd xsub xlift1 xlift2]. rewrite !xdiv_F by lra. cbn [xmul xadd xsub xlift1 xlift2].
    rewrite !vscale_F, !vsub_F. rewrite !vdivs_F by nra. unfold vfin, vmap, vmult; cbn [vx vy vz].
    cbn [xmul xlift2]. eexists (V3 _ _ _), (V3 _ _ _). reflexivity. }
  destruct EV as (w1 & w2 & EV). rewrite EV. exists w1, w2, t. reflexivity.
Qed.
