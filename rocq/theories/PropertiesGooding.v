(** * gooding1990: the equation it solves is Lambert's equation, its derivatives
    are right, and the iteration rests exactly at the solutions: C27, C46. *)
From Coq Require Import ZArith List Bool Lia Reals Lra Psatz.
From Coquelicot Require Import Coquelicot.
From Verif Require Import Num XReal XRealLemmas MApi MScipy MLinalg MAngles MGooding RDerive UniversalKepler LambertUV LambertRev LambertZ DelatorreXR
  Spec VecFacts VecXR Loops CallXR Godal SpecLambert GodalXR GodalIzzo MIzzo Hyp2F1 IzzoXR AnglesXR AsinSeries PropertiesAngles PropertiesDerivIzzo GoodingXR.
Local Open Scope R_scope.

(** ** C27 for gooding1990: whichever branch [tlamb] takes, the three further
    values it returns are the first three derivatives of the first one, also at
    the parabola. *)
Theorem C27_gooding_derivatives : forall (q : R) (m : Z), -1 < q < 1 -> (0 <= m)%Z ->
  exists T T' T'' T''' : R -> R, forall x : R, -1 < x -> (m = 0%Z \/ x < 1) ->
    @tlamb XR m (Fin q) (Fin (1 - q * q)) (Fin x) 0 = (Fin (T x), Fin 0, Fin 0, Fin 0) /\
    @tlamb XR m (Fin q) (Fin (1 - q * q)) (Fin x) 2 = (Fin (T x), Fin (T' x), Fin (T'' x), Fin 0) /\
    @tlamb XR m (Fin q) (Fin (1 - q * q)) (Fin x) 3 = (Fin (T x), Fin (T' x), Fin (T'' x), Fin (T''' x)) /\
    is_derive T x (T' x) /\ is_derive T' x (T'' x) /\ is_derive T'' x (T''' x).
Proof.
  intros q m Hq Hm. exists (goo_T q m), (goo_T1 q m), (goo_T2 q m), (goo_T3 q m). intros x Hx HM.
  assert (HM' : m = 0%Z \/ ((0 < m)%Z /\ x < 1)) by (destruct (Z.eq_dec m 0); [auto|right; split; [lia|destruct HM; [contradiction|assumption]]]).
  rewrite !tlamb_F by (assumption || lia). cbn [Z.leb Z.eqb Z.compare Pos.eqb Pos.compare Pos.compare_cont].
  split; [reflexivity|]. split; [reflexivity|]. split; [reflexivity|]. now apply goo_derive.
Qed.
Print Assumptions C27_gooding_derivatives.

(** ** The velocities *)
Lemma gooding_velocities_fg mu p r1 r2 th m x vr1 vt1 vr2 vt2 v1 v2 mus s k q rho sig :
  non_collinear r1 r2 -> 0 < mu -> angle_facts p r1 r2 th ->
  @goo_geometry XR (Fin mu) (Fin (vnorm r1)) (Fin (vnorm r2)) (@ndiv XR (Fin th) (nofZ 2)) =
    (mus, s, k, q, rho, sig) ->
  @goo_components XR m (Fin (vnorm r1)) (Fin (vnorm r2)) mus k q rho sig (Fin x) = (vr1, vt1, vr2, vt2) ->
  let i_h := @get_orbit_normal_vector XR (vfin r1) (vfin r2) p in
  let i_r1 := @vdivs XR (vfin r1) (Fin (vnorm r1)) in
  let i_r2 := @vdivs XR (vfin r2) (Fin (vnorm r2)) in
  @vadd XR (vscale vr1 i_r1) (vscale vt1 (cross i_h i_r1)) = vfin v1 ->
  @vadd XR (vscale vr2 i_r2) (vscale vt2 (cross i_h i_r2)) = vfin v2 ->
  exists qq y, mus = Fin (sqrt (mu * semiper r1 r2 / 2)) /\ s = Fin (semiper r1 r2) /\ k = Fin (1 - qq * qq) /\ q = Fin qq /\
    lambda_facts p r1 r2 qq /\ 0 <= y /\ y * y = 1 - qq * qq * (1 - x * x) /\
    fg_pair mu r1 r2 (sqrt 2 * semiper r1 r2 * qq) (semiper r1 r2 * ((y - qq * x) * (y - qq * x))) v1 v2.
Proof.
  intros Hn Hm F EG EC i_h i_r1 i_r2 E1 E2. destruct (norms_pos _ _ Hn) as [N1 N2].
  destruct (gooding_geometry_F mu p r1 r2 th Hn Hm F) as (q' & sig' & EG' & Hsig & Esig & LF & Hd).
  rewrite EG in EG'. do 5 (apply pair_equal_spec in EG'; destruct EG' as [EG' ?]). subst mus s k q rho sig. clear EG.
  rename q' into q, sig' into sig.
  pose proof (lf_sq _ _ _ _ LF) as Hl. destruct (semiper_pos _ _ Hn) as [Hs Hcs].
  pose proof (chord_pos _ _ Hn) as Hc. pose proof (vnorm_pos _ Hn) as HN.
  assert (EK : chord r1 r2 / semiper r1 r2 = 1 - q * q).
  { apply Rmult_eq_reg_l with (semiper r1 r2); [|lra]. rewrite Rmult_minus_distr_l, Hl. field. lra. }
  set (e := if short_way_dec p r1 r2 then 1 else -1).
  assert (He : e * e = 1) by (unfold e; destruct (short_way_dec p r1 r2); lra).
  assert (Hel : 0 < e * q).
  { pose proof (lf_nz _ _ _ _ LF). unfold e. destruct (short_way_dec p r1 r2) as [S|S]; rewrite <- Hd in S; lra. }
  unfold goo_components in EC. destruct (@tlamb XR m (Fin q) _ (Fin x) (-1)) as [[[a b] c] d] eqn:ET.
  change (@tlamb XR m (Fin q) (Fin (chord r1 r2 / semiper r1 r2)) (Fin x) (-1))
    with (@tl_velocity XR (Fin q) (Fin (chord r1 r2 / semiper r1 r2)) (Fin x)) in ET.
  do 3 (apply pair_equal_spec in EC; destruct EC as [EC ?]). subst vr1 vt1 vr2 vt2.
  unfold i_h, i_r1, i_r2 in E1, E2. clear i_h i_r1 i_r2.
  rewrite orbit_normal_F in E1, E2 by assumption. fold e in E1, E2.
  rewrite !vdivs_F, !cross_F in E1 by lra. rewrite !vdivs_F, !cross_F in E2 by lra.
  change (@nsqrt XR (Fin sig)) with (xsqrt (Fin sig)) in E1, E2. rewrite (xsqrt_F sig) in E1, E2 by assumption.
  assert (B : (exists r, b = Fin r) /\ (exists r, c = Fin r) /\ (exists r, d = Fin r)).
  { clear - E1. vinv. xunf. xinv. subst. eauto 6. }
  destruct B as (B & C & D).
  destruct (tl_velocity_F _ _ _ _ _ _ _ ET EK) as (z & Hz & Hz2 & -> & -> & ->); try assumption.
  exists q, z. rewrite EK. do 4 (split; [reflexivity|]). split; [assumption|]. split; [assumption|]. split; [assumption|].
  assert (Hsg : sqrt sig * sqrt sig = sig) by now apply sqrt_sqrt.
  vinv. xunf. xinv. subst.
  match type of Hsg with sqrt ?X * _ = _ => set (sg := sqrt X) in * end.
  assert (Hsg0 : 0 <= sg) by apply sqrt_pos. clearbody sg e.
  eapply (izzo_fg mu p _ _ q e x z sg); try eassumption;
    apply vec_eq; vunf; field; repeat split; lra.
Qed.

(** The value of [tlamb] and the motion. *)
Lemma goo_T_time mu p r1 r2 q m x y v1 v2 :
  non_collinear r1 r2 -> 0 < mu -> lambda_facts p r1 r2 q -> (0 <= m)%Z -> -1 < x -> (m = 0%Z \/ x < 1) ->
  0 <= y -> y * y = 1 - q * q * (1 - x * x) ->
  fg_pair mu r1 r2 (sqrt 2 * semiper r1 r2 * q) (semiper r1 r2 * ((y - q * x) * (y - q * x))) v1 v2 ->
  exists T, lambert_solution mu r1 v1 r2 v2 T m /\
    goo_T q m x = 4 * sqrt (mu * semiper r1 r2 / 2) * T / (semiper r1 r2 * semiper r1 r2).
Proof.
  intros Hn Hmu LF Hm Hx HM Hy Hy2 FG. pose proof (lambda_bounds _ _ _ _ Hn LF) as Hq.
  destruct (semiper_pos _ _ Hn) as [Hs _]. set (s := semiper r1 r2) in *.
  destruct (xy_lambert mu p r1 r2 q x y v1 v2 Hn Hmu LF Hy Hy2 FG) as [_ XL].
  destruct (XL m 0 Hm Hx HM) as (T & SL & ET). fold s in ET. exists T. split; [exact SL|].
  assert (EY : y = sqrt (1 - q * q * (1 - x * x))) by (rewrite <- Hy2; symmetry; now apply sqrt_square).
  assert (S3 : 0 < s * s * s) by (apply Rmult_lt_0_compat; nra).
  assert (EK : 2 * sqrt (2 * mu / (s * s * s)) = 4 * sqrt (mu * s / 2) / (s * s)).
  { assert (P1 : 0 < 2 * mu / (s * s * s)) by (apply Rdiv_lt_0_compat; lra). assert (P2 : 0 < mu * s / 2) by nra.
    destruct (sqrt_facts _ P1) as [A1 A2]. destruct (sqrt_facts _ P2) as [B1 B2].
    set (a := sqrt (2 * mu / (s * s * s))) in *. set (b := sqrt (mu * s / 2)) in *.
    assert (0 < 4 * b / (s * s)) by (apply Rdiv_lt_0_compat; nra).
    apply Rsqr_inj; [lra|lra|]. unfold Rsqr. transitivity (4 * (a * a)); [ring|]. rewrite A2.
    transitivity (16 * (b * b) / (s * s * (s * s))); [rewrite B2; field; lra|field; lra]. }
  unfold goo_T. destruct (Req_EM_T x 1) as [E1|N1].
  - (* the parabola *)
    assert (m = 0%Z) as -> by (destruct HM; [assumption|lra]). subst x.
    assert (y1 : y = 1) by nra. clear EY. subst y.
    assert (EI : @izzo_tof_y XR (Fin 1) (Fin 1) (Fin 0) (Fin q) (Fin (IZR 0)) = Fin (2 / 3 * (1 - q * q * q))).
    { unfold izzo_tof_y.
      replace (@nlit XR 6 10) with (Fin (6 / 10)) by reflexivity.
      replace (@nlit XR 14 10) with (Fin (14 / 10)) by reflexivity.
      replace (@nlit XR 1 2) with (Fin (1 / 2)) by reflexivity.
      change (@nsqrt XR (Fin (6 / 10))) with (xsqrt (Fin (6 / 10))). change (@nsqrt XR (Fin (14 / 10))) with (xsqrt (Fin (14 / 10))).
      rewrite !xsqrt_F by lra.
      assert (S6 : sqrt (6 / 10) < 1) by (destruct (sqrt_facts (6 / 10)) as [? ?]; [lra|nra]).
      assert (S14 : 1 < sqrt (14 / 10)) by (destruct (sqrt_facts (14 / 10)) as [? ?]; [lra|nra]).
      assert (B1 : @neqb XR (Fin (IZR 0)) (nofZ 0) = true) by (apply xeqb_F; reflexivity).
      assert (B2 : @nltb XR (Fin (sqrt (6 / 10))) (Fin 1) = true) by (now apply xltb_F).
      assert (B3 : @nltb XR (Fin 1) (Fin (sqrt (14 / 10))) = true) by (now apply xltb_F).
      rewrite B1, B2, B3. cbn [andb]. unfold cube. xunf. cbn [nofZ XR xadd xsub xmul xlift2].
      replace ((1 - q - 1 * (1 - q * 1)) * (1 / 2)) with 0 by field. rewrite hyp2f1b_F by (rewrite Rabs_R0; lra). rewrite hyp_f_0.
      rewrite xdiv_F by lra. cbn [xadd xsub xmul xlift2]. apply (f_equal Fin). field. }
    pose proof (eq_trans (eq_sym EI) ET) as ET1. apply Fin_inj in ET1. clear ET. rename ET1 into ET. unfold goo_S0. replace (1 - 1 * 1) with 0 by ring.
    replace (goo_F q 0) with (goo_b q 0) by (unfold goo_F; now rewrite PSeries_0).
    unfold goo_b, phi_a. cbn [bin INR pow].
    transitivity (2 * (sqrt (2 * mu / (s * s * s)) * T)); [rewrite Rminus_0_r in ET; rewrite <- ET; field|].
    rewrite <- Rmult_assoc, EK. field. lra.
  - assert (DI : izzo_domain m x) by (repeat split; auto).
    unfold izzo_T, izzo_tof. rewrite (izzo_y_F q Hq x). rewrite <- EY, ET. cbn [xget]. rewrite Rminus_0_r.
    rewrite <- Rmult_assoc, EK. field. lra.
Qed.

(** ** The sign of the first derivative without revolutions *)
Lemma goo_F1_pos q u : -1 < q < 1 -> 0 <= u < 1 -> 0 < goo_F1 q u.
Proof.
  intros Hq Hu. assert (HA : Rabs u < 1) by (rewrite Rabs_right; lra).
  assert (BP : forall k, 0 < goo_b q k).
  { intros k. unfold goo_b. pose proof (phi_a_pos k). apply Rmult_lt_0_compat; [assumption|].
    assert (Q : 0 <= q * q < 1) by nra.
    assert (B : 0 <= (q * q) ^ k <= 1).
    { split; [apply pow_le; lra|]. rewrite <- (pow1 k). apply pow_incr. lra. }
    assert (C : -1 < q * q * q < 1) by (split; nra). nra. }
  pose proof (lim_F1 q Hq u HA) as L. apply is_lim_seq_incr_1 in L.
  assert (LE : Rbar_le (goo_b q 1) (goo_F1 q u)).
  { eapply (is_lim_seq_le (fun _ => goo_b q 1)); [|apply is_lim_seq_const|exact L].
    intros n. induction n as [|n IH].
    - rewrite sum_shift, sum_O. cbn -[goo_b]. lra.
    - rewrite sum_Sn. change (@plus R_AbelianGroup) with Rplus. pose proof (BP (S (S n))) as B2. pose proof (pos_INR (S (S n))).
      assert (0 <= u ^ (S (S n) - 1)) by (apply pow_le; lra).
      assert (0 <= INR (S (S n)) * goo_b q (S (S n)) * u ^ (S (S n) - 1)) by (apply Rmult_le_pos; [apply Rmult_le_pos; lra|assumption]).
      eapply Rle_trans; [exact IH|]. match goal with |- ?a <= ?b + ?c => change (@Rle a (b + c)); rewrite <- (Rplus_0_r a) at 1 end. apply Rplus_le_compat_l. assumption. }
  cbn in LE. pose proof (BP 1%nat). lra.
Qed.

Definition hk (t : R) : R := 3 * (sinh t * cosh t - t) - 2 * (sinh t * sinh t * sinh t) / cosh t.
Lemma cosh_gt0 t : 0 < cosh t.
Proof. unfold cosh. pose proof (exp_pos t). pose proof (exp_pos (- t)). lra. Qed.
Lemma cosh_sq t : cosh t * cosh t = 1 + sinh t * sinh t.
Proof. unfold cosh, sinh. pose proof (exp_plus t (- t)) as E. rewrite Rplus_opp_r, exp_0 in E. nra. Qed.
Lemma sinh_pos t : 0 < t -> 0 < sinh t.
Proof. intros H. unfold sinh. pose proof (exp_increasing (- t) t ltac:(lra)). lra. Qed.
Lemma sinh_d t : is_derive sinh t (cosh t).
Proof. apply is_derive_Reals, derivable_pt_lim_sinh. Qed.
Lemma cosh_d t : is_derive cosh t (sinh t).
Proof. apply is_derive_Reals, derivable_pt_lim_cosh. Qed.
Lemma hk_derive t : is_derive hk t (2 * (sinh t * sinh t) * (sinh t * sinh t) / (cosh t * cosh t)).
Proof.
  pose proof (cosh_gt0 t) as C. pose proof (cosh_sq t) as E. unfold hk.
  eapply rd_eq; [rd_step ltac:(idtac; first [apply sinh_d|apply cosh_d]); lra|]. req.
  set (c := cosh t) in *. set (s := sinh t) in *. clearbody c s. field_simplify_eq; [|lra].
  replace (c ^ 4) with ((c * c) * (c * c)) by ring. replace (c ^ 2) with (c * c) by ring. rewrite E. ring.
Qed.
Lemma hk_lt a b : 0 <= a < b -> hk a < hk b.
Proof.
  intros H. destruct (MVT_cor2 hk (fun t => 2 * (sinh t * sinh t) * (sinh t * sinh t) / (cosh t * cosh t)) a b) as (c & E & Hc); [lra| |].
  - intros x _. apply is_derive_Reals, hk_derive.
  - pose proof (sinh_pos c ltac:(lra)) as S. pose proof (cosh_gt0 c) as C.
    assert (0 < 2 * (sinh c * sinh c) * (sinh c * sinh c) / (cosh c * cosh c)) by (assert (0 < sinh c * sinh c) by nra; apply Rdiv_lt_0_compat; nra).
    nra.
Qed.
Lemma hk_mono w t : 0 < t -> w < t -> hk w < hk t.
Proof.
  intros Ht H. destruct (Rle_lt_dec 0 w) as [L|L]; [apply hk_lt; lra|].
  assert (H0 : hk 0 = 0) by (unfold hk; rewrite sinh_0; field; rewrite cosh_0; lra).
  assert (N : hk (- w) = - hk w).
  { unfold hk. assert (A : sinh (- w) = - sinh w) by (unfold sinh; rewrite Ropp_involutive; field).
    assert (B : cosh (- w) = cosh w) by (unfold cosh; rewrite Ropp_involutive; field). rewrite A, B. pose proof (cosh_gt0 w). field. lra. }
  pose proof (hk_lt 0 t ltac:(lra)). pose proof (hk_lt 0 (- w) ltac:(lra)). lra.
Qed.

Lemma goo_T1_neg q x : -1 < q < 1 -> -1 < x -> goo_T1 q 0 x < 0.
Proof.
  intros Hq Hx. destruct (Rle_lt_dec x 0) as [L|L].
  - unfold goo_T1. destruct (Req_EM_T x 1); [lra|].
    assert (DI : izzo_domain 0 x) by (repeat split; auto).
    destruct (izzo_T_F q 0 Hq x DI) as [_ ET]. destruct (Rlt_dec x 1) as [_|]; [|lra].
    unfold d1, T1. rewrite ET. unfold T_ell.
    destruct (Y_facts q Hq x) as [P E]. set (y := sqrt (1 - q * q * (1 - x * x))) in *.
    assert (Q : 0 < 1 - x * x) by nra. destruct (sqrt_facts _ Q) as [S1 S2]. set (s := sqrt (1 - x * x)) in *.
    pose proof (xy_c_ell q x y Hq (Rlt_le _ _ P) E ltac:(lra)) as HC.
    set (c := x * y + q * (1 - x * x)) in *.
    assert (TP : 0 <= (acos c + 0 * PI) / s - x + q * y).
    { rewrite Rmult_0_l, Rplus_0_r. pose proof (acos_bound c) as AB.
      destruct (Rle_lt_dec 0 q) as [Lq|Lq].
      - assert (0 <= acos c / s) by (apply Rmult_le_pos; [lra|apply Rlt_le, Rinv_0_lt_compat; assumption]).
        assert (0 <= q * y) by (apply Rmult_le_pos; lra). lra.
      - assert (C0' : c <= 0) by (unfold c; nra).
        assert (A1 : PI / 2 <= acos c).
        { destruct (Rle_lt_dec (PI / 2) (acos c)) as [|N]; [assumption|exfalso].
          pose proof (cos_gt_0 (acos c) ltac:(lra) N) as K. rewrite cos_acos in K by lra. lra. }
        pose proof PI2_1.
        assert (SQ : - q * s * y <= 1 / 2).
        { assert (U : (- q * s) * (- q * s) + y * y = 1) by (rewrite E; transitivity (q * q * (s * s) + (1 - q * q * (1 - x * x))); [ring|rewrite S2; ring]).
          pose proof (Rle_0_sqr (- q * s - y)) as K. unfold Rsqr in K. lra. }
        assert (0 <= (acos c / s + q * y)).
        { apply Rmult_le_reg_r with s; [assumption|]. rewrite Rmult_0_l. replace ((acos c / s + q * y) * s) with (acos c + q * s * y) by (field; lra). lra. }
        lra. }
    set (A := (acos c + 0 * PI) / s - x + q * y) in *. clearbody A.
    assert (YB : - y < q * x < y) by (split; nra).
    assert (B : 2 * (q * q * q) * x / y < 2).
    { apply Rmult_lt_reg_r with y; [assumption|]. unfold Rdiv. rewrite Rmult_assoc, Rinv_l by lra.
      assert (Q1 : 0 <= q * q < 1) by nra. assert (0 <= q * q * (y - q * x)) by (apply Rmult_le_pos; lra). assert (0 < (1 - q * q) * y) by (apply Rmult_lt_0_compat; lra). lra. }
    assert (T0 : 0 <= A / (1 - x * x)) by (apply Rmult_le_pos; [assumption|apply Rlt_le, Rinv_0_lt_compat; assumption]).
    set (T := A / (1 - x * x)) in *. assert (N : 3 * T * x - 2 + 2 * (q * q * q) * x / y < 0) by nra.
    pose proof (Rinv_0_lt_compat _ Q). unfold Rdiv at 1. nra.
  - destruct (Rle_lt_dec x 1) as [L1|L1].
    + assert (E : goo_T1 q 0 x = goo_S1 q x).
      { unfold goo_T1. destruct (Req_EM_T x 1); [reflexivity|]. symmetry. apply series_T1; nra. }
      rewrite E. unfold goo_S1. pose proof (goo_F1_pos q (1 - x * x) Hq ltac:(nra)). nra.
    + unfold goo_T1. destruct (Req_EM_T x 1); [lra|].
      assert (DI : izzo_domain 0 x) by (repeat split; auto).
      destruct (izzo_T_F q 0 Hq x DI) as [_ ET]. destruct (Rlt_dec x 1) as [|_]; [lra|].
      unfold d1, T1. rewrite ET. unfold T_hyp.
      destruct (Y_facts q Hq x) as [P E]. set (y := sqrt (1 - q * q * (1 - x * x))) in *.
      assert (Q : 0 < x * x - 1) by nra. destruct (sqrt_facts _ Q) as [S1 S2]. set (s := sqrt (x * x - 1)) in *.
      set (t := arcsinh s). assert (Et : sinh t = s) by apply sinh_arcsinh.
      set (w := arcsinh (q * s)). assert (Ew : sinh w = q * s) by apply sinh_arcsinh.
      pose proof (cosh_gt0 t) as C1. pose proof (cosh_sq t) as C2. pose proof (cosh_gt0 w) as D1. pose proof (cosh_sq w) as D2.
      rewrite Et in C2. rewrite Ew in D2.
      assert (Ct : cosh t = x) by nra.
      assert (Cw : cosh w = y).
      { assert (cosh w * cosh w = y * y); [|nra]. rewrite D2, E. replace (x * x) with (1 + s * s) by lra. ring. }
      replace (s * (y - q * x)) with (sinh (t - w)).
      2: { transitivity (sinh t * cosh w - cosh t * sinh w); [|rewrite Ct, Et, Ew, Cw; ring].
           unfold sinh, cosh, Rminus. rewrite Ropp_plus_distr, Ropp_involutive, !exp_plus. field. }
      rewrite arcsinh_sinh.
      assert (t0 : 0 < t) by (unfold t; rewrite <- arcsinh_0; apply arcsinh_lt; assumption).
      assert (wt : w < t) by (unfold w, t; apply arcsinh_lt; nra).
      pose proof (hk_mono w t t0 wt) as HK. unfold hk in HK. rewrite Et, Ew, Ct, Cw in HK.
      assert (S3 : 0 < s * s * s) by (apply Rmult_lt_0_compat; nra).
      assert (X2 : x * x = 1 + s * s) by lra.
      set (G := 3 * (s * x - t) - 2 * (s * s * s) / x - (3 * (q * s * y - w) - 2 * (q * s * (q * s) * (q * s)) / y)).
      assert (HG : 0 < G) by (unfold G; lra).
      replace (3 * (((t - w) / s - x + q * y) / (1 - x * x)) * x - 2 + 2 * (q * q * q) * x / y) with (x * G / (s * s * s)).
      2: { unfold G. replace (1 - x * x) with (- (s * s)) by lra. field. repeat split; lra. }
      assert (0 < x * G / (s * s * s)) by (apply Rdiv_lt_0_compat; nra).
      assert (I : / (1 - x * x) < 0) by (apply Rinv_lt_0_compat; lra).
      unfold Rdiv at 1. nra.
Qed.

(** ** C46 *)

(** For every value [x > -1] of the iteration variable, the velocities
    gooding1990 rebuilds from [x] solve Lambert's problem, and the time [tlamb]
    assigns to [x], whichever branch it takes, is the flight time of that
    solution in the units [vlamb] converts the requested one to. *)
Theorem C46_gooding_time : forall mu prograde r1 r2 m x mus s k q rho sig vr1 vt1 vr2 vt2 v1 v2,
  0 < mu -> non_collinear r1 r2 -> (0 <= m)%Z -> -1 < x -> (m = 0%Z \/ x < 1) ->
  let theta := @get_transfer_angle XR (vfin r1) (vfin r2) prograde in
  let i_h := @get_orbit_normal_vector XR (vfin r1) (vfin r2) prograde in
  let i_r1 := @vdivs XR (vfin r1) (Fin (vnorm r1)) in
  let i_r2 := @vdivs XR (vfin r2) (Fin (vnorm r2)) in
  @goo_geometry XR (Fin mu) (Fin (vnorm r1)) (Fin (vnorm r2)) (@ndiv XR theta (nofZ 2)) = (mus, s, k, q, rho, sig) ->
  @goo_components XR m (Fin (vnorm r1)) (Fin (vnorm r2)) mus k q rho sig (Fin x) = (vr1, vt1, vr2, vt2) ->
  @vadd XR (vscale vr1 i_r1) (vscale vt1 (cross i_h i_r1)) = vfin v1 ->
  @vadd XR (vscale vr2 i_r2) (vscale vt2 (cross i_h i_r2)) = vfin v2 ->
  exists T, lambert_solution mu r1 v1 r2 v2 T m /\
    @tlamb XR m q k (Fin x) 0 =
      (@ndiv XR (nmul (nmul (nofZ 4) mus) (Fin T)) (sq s), Fin 0, Fin 0, Fin 0).
Proof.
  intros mu p r1 r2 m x mus s k q rho sig vr1 vt1 vr2 vt2 v1 v2 Hmu Hn Hm Hx HM theta i_h i_r1 i_r2 EG EC E1 E2.
  destruct (transfer_angle r1 r2 p Hn) as (th & ET & F). unfold theta in EG. rewrite ET in EG.
  destruct (gooding_velocities_fg mu p r1 r2 th m x vr1 vt1 vr2 vt2 v1 v2 mus s k q rho sig Hn Hmu F EG EC E1 E2)
    as (qq & y & -> & -> & -> & -> & LF & Hy & Hy2 & FG).
  destruct (goo_T_time mu p r1 r2 qq m x y v1 v2 Hn Hmu LF Hm Hx HM Hy Hy2 FG) as (T & SL & EV).
  exists T. split; [exact SL|]. pose proof (lambda_bounds _ _ _ _ Hn LF) as Hq. destruct (semiper_pos _ _ Hn) as [Hs _].
  assert (HM' : m = 0%Z \/ ((0 < m)%Z /\ x < 1)) by (destruct (Z.eq_dec m 0); [auto|right; split; [lia|destruct HM; [contradiction|assumption]]]).
  rewrite tlamb_F by (assumption || lia). cbn [Z.leb Z.eqb Z.compare]. rewrite EV. unfold sq. xunf. cbn [nofZ XR xmul xlift2].
  rewrite xdiv_F by nra. reflexivity.
Qed.
Print Assumptions C46_gooding_time.

(** Without revolutions one pass of Halley's iteration, whatever its number and
    tolerances, leaves [x] where it is exactly when the flight time of the
    solution rebuilt from [x] is the requested one. *)
Theorem C46_gooding_rests_at_solutions : forall mu prograde r1 r2 x mus s k q rho sig vr1 vt1 vr2 vt2 v1 v2,
  0 < mu -> non_collinear r1 r2 -> -1 < x ->
  let theta := @get_transfer_angle XR (vfin r1) (vfin r2) prograde in
  let i_h := @get_orbit_normal_vector XR (vfin r1) (vfin r2) prograde in
  let i_r1 := @vdivs XR (vfin r1) (Fin (vnorm r1)) in
  let i_r2 := @vdivs XR (vfin r2) (Fin (vnorm r2)) in
  @goo_geometry XR (Fin mu) (Fin (vnorm r1)) (Fin (vnorm r2)) (@ndiv XR theta (nofZ 2)) = (mus, s, k, q, rho, sig) ->
  @goo_components XR 0 (Fin (vnorm r1)) (Fin (vnorm r2)) mus k q rho sig (Fin x) = (vr1, vt1, vr2, vt2) ->
  @vadd XR (vscale vr1 i_r1) (vscale vt1 (cross i_h i_r1)) = vfin v1 ->
  @vadd XR (vscale vr2 i_r2) (vscale vt2 (cross i_h i_r2)) = vfin v2 ->
  exists T, lambert_solution mu r1 v1 r2 v2 T 0 /\
    forall tof atol rtol i xold,
      let tin := @ndiv XR (nmul (nmul (nofZ 4) mus) (Fin tof)) (sq s) in
      T = tof <->
      match @goo_iter_body XR 0 q k tin atol rtol i (Fin x, xold) with
      | Break (x', _) => x' = Fin x
      | Next (x', _) => x' = Fin x
      | Raise _ => False
      end.
Proof.
  intros mu p r1 r2 x mus s k q rho sig vr1 vt1 vr2 vt2 v1 v2 Hmu Hn Hx theta i_h i_r1 i_r2 EG EC E1 E2.
  destruct (transfer_angle r1 r2 p Hn) as (th & ET & F). unfold theta in EG. rewrite ET in EG.
  destruct (gooding_velocities_fg mu p r1 r2 th 0 x vr1 vt1 vr2 vt2 v1 v2 mus s k q rho sig Hn Hmu F EG EC E1 E2)
    as (qq & y & -> & -> & -> & -> & LF & Hy & Hy2 & FG).
  destruct (goo_T_time mu p r1 r2 qq 0 x y v1 v2 Hn Hmu LF ltac:(lia) Hx (or_introl eq_refl) Hy Hy2 FG) as (T & SL & EV).
  exists T. split; [exact SL|]. intros tof atol rtol i xold. cbv zeta.
  pose proof (lambda_bounds _ _ _ _ Hn LF) as Hq. destruct (semiper_pos _ _ Hn) as [Hs _].
  unfold goo_iter_body. rewrite tlamb_F by (auto; lia). cbn [Z.leb Z.eqb Z.compare Pos.compare Pos.compare_cont].
  pose proof (goo_T1_neg qq x Hq Hx) as HN. set (d := goo_T1 qq 0 x) in *. set (d2 := goo_T2 qq 0 x).
  set (S := semiper r1 r2) in *. set (g := sqrt (mu * S / 2)) in *. rewrite EV.
  assert (Hg : 0 < g) by (apply sqrt_lt_R0; nra).
  assert (EN : @nneqb XR (Fin d) (nofZ 0) = true).
  { unfold nneqb. replace (@neqb XR (Fin d) (nofZ 0)) with false; [reflexivity|]. symmetry. apply xeqb_Ff. lra. }
  rewrite EN. unfold sq. xunf. cbn [nofZ XR xmul xlift2 xsub]. rewrite (xdiv_F _ (S * S)) by nra. cbn [xmul xlift2 xsub].
  rewrite (xdiv_F _ 2) by lra. cbn [xmul xlift2 xadd].
  set (t := 4 * g * tof / (S * S) - 4 * g * T / (S * S)).
  assert (Et : T = tof <-> t = 0).
  { unfold t. split; [intros ->; ring|]. intros H.
    assert (4 * g / (S * S) * (tof - T) = 0) as H' by (rewrite <- H; field; lra).
    apply Rmult_integral in H'. destruct H' as [H'|H']; [|lra].
    assert (0 < 4 * g / (S * S)) by (apply Rdiv_lt_0_compat; nra). lra. }
  rewrite Et. clearbody t. clear Et.
  assert (X : forall (x' : xr), (x' = xadd (Fin x) (xdiv (Fin (t * d)) (Fin (d * d + t * d2 / 2)))) -> (t = 0 <-> x' = Fin x)).
  { intros x' ->. destruct (Req_dec (d * d + t * d2 / 2) 0) as [Z|Z].
    - unfold xdiv. destruct (Req_EM_T (d * d + t * d2 / 2) 0); [|contradiction]. cbn [xadd xlift2]. split; [|discriminate].
      intros ->. nra.
    - rewrite xdiv_F by assumption. cbn [xadd xlift2]. split.
      + intros ->. apply (f_equal Fin). field. intros K. apply Z. lra.
      + intros K. apply Fin_inj in K. assert (K2 : t * d / (d * d + t * d2 / 2) = 0) by lra.
        assert (t * d = 0) by (apply (f_equal (fun v => v * (d * d + t * d2 / 2))) in K2; unfold Rdiv in K2; rewrite Rmult_assoc, Rinv_l in K2 by (exact Z); lra).
        nra. }
  match goal with |- context [if ?b then Break (?a, _) else _] => specialize (X a eq_refl); destruct b; exact X end.
Qed.
Print Assumptions C46_gooding_rests_at_solutions.

(** A case meeting the hypotheses: a quarter turn, at the minimum-energy orbit [x = 0]. *)
Example C46_case : exists mus s k q rho sig vr1 vt1 vr2 vt2 v1 v2,
  non_collinear ex_r1 ex_r2 /\
  let theta := @get_transfer_angle XR (vfin ex_r1) (vfin ex_r2) true in
  let i_h := @get_orbit_normal_vector XR (vfin ex_r1) (vfin ex_r2) true in
  let i_r1 := @vdivs XR (vfin ex_r1) (Fin (vnorm ex_r1)) in
  let i_r2 := @vdivs XR (vfin ex_r2) (Fin (vnorm ex_r2)) in
  @goo_geometry XR (Fin 1) (Fin (vnorm ex_r1)) (Fin (vnorm ex_r2)) (@ndiv XR theta (nofZ 2)) = (mus, s, k, q, rho, sig) /\
  @goo_components XR 0 (Fin (vnorm ex_r1)) (Fin (vnorm ex_r2)) mus k q rho sig (Fin 0) = (vr1, vt1, vr2, vt2) /\
  @vadd XR (vscale vr1 i_r1) (vscale vt1 (cross i_h i_r1)) = vfin v1 /\
  @vadd XR (vscale vr2 i_r2) (vscale vt2 (cross i_h i_r2)) = vfin v2.
Proof.
  pose proof ex_non_collinear as Hn. destruct (norms_pos _ _ Hn) as [N1 N2].
  destruct (transfer_angle ex_r1 ex_r2 true Hn) as (th & ET & F).
  destruct (gooding_geometry_F 1 true ex_r1 ex_r2 th Hn Rlt_0_1 F) as (q & sig & EG & Hsig & Esig & LF & Hd).
  pose proof (lambda_bounds _ _ _ _ Hn LF) as Hq. destruct (semiper_pos _ _ Hn) as [Hs Hcs].
  assert (EK : chord ex_r1 ex_r2 / semiper ex_r1 ex_r2 = 1 - q * q).
  { pose proof (lf_sq _ _ _ _ LF) as Hl. apply Rmult_eq_reg_l with (semiper ex_r1 ex_r2); [|lra]. rewrite Rmult_minus_distr_l, Hl. field. lra. }
  do 6 eexists.
  assert (EC : exists a b c d, @goo_components XR 0 (Fin (vnorm ex_r1)) (Fin (vnorm ex_r2)) (Fin (sqrt (1 * semiper ex_r1 ex_r2 / 2)))
     (Fin (chord ex_r1 ex_r2 / semiper ex_r1 ex_r2)) (Fin q) (Fin ((vnorm ex_r1 - vnorm ex_r2) / chord ex_r1 ex_r2)) (Fin sig) (Fin 0) = (Fin a, Fin b, Fin c, Fin d)).
  { unfold goo_components. rewrite EK. unfold tlamb, tl_velocity. cbn [Z.eqb Pos.eqb]. xunf. cbn [nofZ XR xmul xadd xsub xlift2].
    rewrite xsqrt_F by nra. cbn [xmul xadd xsub xlift2].
    rewrite (proj2 (xleb_F (q * 0) 0)) by lra. rewrite (proj2 (xeqb_F (q * 0) 0)) by ring.
    rewrite xsqrt_F by assumption. cbn [xmul xadd xsub xlift2 xopp xlift1]. rewrite !xdiv_F by lra. do 4 eexists. reflexivity. }
  destruct EC as (a & b & c & d & EC). do 6 eexists. split; [exact Hn|]. cbv zeta. rewrite ET. split; [exact EG|]. split; [exact EC|].
  rewrite orbit_normal_F by assumption. rewrite !vdivs_F, !cross_F by lra. rewrite !vscale_F, !vadd_F. split; reflexivity.
Qed.
