(** * izzo2015 solves Lambert's problem: C16. *)
From Coq Require Import String ZArith List Bool Lia Reals Lra Psatz.
From Verif Require Import Num XReal XRealLemmas MApi ApiFacts Loops MLinalg MScipy MIzzo MInit
  Spec SpecLambert VecFacts VecXR CallXR Godal GodalXR GodalIzzo LambertRev LambertZ IzzoXR PropertiesAngles PropertiesMotion PropertiesOrbit OrbitXR
  PropertiesFlags PropertiesBudget.
Local Open Scope R_scope.

(** ** C16 *)

(** Whatever izzo2015 returns, there is a number [x] (the accepted iterate)
    such that the returned velocities belong to an orbit of energy
    [- mu (1 - x^2) / s] ([s] is half the perimeter of the triangle formed by
    the centre and both positions).  If [x > -1] (and [x < 1] when revolutions
    are asked for) these are the velocities of a two-body motion from [r1] to
    [r2] with exactly [M] complete revolutions, and the duration [T] of that
    motion is what izzo's time equation gives for [x], in the unit of time
    [sqrt (s^3 / (2 mu))].  The last step of the iteration, from [x0] to [x],
    is shorter than the tolerance. *)
Theorem C16_izzo_solves_lambert :
  forall ev mu r1 r2 tof M prograde low_path maxiter atol rtol o v1 v2,
  0 < mu -> (0 <= M)%Z -> non_collinear r1 r2 ->
  @run XR Izzo ev (call mu r1 r2 tof M prograde low_path maxiter atol rtol false) = Ok o ->
  delivers o v1 v2 ->
  let s := (vnorm r1 + vnorm r2 + vnorm (vminus r2 r1)) / 2 in
  exists ll x0 x,
    s * (ll * ll) = s - vnorm (vminus r2 r1) /\
    (vz (vcross r1 r2) <> 0 -> (0 < ll <-> short_way prograde r1 r2)) /\
    Rabs (x - x0) < rtol * Rabs x0 + atol /\
    @izzo_householder_body XR (Fin (sqrt (2 * mu / (s * s * s)) * tof)) (Fin ll) (Fin (IZR M)) (Fin atol) (Fin rtol) 1 (Fin x0)
      = Break (Fin x) /\
    energy mu r1 v1 = - mu * (1 - x * x) / s /\
    (-1 < x -> (M = 0%Z \/ x < 1) ->
     exists T, lambert_solution mu r1 v1 r2 v2 T M /\
       @izzo_tof XR (Fin x) (Fin 0) (Fin ll) (Fin (IZR M)) = Fin (sqrt (2 * mu / (s * s * s)) * T)).
Proof.
  intros ev mu r1 r2 tof M p l mi at_ rt o v1 v2 Hmu HM Hn H D. cbn [run] in H.
  destruct (C18_izzo_converged ev _ _ H) as (r1' & r2' & x0 & x & E1 & E2 & B).
  cbn [a_mu a_r1 a_r2 a_tof a_M a_is_prograde a_is_low_path a_maxiter a_atol a_rtol a_full_output call] in E1, E2, B.
  rewrite as_vec_of_vec in E1, E2. apply ok_inj in E1, E2. subst r1' r2'.
  destruct (izzo_geometry_F r1 r2 p Hn) as (e & ll & t1 & t2 & EG & He & Hel & Hl & Et1 & Et2).
  rewrite EG in B. destruct B as (B1 & B2 & B3). destruct D as [D1 D2]. rewrite D1, D2 in B3. symmetry in B3.
  destruct (izzo_velocities_fg _ _ _ _ _ _ _ _ _ _ _ Hn Hmu He Hel Hl Et1 Et2 B3) as (xr & yr & -> & Ey & Hy0 & Hy & FG).
  destruct (semiper_pos _ _ Hn) as [Hs _].
  destruct (xy_lambert _ _ _ _ _ _ _ _ _ Hn Hmu Hl Hy0 Hy FG) as [EE EL]. cbv zeta in EL.
  assert (X0 : exists a, x0 = Fin a).
  { destruct x0 as [a|]; [eauto|]. exfalso. xunf. cbn in B1. discriminate. }
  destruct X0 as [a ->]. intros s. change s with (semiper r1 r2). clear s. set (s := semiper r1 r2) in *.
  exists ll, a, xr. split; [apply Hl|]. split; [apply Hl|].
  split. { xunf. cbn [xsub xadd xmul xlift2 xabs xlift1] in B1. apply xltb_F in B1. exact B1. }
  split.
  { replace (Fin (sqrt (2 * mu / (s * s * s)) * tof)) with
      (@nmul XR (@nsqrt XR (@ndiv XR (@nmul XR (nofZ 2) (Fin mu)) (@cube XR (Fin s)))) (Fin tof)); [exact B2|].
    assert (Hc : 0 < s * s * s) by (apply Rmult_lt_0_compat; nra). clear - Hc Hmu. xunf. cbn [xmul xlift2].
    rewrite xdiv_F by lra. rewrite xsqrt_F by (apply Rlt_le, Rdiv_lt_0_compat; lra). reflexivity. }
  split; [exact EE|]. intros Hx HMx. destruct (EL M 0 HM Hx HMx) as (T & LT & ET). exists T. split; [exact LT|].
  unfold izzo_tof. rewrite Ey, ET. f_equal. ring.
Qed.
Print Assumptions C16_izzo_solves_lambert.

(** In particular, every elliptic answer solves Lambert's problem with the
    requested number of revolutions for some time of flight. *)
Corollary C16_izzo_elliptic :
  forall ev mu r1 r2 tof M prograde low_path maxiter atol rtol o v1 v2,
  0 < mu -> (0 <= M)%Z -> non_collinear r1 r2 ->
  @run XR Izzo ev (call mu r1 r2 tof M prograde low_path maxiter atol rtol false) = Ok o ->
  delivers o v1 v2 -> energy mu r1 v1 < 0 ->
  exists T, lambert_solution mu r1 v1 r2 v2 T M.
Proof.
  intros ev mu r1 r2 tof M p l mi at_ rt o v1 v2 Hmu HM Hn H D HE.
  destruct (C16_izzo_solves_lambert _ _ _ _ _ _ _ _ _ _ _ _ _ _ Hmu HM Hn H D) as (ll & x0 & x & _ & _ & _ & _ & EE & EL).
  destruct (semiper_pos _ _ Hn) as [Hs _].
  assert (X : -1 < x < 1).
  { rewrite EE in HE. change ((vnorm r1 + vnorm r2 + vnorm (vminus r2 r1)) / 2) with (semiper r1 r2) in HE.
    assert (0 < 1 - x * x).
    { destruct (Rlt_dec 0 (1 - x * x)) as [|N]; [assumption|exfalso].
      assert (0 <= - mu * (1 - x * x) / semiper r1 r2); [|lra].
      apply Rmult_le_pos; [nra|]. left. now apply Rinv_0_lt_compat. }
    split; nra. }
  destruct EL as (T & L & _); [lra|lra|]. now exists T.
Qed.
Print Assumptions C16_izzo_elliptic.

(** ** A run for every geometry: the flight time of [x = 0] *)
Lemma izzo_velocities_F mu r1 r2 ll t1 t2 x y :
  non_collinear r1 r2 -> 0 < mu ->
  exists v1 v2, @izzo_velocities XR (Fin mu) (vfin r1) (vfin r2) (Fin (vnorm r1)) (Fin (vnorm r2))
    (Fin (chord r1 r2)) (Fin (semiper r1 r2)) (Fin ll) (vfin t1) (vfin t2) (Fin x) (Fin y) = (vfin v1, vfin v2).
Proof.
  intros Hn Hmu. destruct (norms_pos _ _ Hn) as [N1 N2]. destruct (semiper_pos _ _ Hn) as [Hs _]. pose proof (chord_pos _ _ Hn) as Hc.
  destruct (triangle _ _ Hn) as (_ & T1 & T2).
  unfold izzo_velocities, izzo_reconstruct. rewrite !vdivs_F by lra.
  set (rho := (vnorm r1 - vnorm r2) / chord r1 r2).
  assert (Er : @ndiv XR (@nsub XR (Fin (vnorm r1)) (Fin (vnorm r2))) (Fin (chord r1 r2)) = Fin rho).
  { xunf. cbn [xsub xlift2]. apply xdiv_F. lra. }
  assert (Eg : @nsqrt XR (@ndiv XR (@nmul XR (Fin mu) (Fin (semiper r1 r2))) (nofZ 2)) = Fin (sqrt (mu * semiper r1 r2 / 2))).
  { xunf. cbn [xmul xlift2]. rewrite xdiv_F by lra. apply xsqrt_F. assert (0 < mu * semiper r1 r2) by nra. lra. }
  assert (Rb : -1 < rho < 1).
  { unfold rho. split; [apply Rmult_lt_reg_r with (chord r1 r2); [assumption|]|apply Rmult_lt_reg_r with (chord r1 r2); [assumption|]];
      unfold Rdiv; rewrite Rmult_assoc, Rinv_l by lra; lra. }
  assert (Es : @nsqrt XR (@nsub XR (nofZ 1) (@sq XR (Fin rho))) = Fin (sqrt (1 - rho * rho))).
  { xunf. cbn [xmul xsub xlift2]. apply xsqrt_F. nra. }
  rewrite Er, Eg, Es. clearbody rho. set (g := sqrt _). set (sg := sqrt _). clearbody g sg.
  xunf. cbn [xmul xsub xadd xopp xlift1 xlift2]. rewrite !xdiv_F by lra.
  unfold vfin, vmap, vmult; cbn [vx vy vz].
  cbn [xmul xsub xadd xopp xlift1 xlift2]. eexists (V3 _ _ _), (V3 _ _ _). reflexivity.
Qed.

Example C16_case : forall ev mu r1 r2 p l rtol,
  0 < mu -> non_collinear r1 r2 ->
  exists tof o v1 v2, 0 < tof /\
    @run XR Izzo ev (call mu r1 r2 tof 0 p l 35 (1 / 100000) rtol false) = Ok o /\
    delivers o v1 v2 /\ energy mu r1 v1 < 0.
Proof.
  intros ev mu r1 r2 p l rt Hmu Hn. destruct (semiper_pos _ _ Hn) as [Hs _].
  destruct (izzo_geometry_F r1 r2 p Hn) as (e & ll & t1 & t2 & EG & He & Hel & Hl & Et1 & Et2).
  pose proof (lambda_bounds _ _ _ _ Hn Hl) as Hb. set (s := semiper r1 r2) in *.
  set (y0 := sqrt (1 - ll * ll)). assert (Q : 0 < 1 - ll * ll) by nra. destruct (sqrt_facts _ Q) as [Y1 Y2]. fold y0 in Y1, Y2.
  set (T := acos ll + ll * y0).
  destruct (acos_bound ll) as [A1 A2].
  assert (T1 : 0 < T < PI).
  { (* acos ll + ll sqrt (1 - ll^2) = w + cos w sin w *)
    unfold T. set (w := acos ll) in *. assert (Ec : cos w = ll) by (apply cos_acos; lra).
    assert (A1' : 0 < w) by (destruct A1 as [|E]; [assumption|exfalso; rewrite <- E, cos_0 in Ec; lra]).
    assert (A2' : w < PI) by (destruct A2 as [|E]; [assumption|exfalso; rewrite E, cos_PI in Ec; lra]).
    assert (Es : y0 = sin w).
    { assert (0 < sin w) by (apply sin_gt_0; assumption). pose proof (sin2_cos2 w) as SC. unfold Rsqr in SC. rewrite Ec in SC. nra. }
    rewrite Es, <- Ec.
    assert (S0 : 0 < sin w) by (apply sin_gt_0; assumption). destruct (SIN_bound w) as [_ S1]. destruct (COS_bound w) as [C1 C2].
    pose proof PI2_3_2 as P3.
    destruct (Rle_dec 0 (cos w)) as [P|P].
    - split; [nra|]. assert (W2 : w <= PI / 2).
      { destruct (Rle_dec w (PI / 2)) as [|N]; [assumption|exfalso].
        assert (cos w < 0) by (apply cos_lt_0; lra). lra. }
      assert (cos w * sin w <= 1) by nra. unfold Rdiv in *. lra.
    - assert (L4 : sin w < w) by (apply sin_lt_x; assumption). split; nra. }
  assert (Hc : 0 < s * s * s) by (apply Rmult_lt_0_compat; nra).
  set (k := sqrt (2 * mu / (s * s * s))). assert (Hk : 0 < k) by (apply sqrt_lt_R0, Rdiv_lt_0_compat; lra).
  exists (T / k).
  assert (EY : @izzo_y XR (Fin 0) (Fin ll) = Fin y0).
  { unfold izzo_y. xunf. cbn [xmul xsub xlift2]. rewrite xsqrt_F by nra. unfold y0. do 2 f_equal. ring. }
  destruct (izzo_velocities_F mu r1 r2 ll t1 t2 0 y0 Hn Hmu) as (v1 & v2 & EV).
  eexists (Pair _ _), v1, v2. split; [apply Rdiv_lt_0_compat; lra|].
  assert (R : @run XR Izzo ev (call mu r1 r2 (T / k) 0 p l 35 (1 / 100000) rt false) = Ok (Pair (vfin v1) (vfin v2))).
  2:{ split; [exact R|]. split; [split; reflexivity|].
      rewrite <- EY in EV.
      destruct (izzo_velocities_fg _ _ _ _ _ _ _ _ _ _ _ Hn Hmu He Hel Hl Et1 Et2 EV) as (xr & yr & Ex & Ey & Hy0 & Hy & FG).
      apply Fin_inj in Ex. subst xr.
      destruct (xy_lambert _ _ _ _ _ _ _ _ _ Hn Hmu Hl Hy0 Hy FG) as [EE _]. rewrite EE. fold s.
      assert (0 < mu / s) by (apply Rdiv_lt_0_compat; assumption).
      replace (- mu * (1 - 0 * 0) / s) with (- (mu / s)) by (field; lra). lra. }
  cbn [run]. unfold izzo2015.
  cbn [call a_mu a_r1 a_r2 a_tof a_M a_is_prograde a_is_low_path a_maxiter a_atol a_rtol a_full_output raise_if bind].
  rewrite !as_vec_of_vec. cbn [bind]. rewrite EG. cbv beta iota.
  replace (@nmul XR (@nsqrt XR (@ndiv XR (@nmul XR (nofZ 2) (Fin mu)) (@cube XR (Fin s)))) (Fin (T / k))) with (Fin T).
  2:{ assert (Ek : @nsqrt XR (@ndiv XR (@nmul XR (nofZ 2) (Fin mu)) (@cube XR (Fin s))) = Fin k).
      { clear - Hc Hmu. xunf. cbn [xmul xlift2]. rewrite xdiv_F by lra. apply xsqrt_F. apply Rlt_le, Rdiv_lt_0_compat; lra. }
      rewrite Ek. xunf. cbn [xmul xlift2]. f_equal. field. lra. }
  assert (ET : @izzo_tof_y XR (Fin 0) (Fin y0) (Fin T) (Fin ll) (Fin 0) = Fin 0).
  { unfold izzo_tof_y.
    replace (@nltb XR (@nsqrt XR (@nlit XR 6 10)) (Fin 0)) with false.
    2:{ symmetry. xunf. rewrite xsqrt_F by lra. apply xltb_Ff. apply sqrt_pos. }
    rewrite andb_false_r, andb_false_l. unfold izzo_psi.
    replace (@nleb XR (@nopp XR (nofZ 1)) (Fin 0)) with true by (symmetry; apply xleb_F; lra).
    replace (@nltb XR (Fin 0) (nofZ 1)) with true by (symmetry; apply xltb_F; lra). cbn [andb].
    xunf. cbn [xmul xsub xadd xabs xlift1 xlift2].
    replace (0 * y0 + ll * (1 - 0 * 0)) with ll by ring. rewrite xacos_F by lra.
    replace (Rabs (1 - 0 * 0)) with 1 by (replace (1 - 0 * 0) with 1 by ring; symmetry; apply Rabs_R1).
    rewrite xsqrt_F by lra. rewrite sqrt_1. cbn [xmul xsub xadd xlift2]. rewrite xdiv_F by lra. cbn [xmul xsub xadd xlift2].
    rewrite xdiv_F by lra. cbn [xmul xsub xadd xlift2]. unfold T. f_equal. field. }
  unfold izzo_find_xy.
  assert (L : negb (@nltb XR (@nabs XR (Fin ll)) (@nofZ XR 1)) = false).
  { apply negb_false_iff. xunf. cbn [xabs xlift1]. apply xltb_F. apply Rabs_def1; lra. }
  rewrite L. cbv zeta.
  replace (@nfloor XR (@ndiv XR (Fin T) npi)) with (Fin 0).
  2:{ xunf. rewrite xdiv_F by lra. cbn [xlift1]. f_equal. unfold Rfloor.
      assert (E : up (T / PI) = 1%Z).
      { symmetry. apply tech_up.
        - apply Rmult_lt_reg_r with PI; [lra|]. unfold Rdiv. rewrite Rmult_assoc, Rinv_l by lra. lra.
        - assert (0 < T / PI) by (apply Rdiv_lt_0_compat; lra). lra. }
      unfold Int_part. rewrite E. reflexivity. }
  replace (@nltb XR (nofZ 0) (Fin 0)) with false by (symmetry; apply xltb_Ff; lra). rewrite andb_false_r. cbn [bind].
  replace (@nltb XR (Fin 0) (@nofZ XR 0)) with false by (symmetry; apply xltb_Ff; lra).
  assert (G : @izzo_initial_guess XR (Fin T) (Fin ll) (@nofZ XR 0) l = Fin 0).
  { unfold izzo_initial_guess. replace (@neqb XR (nofZ 0) (nofZ 0)) with true by (symmetry; apply xeqb_F; reflexivity). cbv zeta.
    assert (ET0 : @nadd XR (@nadd XR (@nacos XR (Fin ll)) (@nmul XR (Fin ll) (@nsqrt XR (@nsub XR (nofZ 1) (@sq XR (Fin ll)))))) (@nmul XR (nofZ 0) npi) = Fin T).
    { xunf. rewrite xacos_F by lra. cbn [xmul xsub xlift2]. rewrite xsqrt_F by lra. cbn [xmul xadd xlift2]. unfold T, y0. f_equal. ring. }
    rewrite ET0. replace (@nleb XR (Fin T) (Fin T)) with true by (symmetry; apply xleb_F; lra).
    xunf. rewrite !xdiv_F by lra. replace (T / T) with 1 by (field; lra).
    rewrite xpow_F by lra. unfold Rpower. rewrite ln_1, Rmult_0_r, exp_0. cbn [xsub xlift2]. f_equal. ring. }
  rewrite G.
  assert (HB : @izzo_householder_body XR (Fin T) (Fin ll) (nofZ 0) (Fin (1 / 100000)) (Fin rt) 1 (Fin 0) = Break (Fin 0)).
  { unfold izzo_householder_body. rewrite EY. change (@nofZ XR 0) with (Fin 0). rewrite ET. cbv zeta.
    assert (Ed : @izzo_tof_p XR (Fin 0) (Fin y0) (@nadd XR (Fin 0) (Fin T)) (Fin ll) = Fin (-2)).
    { clear - Y1. unfold izzo_tof_p. xunf. cbn [xmul xsub xadd xlift2]. rewrite !xdiv_F by lra. cbn [xmul xsub xadd xlift2].
      f_equal. field. lra. }
    rewrite Ed.
    assert (E2 : exists q, @izzo_tof_p2 XR (Fin 0) (Fin y0) (@nadd XR (Fin 0) (Fin T)) (Fin (-2)) (Fin ll) = Fin q).
    { clear - Y1. unfold izzo_tof_p2. xunf. cbn [xmul xsub xadd xlift2].
      assert (y0 * y0 * y0 <> 0) by (apply Rgt_not_eq; apply Rmult_lt_0_compat; [apply Rmult_lt_0_compat|]; assumption).
      rewrite !xdiv_F by assumption. cbn [xmul xsub xadd xlift2]. rewrite ?xdiv_F by lra. eexists; reflexivity. }
    destruct E2 as [q2 E2]. rewrite E2.
    assert (E3 : exists q, @izzo_tof_p3 XR (Fin 0) (Fin y0) (Fin (-2)) (Fin q2) (Fin ll) = Fin q).
    { clear - Y1. unfold izzo_tof_p3. xunf. cbn [npown nofZ nmul XR xmul xsub xadd xlift2].
      match goal with |- context [xdiv (Fin _) (Fin ?d)] => assert (d <> 0) end.
      { apply Rgt_not_eq. repeat apply Rmult_lt_0_compat; lra. }
      rewrite xdiv_F by assumption. cbn [xmul xsub xadd xlift2]. rewrite ?xdiv_F by lra. eexists; reflexivity. }
    destruct E3 as [q3 E3]. rewrite E3.
    clear. xunf. cbn [xmul xsub xadd xlift2].
    rewrite (xdiv_F (0 * q2)), (xdiv_F (q3 * (0 * 0))) by lra. cbn [xmul xsub xadd xlift2].
    rewrite ?xdiv_F by lra. cbn [xmul xsub xadd xlift2].
    match goal with |- context [0 - 0 * ?u] => replace (0 - 0 * u) with 0 by ring end.
    cbn [xabs xlift1]. replace (xltb _ _) with true; [reflexivity|].
    symmetry. cbn [xmul xsub xadd xlift2]. apply xltb_F. replace (0 - 0) with 0 by ring. rewrite Rabs_R0. lra. }
  unfold izzo_householder. change (Z.to_nat 35) with 35%nat. cbn [for_range]. rewrite HB. cbn [bind].
  rewrite EY; fold s in EV; rewrite EV. reflexivity.
Qed.
