(** * What gauss1809 returns: C37 (and C11, C12 for gauss1809). *)
From Coq Require Import Reals ZArith String List Bool Lra Lia Psatz.
Import ListNotations.
From Verif Require Import Num XReal XRealLemmas MApi ApiFacts MScipy MLinalg MAssertions MAngles MGauss MInit
  Loops Spec VecFacts VecXR AnglesXR CallXR PropertiesAngles PropertiesMotion
  Godal GodalXR GodalPan OrbitXR PropertiesOrbit.
Local Open Scope R_scope.

Lemma tan_half th : sin th <> 0 -> cos (th / 2) <> 0 -> tan (th / 2) = (1 - cos th) / sin th.
Proof.
  intros Hs Hc. unfold tan.
  replace (cos th) with (cos (2 * (th / 2))) by (f_equal; field).
  replace (sin th) with (sin (2 * (th / 2))) in * by (f_equal; field).
  rewrite cos_2a_sin, sin_2a in *.
  assert (sin (th / 2) <> 0) by (intros E; rewrite E in Hs; apply Hs; ring).
  field. auto.
Qed.

(** The velocities in terms of the orbital parameter [q]. *)
Lemma gau_velocities_inv mu p r1 r2 th q v1 v2 :
  non_collinear r1 r2 -> 0 < mu -> angle_facts p r1 r2 th ->
  @gau_velocities XR (Fin mu) (vfin r1) (vfin r2) (Fin (vnorm r1)) (Fin (vnorm r2)) (Fin th) q
    = (vfin v1, vfin v2) ->
  exists k, q = Fin k /\ 0 < k /\
    let n1 := vnorm r1 in let n2 := vnorm r2 in let D := 1 - cos th in
    let g := n1 * n2 * sin th / sqrt (mu * k) in
    v1 = vmult (/ g) (vminus r2 (vmult (1 - n2 * D / k) r1)) /\
    v2 = vplus (vmult (sqrt (mu / k) * (D / sin th) * (D / k - 1 / n1 - 1 / n1)) r1)
               (vmult (1 - n1 * D / k) v1).
Proof.
  intros Hn Hm F H. destruct (norms_pos _ _ Hn) as [N1 N2].
  unfold gau_velocities in H. apply pair_equal_spec in H. destruct H as [H1 H2]. rewrite H1 in H2.
  assert (Q : exists k, q = Fin k /\ 0 < k).
  { clear H2. vinv. xunf. xinv. subst.
    match goal with HH : 0 <= mu * ?k |- _ => exists k end. split; [reflexivity|].
    match goal with HH : 0 <= mu * ?k, HN : ?k <> 0 |- _ => nra end. }
  destruct Q as (k & -> & Hk). exists k. split; [reflexivity|]. split; [assumption|].
  assert (Hmk : 0 < mu * k) by nra. pose proof (sqrt_lt_R0 _ Hmk) as Qk.
  pose proof (af_sin _ _ _ _ F) as Hs.
  assert (Hc : cos (th / 2) <> 0).
  { intros E. pose proof (af_half_sq _ _ _ _ F) as E2. rewrite E in E2. pose proof (af_cos _ _ _ _ F). lra. }
  cbv zeta. split.
  - clear H2. vinv. xunf. xinv. subst. reflexivity.
  - clear H1. rewrite <- tan_half by assumption. vinv. xunf. xinv. subst. reflexivity.
Qed.

Lemma momentum_scaled r1 r2 f g :
  momentum r1 (vmult (/ g) (vminus r2 (vmult f r1))) = vmult (/ g) (vcross r1 r2).
Proof.
  unfold momentum. destruct r1 as [x1 y1 z1], r2 as [x2 y2 z2].
  unfold vcross, vmult, vminus. cbn [vx vy vz]. f_equal; ring.
Qed.

Lemma momentum_fg r1 r2 f g fd gd :
  momentum r2 (vplus (vmult fd r1) (vmult gd (vmult (/ g) (vminus r2 (vmult f r1)))))
  = vmult (f * gd * / g - fd) (vcross r1 r2).
Proof.
  unfold momentum. destruct r1 as [x1 y1 z1], r2 as [x2 y2 z2].
  unfold vcross, vplus, vmult, vminus. cbn [vx vy vz]. f_equal; ring.
Qed.

Lemma vmult_cancel a b v : v <> vzero -> vmult a v = vmult b v -> a = b.
Proof.
  intros Hv E. destruct v as [x y z]. unfold vmult in E. cbn [vx vy vz] in E. injection E as Ex Ey Ez.
  destruct (Req_dec a b) as [|D]; [assumption|exfalso]. apply Hv. unfold vzero.
  assert (L : forall t, a * t = b * t -> t = 0).
  { intros t Ht. assert ((a - b) * t = 0) by lra. apply Rmult_integral in H. destruct H; [lra|assumption]. }
  rewrite (L x Ex), (L y Ey), (L z Ez). reflexivity.
Qed.

Section Gauss.
Variables (mu : R) (p : bool) (r1 r2 : rvec) (th k : R) (v1 v2 : rvec).
Hypothesis Hn : non_collinear r1 r2.
Hypothesis Hm : 0 < mu.
Hypothesis F : angle_facts p r1 r2 th.
Hypothesis Hk : 0 < k.
Let n1 := vnorm r1. Let n2 := vnorm r2. Let D := 1 - cos th.
Let g := n1 * n2 * sin th / sqrt (mu * k).
Hypothesis E1 : v1 = vmult (/ g) (vminus r2 (vmult (1 - n2 * D / k) r1)).
Hypothesis E2 : v2 = vplus (vmult (sqrt (mu / k) * (D / sin th) * (D / k - 1 / n1 - 1 / n1)) r1)
               (vmult (1 - n1 * D / k) v1).

Lemma gauss_nz : 0 < n1 /\ 0 < n2 /\ 0 < D /\ g <> 0 /\ sin th <> 0 /\ 0 < sqrt (mu * k) /\
  g * sqrt (mu / k) = n1 * n2 * sin th / k.
Proof.
  destruct (norms_pos _ _ Hn) as [N1 N2]. pose proof (af_cos _ _ _ _ F). pose proof (af_sin _ _ _ _ F) as Hs.
  assert (Hmk : 0 < mu * k) by nra. pose proof (sqrt_lt_R0 _ Hmk) as Qk.
  repeat split; try assumption; try (unfold D; lra).
  - unfold g, Rdiv. repeat apply Rmult_integral_contrapositive_currified; try assumption;
      try (unfold n1, n2; lra). apply Rinv_neq_0_compat. lra.
  - rewrite sqrt_div_mult by assumption. unfold g. field. split; lra.
Qed.

Lemma gauss_radii : same_orbit mu r1 v1 r2 v2 -> n1 = n2.
Proof.
  destruct gauss_nz as (N1 & N2 & HD & Hg & Hs & Qk & Eg).
  intros (Hmom & _). rewrite E2, E1 in Hmom at 1. rewrite E1 in Hmom.
  rewrite momentum_scaled, momentum_fg in Hmom. apply vmult_cancel in Hmom; [|exact Hn].
  set (f := 1 - n2 * D / k) in *. set (gd := 1 - n1 * D / k) in *.
  set (fd := sqrt (mu / k) * (D / sin th) * (D / k - 1 / n1 - 1 / n1)) in *.
  assert (E : f * gd - g * fd = 1).
  { transitivity (g * (f * gd * / g - fd)); [field; assumption|]. rewrite <- Hmom. field. assumption. }
  assert (Z : g * fd = n1 * n2 * D / k * (D / k - 2 / n1)).
  { unfold fd. transitivity (g * sqrt (mu / k) * (D / sin th) * (D / k - 1 / n1 - 1 / n1)); [ring|].
    rewrite Eg. field. repeat split; lra. }
  rewrite Z in E. unfold f, gd in E.
  assert (W : D / k * (n2 - n1) = 0).
  { transitivity ((1 - n2 * D / k) * (1 - n1 * D / k) - n1 * n2 * D / k * (D / k - 2 / n1) - 1); [|lra].
    field. split; lra. }
  apply Rmult_integral in W. destruct W as [W|W]; [|lra].
  exfalso. assert (0 < D / k) by now apply Rdiv_lt_0_compat. lra.
Qed.

Lemma gauss_equal_radii : n1 = n2 -> godal mu p r1 r2 v1 v2.
Proof.
  destruct gauss_nz as (N1 & N2 & HD & Hg & Hs & Qk & Eg). intros E.
  assert (Sg : / g = sqrt (mu * k) / (n1 * n2 * sin th)).
  { unfold g. field. repeat split; lra. }
  apply (p_godal mu p r1 r2 th k (/ g) (sqrt (mu * k) / k * (1 - cos th) / sin th)); try assumption; try reflexivity.
  - rewrite E1. fold n1 n2 D. apply vec_eq; unfold vplus, vminus, vmult; cbn [vx vy vz];
      rewrite Sg; field; repeat split; lra.
  - rewrite E2, E1. fold n1 n2 D. rewrite sqrt_div_mult by assumption. rewrite Sg. rewrite <- E.
    apply vec_eq; unfold vplus, vminus, vmult; cbn [vx vy vz]; unfold D; field; repeat split; lra.
Qed.
End Gauss.

(** ** The whole solver *)

Lemma gauss_returns clock mu r1 r2 tof M p l mi a r f o v1 v2 :
  non_collinear r1 r2 ->
  @gauss1809 XR clock (call mu r1 r2 tof M p l mi a r f) = Ok o -> delivers o v1 v2 ->
  0 < mu /\ exists th k, angle_facts p r1 r2 th /\ 0 < k /\
    let n1 := vnorm r1 in let n2 := vnorm r2 in let D := 1 - cos th in
    let g := n1 * n2 * sin th / sqrt (mu * k) in
    v1 = vmult (/ g) (vminus r2 (vmult (1 - n2 * D / k) r1)) /\
    v2 = vplus (vmult (sqrt (mu / k) * (D / sin th) * (D / k - 1 / n1 - 1 / n1)) r1)
               (vmult (1 - n1 * D / k) v1).
Proof.
  intros Hn H D. unfold gauss1809 in H. enter H. split; [assumption|].
  destruct (transfer_angle r1 r2 p Hn) as (th & ET & F). rewrite ET in H.
  skip_check H. skip_check H.
  destruct (for_range _ _ _ _) as [[[ni x] y]| |]; try discriminate.
  apply tpi_inv in H; destruct H as (tpi & H & _).
  apply bind_ok in H. destruct H as (da & _ & H).
  match type of H with (let (_, _) := ?m in _) = _ => destruct m as [w1 w2] eqn:EV end.
  destruct (delivers_inv _ _ _ _ _ _ _ _ H D) as [-> ->].
  destruct (gau_velocities_inv _ _ _ _ _ _ _ _ Hn Hmu F EV) as (k & _ & Hk & E).
  exists th, k. auto.
Qed.

(** *** C37, first half *)

(** gauss1809 returns the two ends of one orbit exactly when both positions are
    at the same distance: gauss.py:156 subtracts [1/r1] twice instead of [1/r1]
    and [1/r2]. *)
Theorem C37_gauss_same_orbit_iff_equal_radii :
  forall ev mu r1 r2 tof M prograde low_path maxiter atol rtol full_output o v1 v2,
  non_collinear r1 r2 ->
  @run XR Gauss ev (call mu r1 r2 tof M prograde low_path maxiter atol rtol full_output) = Ok o ->
  delivers o v1 v2 ->
  (same_orbit mu r1 v1 r2 v2 <-> vnorm r1 = vnorm r2).
Proof.
  intros ev mu r1 r2 tof M p l mi a r f o v1 v2 Hn H D. cbn [run] in H.
  destruct (gauss_returns _ _ _ _ _ _ _ _ _ _ _ _ _ _ _ Hn H D) as (Hmu & th & k & F & Hk & E1 & E2).
  split.
  - eapply gauss_radii; eauto.
  - intros E. apply (godal_same_orbit mu p); try assumption. eapply gauss_equal_radii; eauto.
Qed.
Print Assumptions C37_gauss_same_orbit_iff_equal_radii.

(** *** C12 for gauss1809 *)

Theorem C12_gauss : forall ev mu r1 r2 tof M prograde low_path maxiter atol rtol full_output o v1 v2,
  vz (vcross r1 r2) <> 0 ->
  @run XR Gauss ev (call mu r1 r2 tof M prograde low_path maxiter atol rtol full_output) = Ok o ->
  delivers o v1 v2 ->
  direction_honoured prograde r1 r2 v1.
Proof.
  intros ev mu r1 r2 tof M p l mi a r f o v1 v2 Hz H D. cbn [run] in H.
  pose proof (vz_non_collinear _ _ Hz) as Hn.
  destruct (gauss_returns _ _ _ _ _ _ _ _ _ _ _ _ _ _ _ Hn H D) as (Hmu & th & k & F & Hk & E1 & E2).
  destruct (gauss_nz mu p r1 r2 th k Hn Hmu F Hk) as (N1 & N2 & HD & Hg & Hs & Qk & Eg).
  cbv zeta in E1. set (g := _ / sqrt (mu * k)) in *. set (c := 1 - _ * _ / k) in *.
  assert (EM : momentum r1 v1 = vmult (/ g) (vcross r1 r2)) by (rewrite E1; apply momentum_scaled).
  unfold direction_honoured, moves_as_requested. rewrite EM.
  split; [|split].
  - destruct r1 as [x1 y1 z1], r2 as [x2 y2 z2]. unfold vdot, vmult, vcross. cbn [vx vy vz]. ring.
  - destruct r1 as [x1 y1 z1], r2 as [x2 y2 z2]. unfold vdot, vmult, vcross. cbn [vx vy vz]. ring.
  - assert (Sg : 0 < / g <-> short_way p r1 r2).
    { rewrite <- (af_short _ _ _ _ F). unfold g.
      assert (P : 0 < vnorm r1 * vnorm r2 / sqrt (mu * k)) by (apply Rdiv_lt_0_compat; [now apply Rmult_lt_0_compat|assumption]).
      replace (vnorm r1 * vnorm r2 * sin th / sqrt (mu * k)) with (vnorm r1 * vnorm r2 / sqrt (mu * k) * sin th) by (field; lra).
      set (q := vnorm r1 * vnorm r2 / sqrt (mu * k)) in *. clearbody q. split; intros L.
      - apply Rinv_0_lt_compat in L. rewrite Rinv_involutive in L; nra.
      - apply Rinv_0_lt_compat. nra. }
    assert (Ig : / g <> 0) by (apply Rinv_neq_0_compat; exact Hg).
    unfold short_way in Sg. unfold vmult. cbn [vx vy vz]. set (i := / g) in *. clearbody i.
    set (z := vz (vcross r1 r2)) in *. clearbody z. clear - Sg Ig Hz.
    destruct p.
    + destruct (Rlt_dec 0 z) as [L|L]; [assert (0 < i) by tauto; nra|].
      assert (~ 0 < i) by tauto. assert (i < 0) by lra. nra.
    + destruct (Rlt_dec z 0) as [L|L]; [assert (0 < i) by tauto; nra|].
      assert (~ 0 < i) by tauto. assert (i < 0) by lra. nra.
Qed.
Print Assumptions C12_gauss.

(** ** Short transfers: the solver always returns *)

Lemma gau_X_loop_bounded : forall order (n : Z) B C K, (1 <= n)%Z -> 0 <= B -> 0 <= C -> exists L,
  forall x c X, Rabs x <= B -> Rabs c <= C -> Rabs X <= K ->
  exists y, @gau_X_loop XR order n (Fin x) (Fin c) (Fin X) = Fin y /\ Rabs y <= L.
Proof.
  induction order as [|k IH]; intros n B C K Hn HB HC.
  - exists K. intros x c X _ _ HX. exists X. auto.
  - set (q := IZR (2 * n) / IZR (2 * n - 1)).
    assert (Hd : IZR (2 * n - 1) <> 0) by (apply not_0_IZR; lia).
    assert (Hq : 0 <= q).
    { apply Rmult_le_pos; [apply IZR_le; lia|]. apply Rlt_le, Rinv_0_lt_compat, IZR_lt. lia. }
    destruct (IH (n + 1)%Z B (C * q * B) (K + C * q * B)) as [L HL]; [lia|assumption|
      apply Rmult_le_pos; [apply Rmult_le_pos|]; assumption|].
    exists L. intros x c X Hx Hc HX. cbn [gau_X_loop].
    change (@ndiv XR) with xdiv. change (@nmul XR) with xmul. change (@nadd XR) with xadd.
    change (@nofZ XR) with (fun z => Fin (IZR z)). cbv beta. cbn [xmul xlift2].
    rewrite xdiv_F by assumption. cbn [xmul xadd xlift2].
    assert (Q : Rabs (c * IZR (2 * n) / IZR (2 * n - 1) * x) <= C * q * B).
    { replace (c * IZR (2 * n) / IZR (2 * n - 1) * x) with (c * q * x) by (unfold q; field; assumption).
      rewrite !Rabs_mult, (Rabs_pos_eq q) by assumption.
      apply Rmult_le_compat; try assumption; try apply Rabs_pos.
      - apply Rmult_le_pos; [apply Rabs_pos|assumption].
      - apply Rmult_le_compat_r; assumption. }
    apply HL; try assumption. eapply Rle_trans; [apply Rabs_triang|]. lra.
Qed.

Lemma gau_X_bounded B : 0 <= B -> exists L, 0 < L /\ forall x, Rabs x <= B ->
  exists y, @gau_X_at_x XR (Fin x) 50 = Fin y /\ Rabs y <= L.
Proof.
  intros HB. destruct (gau_X_loop_bounded 50 3 B 1 1) as [L HL]; try lra; try lia.
  assert (R1 : Rabs 1 <= 1) by (rewrite Rabs_R1; lra).
  exists (4 / 3 * (Rabs L + 1)). split; [pose proof (Rabs_pos L); lra|].
  intros x Hx. destruct (HL x 1 1 Hx R1 R1) as (y & E & Hy).
  exists (4 / 3 * y). split.
  - unfold gau_X_at_x. change (@nofZ XR 1) with (Fin 1). change (@nofZ XR 4) with (Fin 4).
    change (@nofZ XR 3) with (Fin 3). rewrite E. change (@ndiv XR) with xdiv. rewrite xdiv_F by lra. reflexivity.
  - rewrite Rabs_mult, (Rabs_pos_eq (4 / 3)) by lra. pose proof (Rle_abs L). nra.
Qed.

(** Gauss' constants. *)
Definition gauss_s (r1 r2 : rvec) (th : R) : R :=
  (vnorm r1 + vnorm r2) / (4 * sqrt (vnorm r1 * vnorm r2) * cos (th / 2)) - 1 / 2.
Definition gauss_w (mu tof : R) (r1 r2 : rvec) (th : R) : R :=
  mu * (tof * tof) / (let k := 2 * sqrt (vnorm r1 * vnorm r2) * cos (th / 2) in k * k * k).

Lemma gauss_consts mu tof p r1 r2 th : non_collinear r1 r2 -> angle_facts p r1 r2 th -> short_way p r1 r2 ->
  @gau_get_s XR (Fin (vnorm r1)) (Fin (vnorm r2)) (Fin th) = Fin (gauss_s r1 r2 th) /\
  @gau_get_w XR (Fin mu) (Fin tof) (Fin (vnorm r1)) (Fin (vnorm r2)) (Fin th) = Fin (gauss_w mu tof r1 r2 th) /\
  0 < sqrt (vnorm r1 * vnorm r2) * cos (th / 2) /\ 0 < gauss_s r1 r2 th.
Proof.
  intros Hn F Hs. destruct (norms_pos _ _ Hn) as [N1 N2].
  assert (N : 0 < vnorm r1 * vnorm r2) by now apply Rmult_lt_0_compat.
  pose proof (sqrt_lt_R0 _ N) as Q. pose proof (proj2 (af_half _ _ _ _ F) Hs) as C.
  pose proof (af_half_sq _ _ _ _ F) as C2. pose proof (af_cos _ _ _ _ F) as C3.
  assert (P : 0 < sqrt (vnorm r1 * vnorm r2) * cos (th / 2)) by now apply Rmult_lt_0_compat.
  split; [|split; [|split; [exact P|]]].
  - unfold gau_get_s, gauss_s. xunf. cbn [xadd xmul xlift2]. rewrite xsqrt_F by lra.
    rewrite (xdiv_F th) by lra. cbn [xlift1 xmul xlift2]. rewrite !xdiv_F by lra. reflexivity.
  - unfold gau_get_w, gauss_w, cube, sq. xunf. cbn [xadd xmul xlift2]. rewrite xsqrt_F by lra.
    rewrite (xdiv_F th) by lra. cbn [xlift1 xmul xlift2]. rewrite !xdiv_F; [reflexivity|].
    assert (0 < 2 * sqrt (vnorm r1 * vnorm r2) * cos (th / 2)) by lra.
    set (k := 2 * _ * _) in *. clearbody k. assert (0 < k * k) by nra. assert (0 < k * k * k) by nra. lra.
  - unfold gauss_s.
    assert (A : 2 * sqrt (vnorm r1 * vnorm r2) <= vnorm r1 + vnorm r2).
    { assert (S1 : 0 <= sqrt (vnorm r1)) by apply sqrt_pos. assert (S2 : 0 <= sqrt (vnorm r2)) by apply sqrt_pos.
      rewrite sqrt_mult by lra. pose proof (sqrt_sqrt (vnorm r1) (Rlt_le _ _ N1)).
      pose proof (sqrt_sqrt (vnorm r2) (Rlt_le _ _ N2)). clear - H H0.
      pose proof (Rle_0_sqr (sqrt (vnorm r1) - sqrt (vnorm r2))) as Z. unfold Rsqr in Z. lra. }
    assert (cos (th / 2) < 1) by (clear - C C2 C3; nra).
    set (q := sqrt (vnorm r1 * vnorm r2)) in *. set (c := cos (th / 2)) in *.
    assert (L : q * c < q) by (clear - H Q; nra).
    replace ((vnorm r1 + vnorm r2) / (4 * q * c) - 1 / 2) with ((vnorm r1 + vnorm r2 - 2 * (q * c)) / (4 * (q * c)))
      by (field; split; lra).
    apply Rdiv_lt_0_compat; lra.
Qed.

(** One pass of the substitution is accepted and the orbit is evaluated: what
    the solver then answers. *)
Lemma gauss_first_pass clock mu r1 r2 tof M p l mi a r f th X :
  non_collinear r1 r2 -> angle_facts p r1 r2 th -> short_way p r1 r2 ->
  @get_transfer_angle XR (vfin r1) (vfin r2) p = Fin th ->
  0 < mu -> 0 < tof -> (0 <= M)%Z -> (1 <= mi)%Z ->
  let s := gauss_s r1 r2 th in let w := gauss_w mu tof r1 r2 th in let x := w - s in
  @gau_X_at_x XR (Fin x) 50 = Fin X -> Rabs (X * w) <= a ->
  @gauss1809 XR clock (call mu r1 r2 tof M p l mi a r f) =
    let* tpi := time_per_iteration clock f 1 in
    let* deltaAnomaly := @gau_delta_anomaly XR (Fin x) in
    let p := @gau_p XR (Fin (vnorm r1)) (Fin (vnorm r2)) (Fin th) deltaAnomaly in
    let '(v1, v2) := @gau_velocities XR (Fin mu) (vfin r1) (vfin r2) (Fin (vnorm r1)) (Fin (vnorm r2)) (Fin th) p in
    Ok (@mk_out XR f v1 v2 1 tpi).
Proof.
  intros Hn F Hs ET Hmu Ht HM Hmi s w x EX Ha.
  destruct (gauss_consts mu tof p r1 r2 th Hn F Hs) as (Es & Ew & P & Sp).
  destruct (norms_pos _ _ Hn) as [N1 N2].
  unfold gauss1809. rewrite validated_call_ok.
  2:{ unfold valid_input. repeat split; auto.
      - intros E. rewrite E in N1. unfold vnorm, vdot, vzero in N1. cbn [vx vy vz] in N1.
        replace (0 * 0 + 0 * 0 + 0 * 0) with 0 in N1 by ring. rewrite sqrt_0 in N1. lra.
      - intros E. apply Hn. rewrite E. destruct r2 as [x2 y2 z2]. unfold vcross, vzero. cbn [vx vy vz]. f_equal; ring. }
  cbn [a_mu a_r1 a_r2 a_tof a_M a_is_prograde a_is_low_path a_maxiter a_atol a_rtol a_full_output call].
  rewrite !norm_F, ET. destruct F as [F1 F2 F3 F4 F5 F6 F7 F8 F9].
  unfold assert_transfer_angle_not_zero, assert_transfer_angle_not_pi.
  replace (@neqb XR (Fin th) (nofZ 0)) with false by (symmetry; apply xeqb_Ff; lra).
  replace (@neqb XR (Fin th) npi) with false by (symmetry; apply xeqb_Ff; assumption).
  cbn [bind]. rewrite Es, Ew. fold s w.
  destruct (Z.to_nat mi) as [|k] eqn:Ek; [lia|]. cbn [for_range].
  unfold gau_body at 1.
  assert (E1 : @gauss_first_equation XR (nofZ 1) (Fin s) (Fin w) = Fin x).
  { unfold gauss_first_equation, sq. xunf. cbn [xmul xlift2]. rewrite xdiv_F by lra. cbn [xsub xlift2].
    f_equal. unfold x. field. }
  rewrite E1. unfold gauss_second_equation. rewrite EX.
  match goal with |- context [nleb ?d ?b] => replace (nleb d b) with true end; [reflexivity|].
  symmetry. xunf. cbn [xmul xadd xsub xabs xlift2 xlift1]. apply xleb_F.
  replace (1 + X * (s + x) - 1) with (X * w) by (unfold x; ring). exact Ha.
Qed.

(** The hyperbolic branch with a positive denominator delivers velocities. *)
Lemma gau_velocities_finite mu p r1 r2 th k :
  non_collinear r1 r2 -> 0 < mu -> 0 < k -> angle_facts p r1 r2 th -> exists v1 v2,
  @gau_velocities XR (Fin mu) (vfin r1) (vfin r2) (Fin (vnorm r1)) (Fin (vnorm r2)) (Fin th) (Fin k)
    = (vfin v1, vfin v2).
Proof.
  intros Hn Hm Hk F. destruct (norms_pos _ _ Hn) as [N1 N2].
  assert (Hmk : 0 < mu * k) by nra. pose proof (sqrt_lt_R0 _ Hmk) as Qk.
  pose proof (af_sin _ _ _ _ F) as Hs.
  assert (Hc : cos (th / 2) <> 0).
  { intros E. pose proof (af_half_sq _ _ _ _ F) as E2. rewrite E in E2. pose proof (af_cos _ _ _ _ F). lra. }
  assert (Hmd : 0 < mu / k) by now apply Rdiv_lt_0_compat.
  assert (Hg : vnorm r1 * vnorm r2 * sin th / sqrt (mu * k) <> 0).
  { unfold Rdiv. repeat apply Rmult_integral_contrapositive_currified; try assumption; try lra.
    apply Rinv_neq_0_compat. lra. }
  unfold gau_velocities.
  match goal with |- context [vdivs ?u ?g] => assert (E : exists w1, vdivs u g = vfin w1) end.
  { eexists. xunf. cbn [xmul xadd xsub xlift2 xlift1]. rewrite xsqrt_F by lra.
    rewrite !xdiv_F by lra. cbn [xsub xlift2]. rewrite vscale_F, vsub_F. rewrite vdivs_F by assumption. reflexivity. }
  destruct E as [w1 E]. rewrite E. eexists w1, _. f_equal.
  xunf. cbn [xmul xadd xsub xlift2 xlift1].
  rewrite !xdiv_F by lra. unfold xtan, xpart1. destruct (tan_dom_dec (th / 2)) as [|C]; [|contradiction].
  rewrite xsqrt_F by lra. cbn [xmul xadd xsub xlift2 xlift1]. rewrite !vscale_F, vadd_F. reflexivity.
Qed.

Lemma short_way_angle p r1 r2 th : non_collinear r1 r2 -> angle_facts p r1 r2 th -> short_way p r1 r2 ->
  th = acos (vdot r1 r2 / (vnorm r1 * vnorm r2)).
Proof.
  intros Hn F Hs. destruct (norms_pos _ _ Hn) as [N1 N2].
  assert (E : vdot r1 r2 / (vnorm r1 * vnorm r2) = cos th).
  { pose proof (af_K _ _ _ _ F) as K. unfold Kgeo in K.
    replace (vdot r1 r2) with (vnorm r1 * vnorm r2 * cos th) by lra. field. split; lra. }
  rewrite E. symmetry. apply acos_cos. pose proof (af_range _ _ _ _ F). pose proof (proj2 (af_pi _ _ _ _ F) Hs). lra.
Qed.

(** *** C37 is false: all short enough transfers between different radii *)

(** For all positions at different distances the solver returns in its first
    pass when the time of flight is short, for every tolerance, and the two
    velocities do not belong to one orbit. *)
Theorem C37_gauss_same_orbit_refuted : forall mu r1 r2 M prograde low_path maxiter atol rtol full_output,
  0 < mu -> short_way prograde r1 r2 -> vnorm r1 <> vnorm r2 -> (0 <= M)%Z -> (1 <= maxiter)%Z -> 0 < atol ->
  exists tof0, 0 < tof0 /\ forall ev tof, 0 < tof < tof0 ->
  exists o v1 v2,
    @run XR Gauss ev (call mu r1 r2 tof M prograde low_path maxiter atol rtol full_output) = Ok o /\
    delivers o v1 v2 /\ ~ same_orbit mu r1 v1 r2 v2.
Proof.
  intros mu r1 r2 M p l mi a r f Hmu Hs Hne HM Hmi Ha.
  assert (Hn : non_collinear r1 r2).
  { apply vz_non_collinear. unfold short_way in Hs. destruct p; lra. }
  destruct (norms_pos _ _ Hn) as [N1 N2].
  destruct (transfer_angle r1 r2 p Hn) as (th & ET & F).
  destruct (gauss_consts mu 1 p r1 r2 th Hn F Hs) as (_ & _ & P & Sp).
  set (s := gauss_s r1 r2 th) in *.
  destruct (gau_X_bounded s (Rlt_le _ _ Sp)) as (L & HL & HX).
  set (m := Rmin s (a / L)).
  assert (Hm : 0 < m) by (unfold m; apply Rmin_pos; [assumption|now apply Rdiv_lt_0_compat]).
  set (K := let k := 2 * sqrt (vnorm r1 * vnorm r2) * cos (th / 2) in k * k * k).
  assert (HK : 0 < K).
  { unfold K. assert (Z : 0 < 2 * sqrt (vnorm r1 * vnorm r2) * cos (th / 2)) by lra.
    cbv zeta. set (k := 2 * _ * _) in *. clearbody k. assert (0 < k * k) by nra. nra. }
  assert (HT : 0 < m * K / mu) by (apply Rdiv_lt_0_compat; [now apply Rmult_lt_0_compat|assumption]).
  exists (sqrt (m * K / mu)). split; [now apply sqrt_lt_R0|].
  intros ev tof [T0 T1].
  set (w := gauss_w mu tof r1 r2 th).
  assert (Hw : 0 < w < m).
  { assert (T2 : tof * tof < m * K / mu).
    { rewrite <- (sqrt_sqrt (m * K / mu)) by lra. apply Rmult_le_0_lt_compat; lra. }
    unfold w, gauss_w. fold K. split.
    - apply Rdiv_lt_0_compat; [|assumption]. apply Rmult_lt_0_compat; [assumption|now apply Rmult_lt_0_compat].
    - apply (Rmult_lt_reg_r (K / mu)); [now apply Rdiv_lt_0_compat|].
      replace (mu * (tof * tof) / K * (K / mu)) with (tof * tof) by (field; split; lra).
      replace (m * (K / mu)) with (m * K / mu) by (field; lra). exact T2. }
  assert (Hms : m <= s) by apply Rmin_l. assert (HmL : m <= a / L) by apply Rmin_r.
  destruct (HX (w - s)) as (X & EX & BX).
  { rewrite Rabs_left1 by lra. lra. }
  assert (HA : Rabs (X * w) <= a).
  { rewrite Rabs_mult, (Rabs_pos_eq w) by lra.
    apply Rle_trans with (L * m); [apply Rmult_le_compat; try apply Rabs_pos; lra|].
    apply Rle_trans with (L * (a / L)); [apply Rmult_le_compat_l; lra|].
    apply Req_le. field. lra. }
  pose proof (gauss_first_pass (e_clock ev) mu r1 r2 tof M p l mi a r f th X Hn F Hs ET Hmu T0 HM Hmi EX HA) as R.
  cbv zeta in R. fold s w in R.
  destruct (tpi_ok (e_clock ev) f 1 ltac:(lia)) as [t Et]. rewrite Et in R. cbn [bind] in R.
  assert (ED : @gau_delta_anomaly XR (Fin (w - s)) = Ok (Fin (2 * arcosh (1 - 2 * (w - s))))).
  { unfold gau_delta_anomaly. xunf. cbn [xmul xsub xlift2].
    replace (xltb (Fin 0) (Fin (w - s))) with false by (symmetry; apply xltb_Ff; lra).
    replace (xeqb (Fin (w - s)) (Fin 0)) with false by (symmetry; apply xeqb_Ff; lra).
    rewrite xacosh_F by lra. reflexivity. }
  rewrite ED in R. cbn [bind] in R.
  assert (N : 0 < vnorm r1 * vnorm r2) by now apply Rmult_lt_0_compat.
  assert (EP : exists k, @gau_p XR (Fin (vnorm r1)) (Fin (vnorm r2)) (Fin th) (Fin (2 * arcosh (1 - 2 * (w - s)))) = Fin k /\ 0 < k).
  { unfold gau_p. xunf. cbn [xmul xadd xsub xlift1 xlift2]. rewrite xsqrt_F by lra. rewrite !(xdiv_F _ 2) by lra.
    cbn [xmul xadd xsub xlift1 xlift2]. set (b := cos (2 * arcosh _ / 2)).
    assert (B : b <= 1) by (destruct (COS_bound (2 * arcosh (1 - 2 * (w - s)) / 2)); unfold b; lra).
    set (q := sqrt (vnorm r1 * vnorm r2)) in *. set (c := cos (th / 2)) in *.
    assert (Den : 0 < vnorm r1 + vnorm r2 - 2 * q * c * b).
    { assert (E0 : 0 < (vnorm r1 + vnorm r2) - 2 * (q * c)).
      { replace (vnorm r1 + vnorm r2 - 2 * (q * c)) with (s * (4 * (q * c))).
        - apply Rmult_lt_0_compat; lra.
        - unfold s, gauss_s. fold q c. field. split; intros E; rewrite E in P; lra. }
      assert (q * c * b <= q * c) by nra. lra. }
    rewrite xdiv_F by lra. eexists. split; [reflexivity|]. apply Rdiv_lt_0_compat; [|assumption].
    pose proof (af_cos _ _ _ _ F). apply Rmult_lt_0_compat; lra. }
  destruct EP as (k & EP & Hk). rewrite EP in R.
  destruct (gau_velocities_finite mu p r1 r2 th k Hn Hmu Hk F) as (v1 & v2 & EV). rewrite EV in R.
  cbn [run]. exists (@mk_out XR f (vfin v1) (vfin v2) 1 t), v1, v2. split; [exact R|].
  assert (D : delivers (@mk_out XR f (vfin v1) (vfin v2) 1 t) v1 v2) by (destruct f; split; reflexivity).
  split; [exact D|]. intros S.
  apply Hne. eapply (C37_gauss_same_orbit_iff_equal_radii ev); eauto.
Qed.
Print Assumptions C37_gauss_same_orbit_refuted.

(** *** C37, second half: parabolic transfers *)

Lemma gau_X_at_0 : @gau_X_at_x XR (Fin 0) 50 = Fin (4 / 3).
Proof.
  unfold gau_X_at_x.
  assert (L : forall order n c, (1 <= n)%Z -> @gau_X_loop XR order n (Fin 0) (Fin c) (Fin 1) = Fin 1).
  { induction order as [|k IH]; intros n c Hn; [reflexivity|]. cbn [gau_X_loop].
    change (@ndiv XR) with xdiv. change (@nmul XR) with xmul. change (@nadd XR) with xadd.
    change (@nofZ XR) with (fun z => Fin (IZR z)). cbv beta. cbn [xmul xlift2].
    rewrite xdiv_F by (apply not_0_IZR; lia). cbn [xmul xadd xlift2]. rewrite Rmult_0_r, Rplus_0_r. apply IH. lia. }
  change (@nofZ XR 1) with (Fin 1). rewrite L by lia. change (@ndiv XR) with xdiv.
  change (@nofZ XR 4) with (Fin 4). change (@nofZ XR 3) with (Fin 3). rewrite xdiv_F by lra.
  change (@nmul XR) with xmul. cbn [xmul xlift2]. f_equal. lra.
Qed.

(** If the iterate accepted by the first pass is the parabola ([w = s]), the
    solver dies on an unset variable. *)
Theorem C37_gauss_parabola_refuted : forall ev mu r1 r2 tof M prograde low_path maxiter atol rtol full_output,
  0 < mu -> 0 < tof -> (0 <= M)%Z -> (1 <= maxiter)%Z -> short_way prograde r1 r2 ->
  let th := acos (vdot r1 r2 / (vnorm r1 * vnorm r2)) in
  gauss_w mu tof r1 r2 th = gauss_s r1 r2 th -> 4 / 3 * gauss_s r1 r2 th <= atol ->
  @run XR Gauss ev (call mu r1 r2 tof M prograde low_path maxiter atol rtol full_output)
    = Err (UnboundLocalError "deltaAnomaly").
Proof.
  intros ev mu r1 r2 tof M p l mi a r f Hmu Ht HM Hmi Hs th Ew Ea.
  assert (Hn : non_collinear r1 r2).
  { apply vz_non_collinear. unfold short_way in Hs. destruct p; lra. }
  destruct (transfer_angle r1 r2 p Hn) as (th' & ET & F).
  pose proof (short_way_angle p r1 r2 th' Hn F Hs) as E. fold th in E. subst th'.
  destruct (gauss_consts mu tof p r1 r2 th Hn F Hs) as (_ & _ & P & Sp).
  assert (X0 : gauss_w mu tof r1 r2 th - gauss_s r1 r2 th = 0) by lra.
  cbn [run].
  rewrite (gauss_first_pass (e_clock ev) mu r1 r2 tof M p l mi a r f th (4 / 3) Hn F Hs ET Hmu Ht HM Hmi).
  - destruct (tpi_ok (e_clock ev) f 1 ltac:(lia)) as [t Et]. rewrite Et. cbn [bind]. rewrite X0.
    assert (ED : @gau_delta_anomaly XR (Fin 0) = Err (UnboundLocalError "deltaAnomaly")).
    { unfold gau_delta_anomaly. xunf.
      replace (xltb (Fin 0) (Fin 0)) with false by (symmetry; apply xltb_Ff; lra).
      replace (xeqb (Fin 0) (Fin 0)) with true by (symmetry; apply xeqb_F; lra). reflexivity. }
    rewrite ED. reflexivity.
  - rewrite X0. apply gau_X_at_0.
  - rewrite Ew, Rabs_pos_eq; lra.
Qed.
Print Assumptions C37_gauss_parabola_refuted.

(** ** Cases meeting the hypotheses *)

Definition ex_far : rvec := V3 0 2 0.

(** A quarter turn from radius 1 to radius 2. *)
Example C37_case : short_way true ex_r1 ex_far /\ vnorm ex_r1 <> vnorm ex_far.
Proof.
  unfold short_way, ex_r1, ex_far, vcross, vnorm, vdot. cbn [vx vy vz]. split; [lra|].
  replace (1 * 1 + 0 * 0 + 0 * 0) with 1 by ring. replace (0 * 0 + 2 * 2 + 0 * 0) with (2 * 2) by ring.
  rewrite sqrt_1, sqrt_square by lra. lra.
Qed.

(** For every tolerance there are two positions of radius one and a time of
    flight for which the first iterate is accepted and parabolic. *)
Example C37_parabola_case : forall atol, 0 < atol -> exists r1 r2 tof,
  0 < tof /\ short_way true r1 r2 /\
  let th := acos (vdot r1 r2 / (vnorm r1 * vnorm r2)) in
  gauss_w 1 tof r1 r2 th = gauss_s r1 r2 th /\ 4 / 3 * gauss_s r1 r2 th <= atol.
Proof.
  intros a Ha. set (c := / (1 + a)).
  assert (Hc : 0 < c < 1).
  { split; [apply Rinv_0_lt_compat; lra|]. unfold c. rewrite <- Rinv_1. apply Rinv_lt_contravar; lra. }
  set (h := acos c). assert (Ch : cos h = c) by (apply cos_acos; lra).
  assert (H1 : 0 < h < PI).
  { destruct (acos_bound c) as [B1 B2]. fold h in B1, B2. split.
    - destruct B1 as [|B1]; [assumption|]. rewrite <- B1, cos_0 in Ch. lra.
    - destruct B2 as [|B2]; [assumption|]. rewrite B2, cos_PI in Ch. lra. }
  assert (H2 : h < PI / 2).
  { destruct (Rlt_dec h (PI / 2)) as [|L]; [assumption|]. exfalso.
    assert (cos h <= cos (PI / 2)) by (apply cos_decr_1; lra). rewrite cos_PI2 in H. lra. }
  set (t := 2 * h). assert (Ht : 0 < t < PI) by (unfold t; lra).
  exists ex_r1, (V3 (cos t) (sin t) 0).
  assert (Nr : vnorm (V3 (cos t) (sin t) 0) = 1).
  { unfold vnorm, vdot. cbn [vx vy vz]. pose proof (sin2_cos2 t) as Q. unfold Rsqr in Q.
    replace (cos t * cos t + sin t * sin t + 0 * 0) with 1 by lra. apply sqrt_1. }
  destruct ex_norms as (N1 & _ & _).
  assert (Et : acos (vdot ex_r1 (V3 (cos t) (sin t) 0) / (vnorm ex_r1 * vnorm (V3 (cos t) (sin t) 0))) = t).
  { rewrite N1, Nr. unfold vdot, ex_r1. cbn [vx vy vz].
    replace ((1 * cos t + 0 * sin t + 0 * 0) / (1 * 1)) with (cos t) by field. apply acos_cos. lra. }
  assert (Es : gauss_s ex_r1 (V3 (cos t) (sin t) 0) t = a / 2).
  { unfold gauss_s. rewrite N1, Nr. replace (t / 2) with h by (unfold t; field). rewrite Ch.
    replace (1 * 1) with 1 by ring. rewrite sqrt_1. unfold c. field. lra. }
  exists (sqrt (a / 2 * (8 * (c * c * c)))).
  assert (C3 : 0 < c * c * c) by (assert (0 < c * c) by nra; nra).
  assert (Q : 0 < a / 2 * (8 * (c * c * c))) by (apply Rmult_lt_0_compat; lra).
  split; [now apply sqrt_lt_R0|].
  split.
  { unfold short_way, ex_r1, vcross. cbn [vx vy vz]. assert (0 < sin t) by (apply sin_gt_0; lra). lra. }
  cbv zeta. rewrite Et, Es. split; [|lra].
  unfold gauss_w. rewrite N1, Nr. replace (t / 2) with h by (unfold t; field). rewrite Ch.
  replace (1 * 1) with 1 by ring. rewrite sqrt_1, sqrt_sqrt by lra. field. lra.
Qed.
