(** * pan2016: velocities from the argument of periapsis. *)
From Coq Require Import Reals ZArith Bool Lra Lia Psatz.
From Verif Require Import Num XReal XRealLemmas MApi ApiFacts MScipy MLinalg MAngles MPan
  Spec VecFacts VecXR AnglesXR Loops CallXR Godal GodalXR.
Local Open Scope R_scope.

Definition way (p : bool) (r1 r2 : rvec) : R := if short_way_dec p r1 r2 then 1 else -1.

Lemma angle_sin p r1 r2 th :
  non_collinear r1 r2 -> angle_facts p r1 r2 th ->
  vnorm r1 * vnorm r2 * sin th = way p r1 r2 * vnorm (vcross r1 r2).
Proof.
  intros Hn F. destruct (norms_pos _ _ Hn) as [N1 N2]. pose proof (vnorm_pos _ Hn) as HN.
  pose proof (af_K _ _ _ _ F) as HK. unfold Kgeo in HK. pose proof (af_short _ _ _ _ F) as Hs.
  pose proof (af_sin _ _ _ _ F) as S0. pose proof (sin2_cos2 th) as Q. unfold Rsqr in Q.
  assert (L : vnorm (vcross r1 r2) * vnorm (vcross r1 r2)
            = vnorm r1 * vnorm r2 * sin th * (vnorm r1 * vnorm r2 * sin th)).
  { rewrite vnorm_sq, lagrange, <- !vnorm_sq.
    transitivity (vnorm r1 * vnorm r2 * (vnorm r1 * vnorm r2) * (sin th * sin th)); [|ring].
    replace (sin th * sin th) with (1 - cos th * cos th) by lra.
    replace (vdot r1 r2) with (vnorm r1 * vnorm r2 * cos th) by lra. ring. }
  assert (N12 : 0 < vnorm r1 * vnorm r2) by nra. set (P := vnorm r1 * vnorm r2) in *.
  unfold way. destruct (short_way_dec p r1 r2) as [W|W].
  - apply Hs in W. assert (0 < P * sin th) by nra. nra.
  - assert (sin th < 0) by (rewrite <- Hs in W; lra). assert (P * sin th < 0) by nra. nra.
Qed.

(** Coordinates of [r2] in the frame along [r1] and along the motion. *)
Lemma pan_frame p r1 r2 th :
  non_collinear r1 r2 -> angle_facts p r1 r2 th ->
  let iy := vcross (vmult (way p r1 r2 / vnorm (vcross r1 r2)) (vcross r1 r2)) (vmult (/ vnorm r1) r1) in
  r2 = vplus (vmult (vnorm r2 * cos th) (vmult (/ vnorm r1) r1)) (vmult (vnorm r2 * sin th) iy).
Proof.
  intros Hn F iy. destruct (norms_pos _ _ Hn) as [N1 N2]. pose proof (vnorm_pos _ Hn) as HN.
  pose proof (angle_sin _ _ _ _ Hn F) as S. pose proof (af_K _ _ _ _ F) as HK. unfold Kgeo in HK.
  pose proof (af_sin _ _ _ _ F) as S0.
  assert (W : way p r1 r2 * way p r1 r2 = 1) by (unfold way; destruct (short_way_dec p r1 r2); ring).
  assert (E1 : vnorm r2 * sin th = way p r1 r2 * vnorm (vcross r1 r2) / vnorm r1)
    by (rewrite <- S; field; lra).
  assert (E2 : vnorm r2 * cos th = vdot r1 r2 / vnorm r1).
  { replace (vdot r1 r2) with (vnorm r1 * vnorm r2 * cos th) by lra. field. lra. }
  assert (T : vcross (vcross r1 r2) r1 = vminus (vmult (vnorm r1 * vnorm r1) r2) (vmult (vdot r1 r2) r1)).
  { rewrite vnorm_sq. clear. destruct r1, r2. vunf. f_equal; ring. }
  assert (Y : iy = vmult (way p r1 r2 / vnorm (vcross r1 r2) / vnorm r1) (vcross (vcross r1 r2) r1)).
  { unfold iy. apply vec_eq; vunf; field; lra. }
  assert (K : forall w c d n x1 x2 : R, w * w = 1 -> c <> 0 -> n <> 0 ->
     x2 = d / n * (/ n * x1) + w * c / n * (w / c / n * (n * n * x2 - d * x1))).
  { intros w c d n x1 x2 Hw Hc Hn0. transitivity (d / n * (/ n * x1) + (w * w) / (n * n) * (n * n * x2 - d * x1));
      [rewrite Hw; field; lra | field; lra]. }
  rewrite Y, T, E1, E2. clear Y T iy E1 E2.
  apply vec_eq; cbn [vx vy vz vplus vmult vminus]; apply K; assumption || lra.
Qed.

Lemma pan_godal mu p r1 r2 th ecc C S q v1 v2 :
  non_collinear r1 r2 -> 0 < mu -> angle_facts p r1 r2 th -> 0 < q ->
  q = vnorm r1 * (1 + ecc * C) ->
  q = vnorm r2 * (1 + ecc * (cos th * C + sin th * S)) ->
  let ix := vmult (/ vnorm r1) r1 in
  let iy := vcross (vmult (way p r1 r2 / vnorm (vcross r1 r2)) (vcross r1 r2)) ix in
  v1 = vplus (vmult (sqrt (mu / q) * (- (ecc * S))) ix) (vmult (sqrt (mu / q) * (1 + ecc * C)) iy) ->
  v2 = vplus (vmult (sqrt (mu / q) * (- (sin th + ecc * S))) ix) (vmult (sqrt (mu / q) * (cos th + ecc * C)) iy) ->
  godal mu p r1 r2 v1 v2.
Proof.
  intros Hn Hm F Hq Q1 Q2 ix iy E1 E2. destruct (norms_pos _ _ Hn) as [N1 N2].
  pose proof (pan_frame _ _ _ _ Hn F) as R2. cbn zeta in R2. fold ix iy in R2.
  assert (R1 : r1 = vmult (vnorm r1) ix) by (unfold ix; apply vec_eq; vunf; field; lra).
  pose proof (af_sin _ _ _ _ F) as S0. pose proof (sin2_cos2 th) as T. unfold Rsqr in T.
  set (n1 := vnorm r1) in *. set (n2 := vnorm r2) in *.
  rewrite sqrt_div_mult in E1, E2 by assumption. set (h := sqrt (mu * q)) in *.
  set (A := h / (n1 * n2 * sin th)). set (B := h / q * (1 - cos th) / sin th).
  assert (D1 : ecc * C = q / n1 - 1) by (rewrite Q1; field; lra).
  assert (D2 : ecc * S = (q / n2 - 1 - cos th * (q / n1 - 1)) / sin th).
  { assert (G : sin th * (ecc * S) = q / n2 - 1 - cos th * (ecc * C)).
    { replace (q / n2) with (1 + ecc * (cos th * C + sin th * S)) by (rewrite Q2; field; lra). ring. }
    rewrite D1 in G. rewrite <- G. field. assumption. }
  assert (I1 : A * (n2 * cos th - n1) + B = h / q * (- (ecc * S))).
  { rewrite D2. unfold A, B. field. repeat split; lra. }
  assert (I2 : A * (n2 * sin th) = h / q * (1 + ecc * C)).
  { rewrite D1. unfold A. field. repeat split; lra. }
  assert (T1 : sin th * sin th = 1 - cos th * cos th) by lra.
  assert (I3 : A * (n2 * cos th - n1) - B * cos th = h / q * (- (sin th + ecc * S))).
  { rewrite D2. unfold A, B.
    transitivity (h / q * (q / (n1 * n2 * sin th) * (n2 * cos th - n1) - (1 - cos th) * cos th / sin th)); [field; repeat split; lra|].
    f_equal. apply Rmult_eq_reg_r with (sin th); [|assumption].
    transitivity (q / n1 * cos th - q / n2 - (1 - cos th) * cos th); [field; repeat split; lra|].
    transitivity (- (sin th * sin th) - (q / n2 - 1 - cos th * (q / n1 - 1))); [rewrite T1; ring|field; repeat split; lra]. }
  assert (I4 : A * (n2 * sin th) - B * sin th = h / q * (cos th + ecc * C)).
  { rewrite D1. unfold A, B. field. repeat split; lra. }
  apply (p_godal mu p r1 r2 th q A B); try assumption; try reflexivity; fold n1 n2.
  - rewrite E1. rewrite <- I1, <- I2. unfold Rdiv in *.
    replace (vmult (B * / n1) r1) with (vmult B ix) by (unfold ix; apply vec_eq; vunf; ring).
    rewrite R2, R1 at 1. clearbody ix iy A B. clear. destruct ix, iy. vunf. f_equal; ring.
  - rewrite E2. rewrite <- I3, <- I4.
    assert (Z : vmult (B / n2) r2 = vplus (vmult (B * cos th) ix) (vmult (B * sin th) iy)).
    { rewrite R2 at 1. clearbody ix iy. clear - N2. destruct ix, iy. vunf. f_equal; field; lra. }
    rewrite Z. rewrite R2, R1 at 1. clearbody ix iy A B. clear. destruct ix, iy. vunf. f_equal; ring.
Qed.

Lemma pan_isclose_refl a : @pan_isclose XR (Fin a) (Fin a) = true.
Proof.
  unfold pan_isclose, np_isclose. xunf. cbn [xsub xmul xadd xabs xlift2 xlift1]. apply xleb_F.
  replace (a - a) with 0 by ring. rewrite Rabs_R0. pose proof (Rabs_pos a).
  assert (0 <= 1 / 100000 * Rabs a) by (apply Rmult_le_pos; lra). lra.
Qed.

Lemma pan_isclose_ne a b : @pan_isclose XR (Fin a) (Fin b) = false -> a <> b.
Proof. intros H ->. now rewrite pan_isclose_refl in H. Qed.

Lemma Ratan2_scaled n th :
  0 < n -> cos (Ratan2 (n * sin th) (n * cos th)) = cos th /\ sin (Ratan2 (n * sin th) (n * cos th)) = sin th.
Proof.
  intros Hn. pose proof (sin2_cos2 th) as T. unfold Rsqr in T.
  assert (H0 : n * cos th <> 0 \/ n * sin th <> 0).
  { destruct (Req_EM_T (cos th) 0) as [E|E]; [right|left]; apply Rmult_integral_contrapositive_currified; nra. }
  destruct (Ratan2_cos_sin _ _ H0) as [A B].
  assert (E : sqrt (n * cos th * (n * cos th) + n * sin th * (n * sin th)) = n).
  { replace (_ + _) with (n * n); [apply sqrt_square; lra|].
    transitivity (n * n * (sin th * sin th + cos th * cos th)); [rewrite T; ring|ring]. }
  rewrite E in A, B. rewrite A, B. split; field; lra.
Qed.

Lemma Ok_inj {A} (a b : A) : Ok a = Ok b -> a = b.
Proof. intros H; now inversion H. Qed.

(** The elements at [omega] together with the time of flight fix one conic. *)
Lemma pan_velocities_godal mu p r1 r2 th omega el t v1 v2 :
  non_collinear r1 r2 -> 0 < mu -> angle_facts p r1 r2 th ->
  let g := @pan_planar_geometry XR (vfin r1) (vfin r2) (Fin th) p in
  @pan_elements XR g omega = Ok el ->
  @pan_tof_from_elements XR (Fin mu) el = Ok t ->
  @pan_velocities XR (Fin mu) g el = Ok (vfin v1, vfin v2) ->
  godal mu p r1 r2 v1 v2.
Proof.
  intros Hn Hm F g HE HT HV. destruct (norms_pos _ _ Hn) as [N1 N2].
  assert (G : g = @PanGeometry XR (Fin (vnorm r1)) (Fin (vnorm r2)) (Fin th)
      (vfin (vmult (/ vnorm r1) r1))
      (vfin (vcross (vmult (way p r1 r2 / vnorm (vcross r1 r2)) (vcross r1 r2)) (vmult (/ vnorm r1) r1)))
      (Fin (vnorm r1)) (Fin 0) (Fin (vnorm r2 * cos th)) (Fin (vnorm r2 * sin th))
      (Fin (vnorm r2 * cos th - vnorm r1)) (Fin (vnorm r2 * sin th - 0))).
  { unfold g, pan_planar_geometry. rewrite !norm_F, !vdivs_F by lra. rewrite orbit_normal_F by assumption.
    rewrite cross_F. reflexivity. }
  rewrite G in HE, HV. clear G g.
  set (n1 := vnorm r1) in *. set (n2 := vnorm r2) in *.
  destruct omega as [o|].
  2:{ unfold pan_elements in HE. cbn in HE. discriminate. }
  unfold pan_elements in HE. cbn [pg_r1_norm pg_r2_norm pg_x1 pg_y1 pg_x2 pg_y2 pg_xc pg_yc] in HE.
  xunf. cbn [xmul xadd xsub xlift2 xlift1] in HE.
  set (X1 := n1 * cos o + 0 * sin o) in HE. set (X2 := n2 * cos th * cos o + n2 * sin th * sin o) in HE.
  set (proj := (n2 * cos th - n1) * cos o + (n2 * sin th - 0) * sin o) in HE.
  assert (PX : proj = X2 - X1) by (unfold proj, X1, X2; ring).
  destruct (@pan_isclose XR (Fin proj) (Fin 0)) eqn:EP; [discriminate|]. apply pan_isclose_ne in EP.
  rewrite (xdiv_F (n1 - n2)) in HE by assumption.
  set (den := (n1 - n2) * (n1 - n2) - proj * proj) in HE.
  set (ecc0 := (n1 - n2) / proj) in HE.
  (* the flip of a negative eccentricity *)
  assert (HF : exists ecc C S om, (if xltb (Fin ecc0) (Fin 0) then (Fin (o + PI), Fin (- ecc0)) else (Fin o, Fin ecc0))
       = (Fin om, Fin ecc) /\ cos om = C /\ sin om = S /\ ecc * C = ecc0 * cos o /\ ecc * S = ecc0 * sin o /\ ecc * ecc = ecc0 * ecc0).
  { destruct (xltb _ _); eexists _, _, _, _; (split; [reflexivity|]); (split; [reflexivity|]); (split; [reflexivity|]).
    - rewrite neg_cos, neg_sin. repeat split; ring.
    - repeat split; ring. }
  destruct HF as (ecc & C & S & om & EF & EC & ES & HC & HS & H2).
  cbn [xadd xlift2 xopp xlift1] in HE. rewrite EF in HE.
  destruct (@pan_isclose XR (Fin den) (Fin 0)) eqn:ED; [discriminate|]. apply pan_isclose_ne in ED.
  rewrite xdiv_F in HE by assumption. set (a := proj * (n2 * X1 - n1 * X2) / den) in HE.
  cbn [xisfinite negb orb xsub xlift2] in HE. injection HE as <-.
  (* the semi-latus rectum *)
  set (q := (n1 * X2 - n2 * X1) / proj).
  assert (E2 : ecc * ecc - 1 = den / (proj * proj)).
  { rewrite H2. unfold ecc0, den. field. assumption. }
  assert (Q : a * (1 - ecc * ecc) = q).
  { replace (1 - ecc * ecc) with (- (den / (proj * proj))) by lra. unfold a, q. field. split; assumption. }
  assert (Q1 : q = n1 * (1 + ecc * C)).
  { rewrite HC. unfold q, ecc0. replace (n1 * cos o) with X1 by (unfold X1; ring).
    transitivity ((n1 * proj + (n1 - n2) * X1) / proj); [replace (n1 * proj + (n1 - n2) * X1) with (n1 * X2 - n2 * X1) by (rewrite PX; ring); reflexivity|].
    replace (n1 * (1 + (n1 - n2) / proj * cos o)) with ((n1 * proj + (n1 - n2) * (n1 * cos o)) / proj) by (field; assumption).
    f_equal. unfold X1. ring. }
  assert (Q2 : q = n2 * (1 + ecc * (cos th * C + sin th * S))).
  { replace (ecc * (cos th * C + sin th * S)) with (cos th * (ecc * C) + sin th * (ecc * S)) by ring.
    rewrite HC, HS. unfold ecc0.
    transitivity ((n2 * proj + (n1 - n2) * X2) / proj); [unfold q; replace (n2 * proj + (n1 - n2) * X2) with (n1 * X2 - n2 * X1) by (rewrite PX; ring); reflexivity|].
    unfold X2. field. assumption. }
  (* it is positive wherever the time of flight is defined *)
  assert (QP : 0 < q).
  { clear HV. unfold pan_tof_from_elements in HT. xunf. cbn [xmul xsub xlift2] in HT.
    destruct (xltb (Fin ecc) (Fin 1)) eqn:L1.
    - apply xltb_F in L1. destruct (xleb (Fin a) (Fin 0)) eqn:L2; [discriminate|]. apply xleb_Ff in L2.
      assert (0 <= ecc).
      { destruct (xltb (Fin ecc0) (Fin 0)) eqn:L3; injection EF as _ <-.
        - apply xltb_F in L3. lra.
        - apply xltb_Ff in L3. lra. }
      rewrite <- Q. apply Rmult_lt_0_compat; [assumption|]. clear - L1 H. nra.
    - apply xltb_Ff in L1. destruct (@pan_isclose XR (Fin ecc) (Fin 1)).
      + unfold pan_parabolic_tof in HT. xunf. destruct (xleb _ _) eqn:L2; [discriminate|]. apply xleb_Ff in L2. lra.
      + destruct (xleb (Fin 0) (Fin a)) eqn:L2; [discriminate|]. apply xleb_Ff in L2.
        assert (ecc * ecc <> 1).
        { intros Z. rewrite Z in E2. assert (Z' : den / (proj * proj) = 0) by lra.
          apply ED. replace den with (den / (proj * proj) * (proj * proj)) by (field; assumption). rewrite Z'. ring. }
        rewrite <- Q. assert (1 < ecc * ecc) by (clear - L1 H; nra). clear - L2 H0. nra. }
  unfold pan_velocities in HV. cbn [pg_i_x pg_i_y] in HV. xunf. cbn [xmul xsub xlift2] in HV.
  rewrite Q in HV.
  destruct (xleb (Fin q) (Fin 0)) eqn:LQ; [apply xleb_F in LQ; lra|]. rewrite LQ in HV. clear LQ.
  rewrite xdiv_F in HV by lra. rewrite xsqrt_F in HV by (apply Rlt_le; now apply Rdiv_lt_0_compat).
  cbn [xmul xadd xsub xopp xlift2 xlift1] in HV.
  apply Ok_inj in HV. apply pair_equal_spec in HV. destruct HV as [V1 V2].
  rewrite !vscale_F, vadd_F in V1. rewrite !vscale_F, vadd_F in V2. apply vfin_inj in V1, V2. subst v1 v2.
  destruct (Ratan2_scaled n1 0 N1) as [A1 B1]. rewrite sin_0, cos_0, Rmult_0_r, Rmult_1_r in A1, B1.
  destruct (Ratan2_scaled n2 th N2) as [A2 B2].
  set (sc := sqrt (mu / q)).
  assert (R : forall phi, cos om * (sc * - sin (phi - om)) + - sin om * (sc * (ecc + cos (phi - om)))
                = sc * - (sin phi + ecc * sin om) /\
              sin om * (sc * - sin (phi - om)) + cos om * (sc * (ecc + cos (phi - om)))
                = sc * (cos phi + ecc * cos om)).
  { intros phi. rewrite sin_minus, cos_minus. pose proof (sin2_cos2 om) as T. unfold Rsqr in T. split.
    - transitivity (sc * - (sin phi * (sin om * sin om + cos om * cos om) + ecc * sin om)); [ring|rewrite T; ring].
    - transitivity (sc * (cos phi * (sin om * sin om + cos om * cos om) + ecc * cos om)); [ring|rewrite T; ring]. }
  destruct (R (Ratan2 0 n1)) as [R1 R2]. destruct (R (Ratan2 (n2 * sin th) (n2 * cos th))) as [R3 R4].
  rewrite R1, R2, R3, R4, A1, B1, A2, B2, EC, ES.
  apply (pan_godal mu p r1 r2 th ecc C S q); try assumption.
  - fold n1. f_equal. f_equal. fold sc. ring.
  - reflexivity.
Qed.
