(** * From elements to the state and back: C65. *)
From Coq Require Import Reals ZArith Bool Lra Lia Psatz.
From Verif Require Import Num XReal XRealLemmas MLinalg MAngles MElements Spec SpecElements VecFacts VecXR ElementsXR
  AnglesXR KeplerXR PropertiesElements RoundTripXR ElementsExist.
Local Open Scope R_scope.

Lemma same_plus a a' b b' : same_angle a a' -> same_angle b b' -> same_angle (a + b) (a' + b').
Proof. intros [A1 A2] [B1 B2]. unfold same_angle. rewrite !cos_plus, !sin_plus, A1, A2, B1, B2. auto. Qed.
Lemma same_opp a b : same_angle a b -> same_angle (- a) (- b).
Proof. intros [A1 A2]. unfold same_angle. rewrite !cos_neg, !sin_neg, A1, A2. auto. Qed.
Lemma same_trans a b c : same_angle a b -> same_angle b c -> same_angle a c.
Proof. intros [A1 A2] [B1 B2]. unfold same_angle. split; congruence. Qed.
Lemma same_refl a : same_angle a a. Proof. split; reflexivity. Qed.

Lemma same_state mu p e i o w nu o' w' nu' : same_angle o' o -> same_angle w' w -> same_angle nu' nu ->
  conic_position p e i o' w' nu' = conic_position p e i o w nu /\ conic_velocity mu p e i o' w' nu' = conic_velocity mu p e i o w nu.
Proof. intros [A1 A2] [B1 B2] [C1 C2]. unfold conic_position, conic_velocity, frame_P, frame_Q. rewrite A1, A2, B1, B2, C1, C2. auto. Qed.
Lemma flat_state mu p e o w nu w' nu' : same_angle w' (o + w) -> same_angle nu' nu ->
  conic_position p e 0 0 w' nu' = conic_position p e 0 o w nu /\ conic_velocity mu p e 0 0 w' nu' = conic_velocity mu p e 0 o w nu.
Proof.
  intros [B1 B2] [C1 C2]. rewrite cos_plus in B1. rewrite sin_plus in B2. unfold conic_position, conic_velocity, frame_P, frame_Q. rewrite B1, B2, C1, C2, cos_0, sin_0.
  unfold vmult, vplus. cbn [vx vy vz]. split; apply vec_eq; cbn [vx vy vz]; ring.
Qed.
Lemma round_state mu p i o w nu o' nu' : same_angle o' o -> same_angle nu' (w + nu) ->
  conic_position p 0 i o' 0 nu' = conic_position p 0 i o w nu /\ conic_velocity mu p 0 i o' 0 nu' = conic_velocity mu p 0 i o w nu.
Proof.
  intros [B1 B2] [C1 C2]. rewrite cos_plus in C1. rewrite sin_plus in C2. unfold conic_position, conic_velocity, frame_P, frame_Q. rewrite B1, B2, C1, C2, cos_0, sin_0.
  rewrite !Rmult_0_l, !Rplus_0_l. unfold vmult, vplus. cbn [vx vy vz]. split; apply vec_eq; cbn [vx vy vz]; ring.
Qed.

(** ** C65: [rv2coe] inverts [coe2rv] (elements.py:148-276) on every ellipse and
    hyperbola, as long as eccentricity and inclination are either exactly zero or
    not below the tolerance, except for retrograde orbits in the equatorial plane
    and, on inclined ellipses, the apoapsis (where the tangent in [E_to_nu] has no
    value).  The elements found give back the position and velocity; the angles
    are those put in, up to complete turns, and normalised; where an angle is not
    defined the code sets it to zero and returns the longitude of periapsis, the
    argument of latitude or the true longitude. *)
Theorem C65_elements_recovered : forall mu p e i o w nu tol,
  0 < mu -> 0 < p -> 0 <= e -> e <> 1 -> 0 < 1 + e * cos nu -> 0 <= i < PI ->
  0 < tol -> (e = 0 \/ tol <= e) -> (i = 0 \/ tol <= i) ->
  (0 < i -> 0 < e < 1 -> cos nu <> -1) ->
  exists r v o' w' nu',
    @coe2rv XR (Fin mu) (Fin p) (Fin e) (Fin i) (Fin o) (Fin w) (Fin nu) = Ok (vfin r, vfin v) /\
    @rv2coe XR (Fin mu) (vfin r) (vfin v) (Fin tol) = Coe (Fin p) (Fin e) (Fin i) (Fin o') (Fin w') (Fin nu') /\
    @coe2rv XR (Fin mu) (Fin p) (Fin e) (Fin i) (Fin o') (Fin w') (Fin nu') = Ok (vfin r, vfin v) /\
    0 <= o' < 2 * PI /\ 0 <= w' < 2 * PI /\ - PI <= nu' < PI /\
    (0 < i -> same_angle o' o) /\ (0 < e -> same_angle nu' nu) /\ (0 < i -> 0 < e -> same_angle w' w) /\
    (i = 0 -> o' = 0) /\ (e = 0 -> w' = 0) /\
    (i = 0 -> 0 < e -> same_angle w' (o + w)) /\
    (0 < i -> e = 0 -> same_angle nu' (w + nu)) /\
    (i = 0 -> e = 0 -> same_angle nu' (o + w + nu)).
Proof.
  intros mu p e i o w nu tol Hmu Hp He E1 Hd Hi Ht Te Ti Ha. pose proof PI_RGT_0 as HP.
  exists (conic_position p e i o w nu), (conic_velocity mu p e i o w nu).
  rewrite coe2rv_F by lra. pose proof (rv2coe_F mu p e i o w nu Hmu Hp He Hd ltac:(lra) tol) as EC. rewrite EC. clear EC.
  destruct (K_facts mu p Hmu Hp) as [K1 _]. pose proof (rn_pos p e nu Hp Hd) as RP.
  assert (D : forall nu', same_angle nu' nu -> 1 + e * cos nu' <> 0) by (intros nu' [-> _]; lra).
  destruct Te as [Ze|Te]; destruct Ti as [Zi|Ti].
  - subst e i. rewrite !(proj2 (xltb_F _ _)) by lra. cbn [andb negb].
    set (c := cos (o + w + nu)). set (t0 := Ratan2 _ _).
    assert (S0 : same_angle t0 (o + w + nu)).
    { pose proof (atan2_polar (p / (1 + 0 * cos nu)) (o + w + nu) RP) as A. replace t0 with (Ratan2 (p / (1 + 0 * cos nu) * sin (o + w + nu)) (p / (1 + 0 * cos nu) * cos (o + w + nu))); [exact A|].
      unfold t0. rewrite ?cos_plus, ?sin_plus, ?cos_plus, ?sin_plus. unfold conic_position, vmult, vplus, frame_P, frame_Q. cbn [vx vy vz]. rewrite cos_0. f_equal; ring. }
    clearbody t0. destruct (mod_2pi t0) as (m & Em & Sm & Bm). rewrite Em. destruct (wrap m) as (m' & Em' & Sm' & Bm'). rewrite Em'.
    assert (SS : same_angle m' (o + w + nu)) by (eapply same_trans; [exact Sm'|]; eapply same_trans; eassumption).
    exists 0, 0, m'. split; [reflexivity|]. split; [reflexivity|]. split.
    + rewrite coe2rv_F by lra. destruct (round_state mu p 0 0 (o + w) nu 0 m' (same_refl 0) SS) as [-> ->].
      destruct (flat_state mu p 0 o w nu (o + w) nu (same_refl _) (same_refl _)) as [-> ->]. reflexivity.
    + repeat split; try lra; try apply SS; intros; lra.
  - subst e. rewrite (proj2 (xltb_F _ _)) by lra. rewrite (proj2 (xltb_Ff _ _)) by lra. cbn [andb negb].
    assert (SI : 0 < sin i) by (apply sin_gt_0; lra).
    pose proof (atan2_polar (sqrt (mu * p) * sin i) o ltac:(nra)) as A. destruct (mod_2pi (Ratan2 (sqrt (mu * p) * sin i * sin o) (sqrt (mu * p) * sin i * cos o))) as (m & Em & Sm & Bm). rewrite Em.
    assert (So : same_angle m o) by (eapply same_trans; eassumption).
    set (k := p / (1 + 0 * cos nu) * sqrt (mu * p) * sin i) in *. assert (Hk : 0 < k) by (unfold k; apply Rmult_lt_0_compat; [apply Rmult_lt_0_compat|]; assumption).
    pose proof (atan2_polar k (w + nu) Hk) as A2. destruct (wrap (Ratan2 (k * sin (w + nu)) (k * cos (w + nu)))) as (m' & Em' & Sm' & Bm'). rewrite Em'.
    assert (Sn : same_angle m' (w + nu)) by (eapply same_trans; eassumption).
    exists m, 0, m'. split; [reflexivity|]. split; [reflexivity|]. split.
    + rewrite coe2rv_F by lra. destruct (round_state mu p i o w nu m m' So Sn) as [-> ->]. reflexivity.
    + repeat split; try lra; try apply So; try apply Sn; intros; lra.
  - subst i. rewrite (proj2 (xltb_F 0 tol)) by lra. rewrite (proj2 (xltb_Ff e tol)) by lra. cbn [andb negb].
    assert (P0 : vmult e (frame_P 0 o w) = V3 (e * cos (o + w)) (e * sin (o + w)) 0).
    { rewrite cos_plus, sin_plus. unfold vmult, frame_P. cbn [vx vy vz]. rewrite cos_0, sin_0. apply vec_eq; cbn [vx vy vz]; ring. }
    pose proof (atan2_polar e (o + w) ltac:(lra)) as A.
    replace (Ratan2 (vy (vmult e (frame_P 0 o w))) (vx (vmult e (frame_P 0 o w)))) with (Ratan2 (e * sin (o + w)) (e * cos (o + w))) by (rewrite P0; reflexivity).
    destruct (mod_2pi (Ratan2 (e * sin (o + w)) (e * cos (o + w)))) as (m & Em & Sm & Bm). rewrite Em. assert (Sw : same_angle m (o + w)) by (eapply same_trans; eassumption).
    set (rn := p / (1 + e * cos nu)) in *.
    assert (X1 : vdot (conic_position p e 0 o w nu) (vmult e (frame_P 0 o w)) = e * rn * cos nu).
    { pose proof (frame_PP 0 o w) as PP. pose proof (frame_PQ 0 o w) as PQ. unfold conic_position. fold rn. set (P := frame_P 0 o w) in *. set (Q := frame_Q 0 o w) in *. clearbody P Q rn.
      transitivity (e * rn * (cos nu * vdot P P + sin nu * vdot P Q)); [unfold vdot, vmult, vplus; cbn [vx vy vz]; ring|]. rewrite PP, PQ. ring. }
    assert (X2 : vdot (momentum (conic_position p e 0 o w nu) (conic_velocity mu p e 0 o w nu)) (vcross (vmult e (frame_P 0 o w)) (conic_position p e 0 o w nu)) / sqrt (mu * p) = e * rn * sin nu).
    { rewrite (h_state mu p e 0 o w nu Hmu Hp Hd). pose proof (frame_WW 0 o) as WW. rewrite <- (frame_cross 0 o w) in WW |- *. unfold conic_position. fold rn. set (P := frame_P 0 o w) in *. set (Q := frame_Q 0 o w) in *. clearbody P Q rn. set (K := sqrt (mu * p)) in *.
      transitivity (e * rn * sin nu * vdot (vcross P Q) (vcross P Q)); [|rewrite WW; ring]. unfold vdot, vmult, vplus, vcross; cbn [vx vy vz]. field. lra. }
    rewrite X1, X2. assert (Hk : 0 < e * rn) by (apply Rmult_lt_0_compat; lra). pose proof (atan2_polar (e * rn) nu Hk) as A2.
    destruct (wrap (Ratan2 (e * rn * sin nu) (e * rn * cos nu))) as (m' & Em' & Sm' & Bm'). rewrite Em'. assert (Sn : same_angle m' nu) by (eapply same_trans; eassumption).
    exists 0, m, m'. split; [reflexivity|]. split; [reflexivity|]. split.
    + rewrite coe2rv_F by (try lra; apply D, Sn). destruct (flat_state mu p e o w nu m m' Sw Sn) as [-> ->]. reflexivity.
    + repeat split; try lra; try apply Sw; try apply Sn; intros; lra.
  - rewrite !(proj2 (xltb_Ff _ _)) by lra. cbn [andb negb].
    assert (SI : 0 < sin i) by (apply sin_gt_0; lra).
    pose proof (atan2_polar (sqrt (mu * p) * sin i) o ltac:(nra)) as A. destruct (mod_2pi (Ratan2 (sqrt (mu * p) * sin i * sin o) (sqrt (mu * p) * sin i * cos o))) as (m & Em & Sm & Bm). rewrite Em.
    assert (So : same_angle m o) by (eapply same_trans; eassumption).
    destruct (nu_of_F mu p e i o w nu Hmu Hp Hd ltac:(lra) E1 ltac:(intros; apply Ha; lra)) as (t & Et & St). rewrite Et.
    set (k := p / (1 + e * cos nu) * sqrt (mu * p) * sin i) in *. assert (Hk : 0 < k) by (unfold k; apply Rmult_lt_0_compat; [apply Rmult_lt_0_compat|]; assumption).
    pose proof (atan2_polar k (w + nu) Hk) as A2. set (l := Ratan2 (k * sin (w + nu)) (k * cos (w + nu))) in *.
    change (@nsub XR (Fin l) (Fin t)) with (Fin (l - t)). destruct (mod_2pi (l - t)) as (m1 & Em1 & Sm1 & Bm1). rewrite Em1.
    assert (Sw : same_angle m1 w). { eapply same_trans; [exact Sm1|]. replace w with (w + nu + - nu) by ring. apply same_plus; [exact A2|]. apply same_opp, St. }
    destruct (wrap t) as (m' & Em' & Sm' & Bm'). rewrite Em'. assert (Sn : same_angle m' nu) by (eapply same_trans; eassumption).
    exists m, m1, m'. split; [reflexivity|]. split; [reflexivity|]. split.
    + rewrite coe2rv_F by (try lra; apply D, Sn). destruct (same_state mu p e i o w nu m m1 m' So Sw Sn) as [-> ->]. reflexivity.
    + repeat split; try lra; try apply Sw; try apply Sn; try apply So; intros; lra.
Qed.
Print Assumptions C65_elements_recovered.

(** The same for every state: let the angular momentum not vanish and not point
    along the negative z axis, let eccentricity and inclination be zero or not
    below the tolerance, let the orbit not be a parabola and the body not be at the
    apoapsis of an inclined ellipse.  Then the elements found give back the state. *)
Theorem C65_state_recovered : forall mu r v tol,
  0 < mu -> momentum r v <> vzero -> 0 < tol ->
  let h := momentum r v in let e := vnorm (ecc_vector mu r v) in let i := acos (vz h / vnorm h) in
  vz h <> - vnorm h -> e <> 1 -> (e = 0 \/ tol <= e) -> (i = 0 \/ tol <= i) ->
  (0 < i -> 0 < e < 1 -> vdot (ecc_vector mu r v) r <> - (e * vnorm r)) ->
  exists p o w nu,
    @rv2coe XR (Fin mu) (vfin r) (vfin v) (Fin tol) = Coe (Fin p) (Fin e) (Fin i) (Fin o) (Fin w) (Fin nu) /\
    @coe2rv XR (Fin mu) (Fin p) (Fin e) (Fin i) (Fin o) (Fin w) (Fin nu) = Ok (vfin r, vfin v) /\
    0 <= o < 2 * PI /\ 0 <= w < 2 * PI /\ - PI <= nu < PI.
Proof.
  intros mu r v tol Hmu Hh Ht h e i Hz E1 Te Ti Ha.
  destruct (elements_exist mu r v Hmu Hh) as (p & e0 & i0 & o & w & nu & Hp & He & Hi & Hd & Er & Ev).
  assert (Ee : e = e0). { unfold e, vnorm. rewrite Er, Ev, e_state by assumption. now apply ec. }
  assert (EM : h = vmult (sqrt (mu * p)) (frame_W i0 o)) by (unfold h; rewrite Er, Ev; now apply h_state). destruct (K_facts mu p Hmu Hp) as [K1 K2].
  assert (EN : vnorm h = sqrt (mu * p)). { unfold h, vnorm. rewrite Er, Ev. f_equal. now apply hh. }
  assert (Ez : vz h = sqrt (mu * p) * cos i0) by (rewrite EM; reflexivity).
  assert (Ei : i = i0). { unfold i. rewrite EN, Ez. replace (sqrt (mu * p) * cos i0 / sqrt (mu * p)) with (cos i0) by (field; lra). now apply acos_cos. }
  assert (Li : i0 < PI). { destruct (proj2 Hi) as [L|L]; [exact L|exfalso]. apply Hz. rewrite EN, Ez, L, cos_PI. ring. }
  rewrite Ee, Ei in *. clear Ee Ei.
  destruct (C65_elements_recovered mu p e0 i0 o w nu tol Hmu Hp He E1 Hd ltac:(lra) Ht Te Ti) as (r' & v' & o' & w' & nu' & A1 & A2 & A3 & B1 & B2 & B3 & _).
  - intros I0 E0 C. apply (Ha I0 E0). rewrite Er, Ev, e_state, vdot_mult_l by assumption. rewrite r_rn by assumption. unfold conic_position.
    pose proof (frame_PP i0 o w) as PP. pose proof (frame_PQ i0 o w) as PQ. set (P := frame_P i0 o w) in *. set (Q := frame_Q i0 o w) in *. set (k := p / (1 + e0 * cos nu)). clearbody P Q k.
    transitivity (e0 * (k * (cos nu * vdot P P + sin nu * vdot P Q))); [unfold vdot, vmult, vplus; cbn [vx vy vz]; ring|]. rewrite PP, PQ, C. ring.
  - rewrite coe2rv_F, <- Er, <- Ev in A1 by lra. assert (Q : (vfin r, vfin v) = (vfin r', vfin v')) by congruence. clear A1.
    exists p, o', w', nu'. replace (vfin r) with (vfin r') by congruence. replace (vfin v) with (vfin v') by congruence. auto.
Qed.
Print Assumptions C65_state_recovered.

(** A polar orbit left at periapsis with eccentricity 1/2 or 3. *)
Example C65_state_case : forall k, k = 3 / 2 \/ k = 4 -> let r := V3 1 0 0 in let v := V3 0 0 (sqrt k) in
  momentum r v <> vzero /\ vz (momentum r v) <> - vnorm (momentum r v) /\ ecc_vector 1 r v = V3 (k - 1) 0 0 /\ vdot (ecc_vector 1 r v) r <> - ((k - 1) * vnorm r).
Proof.
  intros k Hk r v. assert (K : 0 < k) by lra. assert (S : 0 < sqrt k /\ sqrt k * sqrt k = k) by (split; [now apply sqrt_lt_R0|apply sqrt_sqrt; lra]). destruct S as [S1 S2].
  assert (N : vnorm r = 1). { unfold vnorm, r, vdot. cbn [vx vy vz]. replace (1 * 1 + 0 * 0 + 0 * 0) with 1 by ring. apply sqrt_1. }
  assert (M : momentum r v = V3 0 (- sqrt k) 0) by (unfold momentum, vcross, r, v; cbn [vx vy vz]; apply vec_eq; cbn [vx vy vz]; ring).
  assert (E : ecc_vector 1 r v = V3 (k - 1) 0 0). { unfold ecc_vector. fold (momentum r v). rewrite M, N. unfold r, v, vcross, vminus, vmult. cbn [vx vy vz]. apply vec_eq; cbn [vx vy vz]; try field. rewrite <- S2 at 3. field. }
  assert (MN : momentum r v <> vzero) by (rewrite M; intros Z; apply (f_equal vy) in Z; unfold vzero in Z; cbn [vy] in Z; lra).
  split; [exact MN|]. split. { pose proof (vnorm_pos _ MN). rewrite M at 1. cbn [vz]. lra. }
  split; [exact E|]. rewrite E, N. unfold r, vdot. cbn [vx vy vz]. lra.
Qed.

(** An inclined hyperbola, an equatorial ellipse and a circle meet the hypotheses. *)
Example C65_case :
  (0 < 1 + 2 * cos 1 /\ (2 = 0 \/ 1 / 100 <= 2) /\ (PI / 3 = 0 \/ 1 / 100 <= PI / 3)) /\
  (0 < 1 + / 2 * cos PI /\ (0 < 0 -> 0 < / 2 < 1 -> cos PI <> -1)) /\
  (0 < 1 + 0 * cos 5 /\ (0 = 0 \/ 1 / 100 <= 0)).
Proof.
  pose proof PI_RGT_0. pose proof PI2_1. rewrite cos_PI. assert (0 < cos 1) by (apply cos_gt_0; lra). repeat split; try lra; intros; lra.
Qed.

(** On a parabola the semi-major axis has no value and with it neither the true
    anomaly nor the argument of periapsis, although both are defined
    (elements.py:253-266). *)
Theorem C65_parabola_refuted : forall mu p i o w nu tol,
  0 < mu -> 0 < p -> 0 < 1 + cos nu -> 0 <= i <= PI -> tol <= i -> tol <= 1 ->
  exists r v,
    @coe2rv XR (Fin mu) (Fin p) (Fin 1) (Fin i) (Fin o) (Fin w) (Fin nu) = Ok (vfin r, vfin v) /\
    e_ecc (@rv2coe XR (Fin mu) (vfin r) (vfin v) (Fin tol)) = Fin 1 /\
    e_argp (@rv2coe XR (Fin mu) (vfin r) (vfin v) (Fin tol)) = NaN /\
    e_nu (@rv2coe XR (Fin mu) (vfin r) (vfin v) (Fin tol)) = NaN.
Proof.
  intros mu p i o w nu tol Hmu Hp Hd Hi Ti T1. exists (conic_position p 1 i o w nu), (conic_velocity mu p 1 i o w nu).
  rewrite coe2rv_F by lra. split; [reflexivity|].
  rewrite (rv2coe_F mu p 1 i o w nu Hmu Hp ltac:(lra) ltac:(lra) Hi tol). rewrite !(proj2 (xltb_Ff _ _)) by lra. cbn [andb negb].
  rewrite (nu_of_parabola mu p 1 i o w nu eq_refl). repeat split; reflexivity.
Qed.
Print Assumptions C65_parabola_refuted.

(** A retrograde orbit in the equatorial plane is not taken for an equatorial one
    (the inclination is compared with zero only, elements.py:239): the node vector
    vanishes, and whatever the position, the elements describe one on the x axis. *)
Theorem C65_retrograde_refuted : forall mu p e o w nu tol,
  0 < mu -> 0 < p -> 0 < e -> e <> 1 -> 0 < 1 + e * cos nu -> (e < 1 -> cos nu <> -1) -> tol <= e -> tol <= PI ->
  exists r v w' nu' v',
    @coe2rv XR (Fin mu) (Fin p) (Fin e) (Fin PI) (Fin o) (Fin w) (Fin nu) = Ok (vfin r, vfin v) /\
    @rv2coe XR (Fin mu) (vfin r) (vfin v) (Fin tol) = Coe (Fin p) (Fin e) (Fin PI) (Fin 0) (Fin w') (Fin nu') /\
    @coe2rv XR (Fin mu) (Fin p) (Fin e) (Fin PI) (Fin 0) (Fin w') (Fin nu') = Ok (vfin (V3 (vnorm r) 0 0), vfin v') /\
    r = vmult (vnorm r) (V3 (cos (o - (w + nu))) (sin (o - (w + nu))) 0).
Proof.
  intros mu p e o w nu tol Hmu Hp He E1 Hd Ha Te Ti. pose proof PI_RGT_0 as HP. pose proof (rn_pos p e nu Hp Hd) as RP.
  exists (conic_position p e PI o w nu), (conic_velocity mu p e PI o w nu). rewrite coe2rv_F by lra.
  rewrite (rv2coe_F mu p e PI o w nu Hmu Hp ltac:(lra) Hd ltac:(lra) tol). rewrite !(proj2 (xltb_Ff _ _)) by lra. cbn [andb negb].
  destruct (nu_of_F mu p e PI o w nu Hmu Hp Hd He E1 Ha) as (t & Et & St). rewrite Et. rewrite sin_PI.
  assert (Z : forall a b, Ratan2 (a * 0 * sin b) (a * 0 * cos b) = 0).
  { intros a b. replace (a * 0 * sin b) with 0 by ring. replace (a * 0 * cos b) with 0 by ring. unfold Ratan2. destruct (Rlt_dec 0 0); [lra|reflexivity]. }
  rewrite !Z. destruct (mod_2pi 0) as (m0 & Em0 & Sm0 & Bm0).
  assert (M0 : m0 = 0).
  { destruct (Req_dec m0 0) as [H|H]; [exact H|exfalso]. destruct Sm0 as [C S]. rewrite cos_0 in C. rewrite sin_0 in S.
    destruct (Rtotal_order m0 PI) as [L|[L|L]]; [assert (0 < sin m0) by (apply sin_gt_0; lra); lra|rewrite L, cos_PI in C; lra|assert (sin m0 < 0) by (apply sin_lt_0; lra); lra]. }
  rewrite Em0, M0. change (@nsub XR (Fin 0) (Fin t)) with (Fin (0 - t)). destruct (mod_2pi (0 - t)) as (m1 & Em1 & Sm1 & Bm1). rewrite Em1.
  destruct (wrap t) as (m' & Em' & Sm' & Bm'). rewrite Em'. assert (Sn : same_angle m' nu) by (eapply same_trans; eassumption).
  assert (Sw : same_angle m1 (- nu)). { eapply same_trans; [exact Sm1|]. replace (0 - t) with (- t) by ring. apply same_opp, St. }
  assert (R : vnorm (conic_position p e PI o w nu) = p / (1 + e * cos nu)) by (apply r_rn; assumption).
  exists m1, m', (conic_velocity mu p e PI 0 m1 m'). split; [reflexivity|]. split; [reflexivity|].
  destruct Sn as [N1 N2]. destruct Sw as [W1 W2]. rewrite cos_neg in W1. rewrite sin_neg in W2. split.
  - rewrite coe2rv_F by (rewrite ?N1; lra). do 3 f_equal. rewrite R. unfold conic_position, frame_P, frame_Q, vmult, vplus. cbn [vx vy vz]. rewrite N1, N2, W1, W2, cos_0, sin_0, cos_PI, sin_PI. pose proof (sc nu) as S.
    apply vec_eq; cbn [vx vy vz]; [|ring|ring]. transitivity (p / (1 + e * cos nu) * (sin nu * sin nu + cos nu * cos nu)); [ring|]. rewrite S. ring.
  - rewrite R. unfold Rminus. rewrite cos_plus, sin_plus, cos_neg, sin_neg, cos_plus, sin_plus. unfold conic_position, frame_P, frame_Q, vmult, vplus. cbn [vx vy vz]. rewrite cos_PI, sin_PI. apply vec_eq; cbn [vx vy vz]; ring.
Qed.
Print Assumptions C65_retrograde_refuted.

(** With the node at a quarter turn the position [(0, 1, 0)] becomes [(1, 0, 0)]. *)
Example C65_retrograde_case : 0 < 1 + 2 * cos 0 /\ 2 <> 1 /\ (2 < 1 -> cos 0 <> -1) /\ 1 / 100 <= PI /\ cos (PI / 2 - (0 + 0)) = 0 /\ 0 < 1 + cos 0.
Proof. pose proof PI_RGT_0. pose proof PI2_1. rewrite cos_0. replace (PI / 2 - (0 + 0)) with (PI / 2) by ring. rewrite cos_PI2. repeat split; try lra; intros; lra. Qed.
