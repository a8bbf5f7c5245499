(** * Transfer angle and orbit normal of the model in exact arithmetic. *)
From Coq Require Import Reals ZArith Bool Lra Lia Psatz.
From Coquelicot Require Import Coquelicot.
From Verif Require Import Num XReal XRealLemmas MLinalg MAngles Spec VecFacts VecXR.
Local Open Scope R_scope.

(** ** The angle between two vectors *)
Definition cosang (u v : rvec) : R := vdot u v / (vnorm u * vnorm v).

Lemma cosang_bound u v : u <> vzero -> v <> vzero -> -1 <= cosang u v <= 1.
Proof.
  intros Hu Hv. apply vnorm_pos in Hu. apply vnorm_pos in Hv.
  pose proof (cauchy_schwarz u v) as C. rewrite <- !vnorm_sq in C.
  unfold cosang. set (d := vdot u v) in *. set (a := vnorm u) in *. set (b := vnorm v) in *.
  assert (0 < a * b) by nra.
  assert (- (a * b) <= d <= a * b) by (split; nra).
  split.
  - apply Rmult_le_reg_r with (a * b); [assumption|].
    unfold Rdiv. rewrite Rmult_assoc, Rinv_l by lra. lra.
  - apply Rmult_le_reg_r with (a * b); [assumption|].
    unfold Rdiv. rewrite Rmult_assoc, Rinv_l by lra. lra.
Qed.
Lemma cosang_strict u v : vcross u v <> vzero -> -1 < cosang u v < 1.
Proof.
  intros H. pose proof (vcross_nonzero_l _ _ H) as Hu. pose proof (vcross_nonzero_r _ _ H) as Hv.
  apply vnorm_pos in Hu. apply vnorm_pos in Hv.
  pose proof (cauchy_strict u v H) as C. rewrite <- !vnorm_sq in C.
  unfold cosang. set (d := vdot u v) in *. set (a := vnorm u) in *. set (b := vnorm v) in *.
  assert (0 < a * b) by nra.
  assert (- (a * b) < d < a * b) by (split; nra).
  split.
  - apply Rmult_lt_reg_r with (a * b); [assumption|].
    unfold Rdiv. rewrite Rmult_assoc, Rinv_l by lra. lra.
  - apply Rmult_lt_reg_r with (a * b); [assumption|].
    unfold Rdiv. rewrite Rmult_assoc, Rinv_l by lra. lra.
Qed.

(** Short-way angle. *)
Definition ang0 (u v : rvec) : R := acos (cosang u v).
Lemma ang0_bound u v : vcross u v <> vzero -> 0 < ang0 u v < PI.
Proof.
  intros H. pose proof (cosang_strict u v H) as C. unfold ang0.
  destruct (acos_bound (cosang u v)) as [A B].
  assert (E : cos (acos (cosang u v)) = cosang u v) by (apply cos_acos; lra).
  split.
  - destruct A as [A|A]; [assumption|]. rewrite <- A, cos_0 in E. lra.
  - destruct B as [B|B]; [assumption|]. rewrite B, cos_PI in E. lra.
Qed.
Lemma ang0_cos u v : vcross u v <> vzero -> cos (ang0 u v) = cosang u v.
Proof. intros H. pose proof (cosang_strict u v H). apply cos_acos. lra. Qed.

Lemma short_way_dec p r1 r2 : {short_way p r1 r2} + {~ short_way p r1 r2}.
Proof. destruct p; simpl; [apply Rlt_dec | apply Rlt_dec]. Qed.

Lemma is_null_F v : @is_null XR (vfin v) = if vzero_dec v then true else false.
Proof.
  destruct v as [a b c]. unfold is_null, vall, vfin, vmap. xunf. cbn [xeqb].
  destruct (vzero_dec _) as [E|E].
  - unfold vzero in E. injection E as -> -> ->.
    destruct (Req_EM_T 0 0); [reflexivity|lra].
  - destruct (Req_EM_T a 0), (Req_EM_T b 0), (Req_EM_T c 0); try reflexivity.
    subst. now destruct E.
Qed.

Theorem get_transfer_angle_F r1 r2 p :
  vcross r1 r2 <> vzero ->
  @get_transfer_angle XR (vfin r1) (vfin r2) p
  = Fin (if short_way_dec p r1 r2 then ang0 r1 r2 else 2 * PI - ang0 r1 r2).
Proof.
  intros H. unfold get_transfer_angle. rewrite !cross_F, is_null_F.
  destruct (vzero_dec (vcross r1 r2)) as [?|_]; [contradiction|].
  rewrite !norm_F, vdivs_F by (apply Rgt_not_eq; now apply vnorm_pos).
  unfold K_AXIS. change (V3 #0%num #0%num #1%num) with (vfin (V3 0 0 1)). rewrite !dot_F.
  pose proof (vnorm_pos _ (vcross_nonzero_l _ _ H)) as H1.
  pose proof (vnorm_pos _ (vcross_nonzero_r _ _ H)) as H2.
  pose proof (vnorm_pos _ H) as Hn.
  xunf. change (xmul (Fin (vnorm r1)) (Fin (vnorm r2))) with (Fin (vnorm r1 * vnorm r2)).
  rewrite xdiv_F by nra. fold (cosang r1 r2).
  pose proof (cosang_strict r1 r2 H).
  rewrite xacos_F by lra. fold (ang0 r1 r2).
  change (xsub (xmul (Fin 2) (Fin PI)) (Fin (ang0 r1 r2))) with (Fin (2 * PI - ang0 r1 r2)).
  set (n := vnorm (vcross r1 r2)) in *.
  replace (vdot (V3 0 0 1) (vmult (/ n) (vcross r1 r2))) with (/ n * vz (vcross r1 r2))
    by (destruct (vcross r1 r2); vunf; ring).
  assert (Hi : 0 < / n) by (apply Rinv_0_lt_compat; assumption).
  destruct (short_way_dec p r1 r2) as [L|L]; destruct p; cbn [short_way] in L.
  - replace (xltb _ _) with true; [reflexivity|]. symmetry. apply xltb_F. nra.
  - replace (xltb _ _) with true; [reflexivity|]. symmetry. apply xltb_F. nra.
  - replace (xltb _ _) with false; [reflexivity|]. symmetry. apply xltb_Ff. nra.
  - replace (xltb _ _) with false; [reflexivity|]. symmetry. apply xltb_Ff. nra.
Qed.

(** ** Collinear positions *)
Lemma collinear_mult u v :
  u <> vzero -> vcross u v = vzero -> v = vmult (vdot u v / vdot u u) u.
Proof.
  intros Hu Hc. apply vdot_nonzero in Hu.
  destruct u as [a b c], v as [x y z]; vunf. injection Hc; intros E1 E2 E3.
  set (q := a * a + b * b + c * c) in *.
  assert (X : x * q = (a * x + b * y + c * z) * a).
  { assert (b * (a * y - b * x) = 0) by (rewrite E1; ring).
    assert (c * (c * x - a * z) = 0) by (rewrite E2; ring). unfold q. lra. }
  assert (Y : y * q = (a * x + b * y + c * z) * b).
  { assert (a * (a * y - b * x) = 0) by (rewrite E1; ring).
    assert (c * (b * z - c * y) = 0) by (rewrite E3; ring). unfold q. lra. }
  assert (Z : z * q = (a * x + b * y + c * z) * c).
  { assert (a * (c * x - a * z) = 0) by (rewrite E2; ring).
    assert (b * (b * z - c * y) = 0) by (rewrite E3; ring). unfold q. lra. }
  f_equal; apply Rmult_eq_reg_r with q; try lra; rewrite ?X, ?Y, ?Z; field; lra.
Qed.

Lemma nsign_F a : @nsign XR (Fin a) = Fin (sign a).
Proof.
  unfold nsign. xunf. change (xopp (Fin 1)) with (Fin (- 1)).
  destruct (Rtotal_order a 0) as [L|[->|L]].
  - replace (xltb (Fin 0) (Fin a)) with false by (symmetry; apply xltb_Ff; lra).
    replace (xltb (Fin a) (Fin 0)) with true by (symmetry; apply xltb_F; lra).
    rewrite sign_eq_m1 by assumption. reflexivity.
  - replace (xltb (Fin 0) (Fin 0)) with false by (symmetry; apply xltb_Ff; lra).
    replace (xeqb (Fin 0) (Fin 0)) with true by (symmetry; apply xeqb_F; lra).
    now rewrite sign_0.
  - replace (xltb (Fin 0) (Fin a)) with true by (symmetry; apply xltb_F; lra).
    rewrite sign_eq_1 by assumption. reflexivity.
Qed.

Lemma sign_scale_pos k a : 0 < k -> sign (k * a) = sign a.
Proof. intros. rewrite sign_mult, (sign_eq_1 k) by assumption. ring. Qed.

Lemma same_signs_F u v :
  @same_signs XR (vfin u) (vfin v) = true <->
  sign (vx u) = sign (vx v) /\ sign (vy u) = sign (vy v) /\ sign (vz u) = sign (vz v).
Proof.
  destruct u, v. unfold same_signs, vfin, vmap, vmap2, vall. cbn [Num.vx Num.vy Num.vz].
  rewrite !nsign_F. xunf. rewrite !andb_true_iff, !xeqb_F. tauto.
Qed.

Theorem get_transfer_angle_collinear r1 r2 p :
  r1 <> vzero -> vcross r1 r2 = vzero ->
  @get_transfer_angle XR (vfin r1) (vfin r2) p
  = Fin (if Rlt_dec 0 (vdot r1 r2) then 0 else PI).
Proof.
  intros H1 Hc. unfold get_transfer_angle. rewrite !cross_F, is_null_F.
  destruct (vzero_dec (vcross r1 r2)); [|contradiction].
  pose proof (collinear_mult r1 r2 H1 Hc) as E. pose proof (vdot_nonzero _ H1) as Hd.
  set (k := vdot r1 r2 / vdot r1 r1) in *.
  destruct (Rlt_dec 0 (vdot r1 r2)) as [L|L].
  - assert (Hk : 0 < k) by (apply Rdiv_lt_0_compat; assumption).
    replace (same_signs _ _) with true; [reflexivity|]. symmetry. apply same_signs_F.
    rewrite E. destruct r1 as [a b c]; vunf. now rewrite !sign_scale_pos.
  - assert (Hk : k <= 0).
    { unfold k, Rdiv. assert (0 < / vdot r1 r1) by (apply Rinv_0_lt_compat; assumption). nra. }
    destruct (same_signs _ _) eqn:S; [|reflexivity]. exfalso. apply same_signs_F in S.
    rewrite E in S. destruct r1 as [a b c]; cbn [vmult vx vy vz] in S.
    destruct S as (Sa & Sb & Sc).
    assert (Q : forall t, sign t = sign (k * t) -> t = 0).
    { intros t Ht. rewrite sign_mult in Ht.
      destruct Hk as [Hk|Hk].
      - rewrite (sign_eq_m1 k) in Ht by assumption.
        destruct (Rtotal_order t 0) as [W|[W|W]]; [|assumption|].
        + rewrite sign_eq_m1 in Ht by assumption. lra.
        + rewrite sign_eq_1 in Ht by assumption. lra.
      - rewrite Hk, sign_0 in Ht.
        destruct (Rtotal_order t 0) as [W|[W|W]]; [|assumption|].
        + rewrite sign_eq_m1 in Ht by assumption. lra.
        + rewrite sign_eq_1 in Ht by assumption. lra. }
    apply H1. unfold vzero. f_equal; apply Q; assumption.
Qed.

(** ** Summary *)
Theorem transfer_angle_facts r1 r2 p theta :
  vcross r1 r2 <> vzero ->
  @get_transfer_angle XR (vfin r1) (vfin r2) p = Fin theta ->
  0 < theta < 2 * PI /\ theta <> PI /\
  cos theta = vdot r1 r2 / (vnorm r1 * vnorm r2) /\
  (theta < PI <-> short_way p r1 r2).
Proof.
  intros H E. rewrite get_transfer_angle_F in E by assumption. apply Fin_inj in E.
  pose proof (ang0_bound r1 r2 H) as B. pose proof (ang0_cos r1 r2 H) as C.
  destruct (short_way_dec p r1 r2) as [S|S]; subst theta.
  - repeat split; try lra. + exact C. + intros _. exact S.
  - repeat split; try lra.
    + replace (2 * PI - ang0 r1 r2) with (- ang0 r1 r2 + 2 * PI) by ring.
      
      replace (- ang0 r1 r2 + 2 * PI) with (- ang0 r1 r2 + 2 * INR 1 * PI) by (simpl; ring).
      rewrite cos_period, cos_neg. exact C.
    + intros S'. contradiction.
Qed.

(** ** Orbit normal *)
Theorem orbit_normal_F r1 r2 p :
  vcross r1 r2 <> vzero ->
  @get_orbit_normal_vector XR (vfin r1) (vfin r2) p
  = vfin (vmult ((if short_way_dec p r1 r2 then 1 else -1) / vnorm (vcross r1 r2))
                (vcross r1 r2)).
Proof.
  intros H. unfold get_orbit_normal_vector. rewrite !cross_F, norm_F.
  pose proof (vnorm_pos _ H) as Hn.
  rewrite vdivs_F by lra.
  unfold K_AXIS. change (V3 #0%num #0%num #1%num) with (vfin (V3 0 0 1)). rewrite dot_F, vopp_F.
  set (n := vnorm (vcross r1 r2)) in *.
  replace (vdot (V3 0 0 1) (vmult (/ n) (vcross r1 r2))) with (/ n * vz (vcross r1 r2))
    by (destruct (vcross r1 r2); vunf; ring).
  assert (Hi : 0 < / n) by (apply Rinv_0_lt_compat; assumption).
  xunf. rewrite vmult_mult.
  assert (E1 : 1 / n = / n) by (field; lra). assert (E2 : -1 / n = -1 * / n) by (field; lra).
  destruct (short_way_dec p r1 r2) as [L|L]; destruct p; cbn [short_way] in L.
  - replace (xltb _ _) with true; [now rewrite E1|]. symmetry. apply xltb_F. nra.
  - replace (xltb _ _) with true; [now rewrite E1|]. symmetry. apply xltb_F. nra.
  - replace (xltb _ _) with false; [now rewrite E2|]. symmetry. apply xltb_Ff. nra.
  - replace (xltb _ _) with false; [now rewrite E2|]. symmetry. apply xltb_Ff. nra.
Qed.

(** ** Four-quadrant arc tangent *)
Lemma cos_atan_pos t : cos (atan t) = / sqrt (1 + t * t).
Proof. rewrite cos_atan. unfold Rsqr, Rdiv. ring. Qed.
Lemma sin_atan_pos t : sin (atan t) = t / sqrt (1 + t * t).
Proof. rewrite sin_atan. reflexivity. Qed.
Lemma sqrt_ratio x y : x <> 0 -> sqrt (1 + y / x * (y / x)) = sqrt (x * x + y * y) / Rabs x.
Proof.
  intros Hx. replace (1 + y / x * (y / x)) with ((x * x + y * y) / (x * x)) by (field; assumption).
  assert (0 < x * x) by nra.
  rewrite sqrt_div by nra. f_equal. change (x * x) with (Rsqr x). apply sqrt_Rsqr_abs.
Qed.
Lemma Ratan2_cos_sin x y :
  (x <> 0 \/ y <> 0) ->
  cos (Ratan2 y x) = x / sqrt (x * x + y * y) /\ sin (Ratan2 y x) = y / sqrt (x * x + y * y).
Proof.
  intros H. assert (Hq : 0 < x * x + y * y) by nra.
  pose proof (sqrt_lt_R0 _ Hq) as Hs. set (s := sqrt (x * x + y * y)) in *.
  assert (Hss : s * s = x * x + y * y) by (apply sqrt_sqrt; lra).
  unfold Ratan2. destruct (Rlt_dec 0 x); [|destruct (Rlt_dec x 0)].
  - rewrite cos_atan_pos, sin_atan_pos, sqrt_ratio by lra. fold s.
    rewrite Rabs_right by lra. split; field; lra.
  - assert (C : cos (atan (y / x)) = - x / s).
    { rewrite cos_atan_pos, sqrt_ratio by lra. fold s. rewrite Rabs_left by lra. field. lra. }
    assert (S : sin (atan (y / x)) = - y / s).
    { rewrite sin_atan_pos, sqrt_ratio by lra. fold s. rewrite Rabs_left by lra. field. lra. }
    destruct (Rle_dec 0 y).
    + rewrite neg_cos, neg_sin, C, S. split; field; lra.
    + unfold Rminus. rewrite cos_plus, sin_plus, cos_neg, sin_neg, cos_PI, sin_PI, C, S.
      split; field; lra.
  - assert (x = 0) by lra. subst x.
    destruct (Rlt_dec 0 y); [|destruct (Rlt_dec y 0)].
    + rewrite cos_PI2, sin_PI2. replace s with y by nra. split; field; lra.
    + rewrite cos_neg, sin_neg, cos_PI2, sin_PI2. replace s with (- y) by nra. split; field; lra.
    + lra.
Qed.
Lemma cos_sin_Zperiod a k :
  cos (a - 2 * PI * IZR k) = cos a /\ sin (a - 2 * PI * IZR k) = sin a.
Proof.
  destruct (Z_le_gt_dec 0 k).
  - destruct (IZN k) as [n ->]; [assumption|]. rewrite <- INR_IZR_INZ.
    split.
    + rewrite <- (cos_period (a - 2 * PI * INR n) n). f_equal. ring.
    + rewrite <- (sin_period (a - 2 * PI * INR n) n). f_equal. ring.
  - destruct (IZN (- k)) as [n Hn]; [lia|].
    assert (E : IZR k = - INR n) by (rewrite INR_IZR_INZ, <- Hn, opp_IZR; ring).
    rewrite E. split.
    + rewrite <- (cos_period a n). f_equal. ring.
    + rewrite <- (sin_period a n). f_equal. ring.
Qed.
Lemma Rfloor_bound x : Rfloor x <= x < Rfloor x + 1.
Proof. unfold Rfloor. destruct (base_Int_part x). lra. Qed.
(** Reduction modulo a full turn: same direction, in [0, 2 pi). *)
Lemma mod_2pi_facts a :
  let r := a - 2 * PI * Rfloor (a / (2 * PI)) in
  cos r = cos a /\ sin r = sin a /\ 0 <= r < 2 * PI.
Proof.
  intros r. pose proof PI_RGT_0 as HP. unfold r, Rfloor.
  destruct (cos_sin_Zperiod a (Int_part (a / (2 * PI)))) as [-> ->].
  split; [reflexivity|]. split; [reflexivity|].
  pose proof (Rfloor_bound (a / (2 * PI))) as B. unfold Rfloor in B.
  set (k := IZR (Int_part _)) in *. set (q := a / (2 * PI)) in *.
  assert (E : a = 2 * PI * q) by (unfold q; field; lra).
  clearbody k q. clear r.
  assert (0 <= 2 * PI * (q - k)) by (apply Rmult_le_pos; lra).
  assert (2 * PI * (q - k) < 2 * PI * 1) by (apply Rmult_lt_compat_l; lra).
  lra.
Qed.

(** ** Inclination and node *)
Lemma orbit_normal_unit r1 r2 p :
  vcross r1 r2 <> vzero ->
  exists n, @get_orbit_normal_vector XR (vfin r1) (vfin r2) p = vfin n /\
    vnorm n = 1 /\ vdot n r1 = 0 /\ vdot n r2 = 0 /\
    (if p then 0 <= vz n else vz n <= 0).
Proof.
  intros H. pose proof (vnorm_pos _ H) as Hn.
  eexists. split; [apply orbit_normal_F; assumption|].
  set (c := vcross r1 r2) in *. set (m := vnorm c) in *.
  split; [|split; [|split]].
  - rewrite vnorm_mult. fold m. unfold Rdiv. rewrite Rabs_mult, (Rabs_right (/ m)).
    2:{ left. now apply Rinv_0_lt_compat. }
    destruct (short_way_dec p r1 r2); [rewrite Rabs_right by lra | rewrite Rabs_left by lra];
      field; lra.
  - rewrite vdot_comm, vdot_mult_r. unfold c. rewrite vdot_cross_l. ring.
  - rewrite vdot_comm, vdot_mult_r. unfold c. rewrite vdot_cross_r. ring.
  - assert (Hi : 0 < / m) by (now apply Rinv_0_lt_compat).
    unfold vmult; cbn [vz]. unfold Rdiv.
    destruct (short_way_dec p r1 r2) as [S|S]; destruct p; unfold short_way in S; fold c in S; nra.
Qed.

(** The unit normal of the plane with inclination [inc] and node [raan]. *)
Theorem inc_raan_F r1 r2 p n :
  vcross r1 r2 <> vzero ->
  @get_orbit_normal_vector XR (vfin r1) (vfin r2) p = vfin n ->
  exists inc raan,
    @get_orbit_inc_and_raan_from_position_vectors XR (vfin r1) (vfin r2) p = (Fin inc, Fin raan) /\
    0 <= inc <= PI /\ 0 <= raan < 2 * PI /\
    (vx n <> 0 \/ vy n <> 0 \/ 0 < vz n ->
     n = V3 (sin raan * sin inc) (- cos raan * sin inc) (cos inc)) /\
    (vx n = 0 -> vy n = 0 -> inc = 0 /\ raan = 0).
Proof.
  intros H E. destruct (orbit_normal_unit r1 r2 p H) as (n' & E' & Hu & _ & _ & _).
  rewrite E in E'. apply vfin_inj in E'. subst n'.
  assert (Hq : vx n * vx n + vy n * vy n + vz n * vz n = 1).
  { change (vdot n n = 1). rewrite <- vnorm_sq, Hu. ring. }
  unfold get_orbit_inc_and_raan_from_position_vectors. rewrite E.
  pose proof PI_RGT_0 as HP.
  destruct n as [a b c]. cbn [vx vy vz] in *.
  unfold vfin at 1 2, vmap; cbn [vx vy vz]. xunf.
  destruct (xeqb (Fin a) (Fin 0) && xeqb (Fin b) (Fin 0)) eqn:EB.
  - apply andb_true_iff in EB. rewrite !xeqb_F in EB. destruct EB as [-> ->].
    exists 0, 0. split; [reflexivity|]. split; [lra|]. split; [lra|]. split; [|auto].
    intros Hc. rewrite sin_0, cos_0. f_equal; try ring. nra.
  - assert (Hab : a <> 0 \/ b <> 0).
    { destruct (Req_EM_T a 0) as [->|]; [|auto]. destruct (Req_EM_T b 0) as [->|]; [|auto].
      exfalso. rewrite (proj2 (xeqb_F 0 0) eq_refl) in EB. discriminate. }
    assert (Hc : -1 <= c <= 1) by nra.
    rewrite norm_F, Hu. change (vz (vfin (V3 a b c))) with (Fin c).
    rewrite xdiv_F by lra. replace (c / 1) with c by field. rewrite xacos_F by assumption.
    unfold K_AXIS. change (V3 #0%num #0%num #1%num) with (vfin (V3 0 0 1)).
    rewrite cross_F.
    unfold vcross, vfin, vmap; cbn [vx vy vz]. xunf.
    cbn [xlift2]. change (xmul (Fin 2) (Fin PI)) with (Fin (2 * PI)).
    rewrite xmod_F by lra.
    set (t := Ratan2 _ _). destruct (mod_2pi_facts t) as (C & S & B).
    eexists _, _. split; [reflexivity|].
    split; [apply acos_bound|]. split; [exact B|].
    assert (T : cos t = - b / sqrt (a * a + b * b) /\ sin t = a / sqrt (a * a + b * b)).
    { unfold t.
      replace (0 * c - 1 * b) with (- b) by ring. replace (1 * a - 0 * c) with a by ring.
      destruct (Ratan2_cos_sin (- b) a) as [-> ->]; [lra|].
      replace (- b * - b + a * a) with (a * a + b * b) by ring. auto. }
    destruct T as [T1 T2].
    split.
    + intros _. rewrite C, S, T1, T2. rewrite cos_acos by assumption.
      rewrite sin_acos by assumption.
      replace (1 - c²) with (a * a + b * b) by (unfold Rsqr; lra).
      assert (0 < sqrt (a * a + b * b)) by (apply sqrt_lt_R0; nra).
      f_equal; field; lra.
    + intros -> ->. lra.
Qed.
