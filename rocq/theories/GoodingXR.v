(** * The time of flight of gooding1990 over the reals: the direct formula and
    the series compute the same function, and the derivatives are its own. *)
From Coq Require Import ZArith List Bool Lia Reals Lra Psatz.
From Coquelicot Require Import Coquelicot.
From Verif Require Import Num XReal XRealLemmas MApi MGooding RDerive UniversalKepler LambertUV LambertRev LambertZ DelatorreXR
  IzzoXR AnglesXR AsinSeries PropertiesDerivIzzo.
Local Open Scope R_scope.

(** ** The series for [u] close to zero *)

(** The coefficients of the series in [u = 1 - x^2]. *)
Definition goo_b (q : R) (k : nat) : R := phi_a k * (1 - q * q * q * (q * q) ^ k).

Section Series.
Variable q : R.
Hypothesis Hq : -1 < q < 1.
Let b := goo_b q.

Lemma goo_b_bound k : Rabs (b k) <= 2 * Rabs (phi_a k).
Proof.
  unfold b, goo_b. pose proof (phi_a_pos k) as P.
  assert (Q : 0 <= q * q < 1) by nra.
  assert (B : 0 <= (q * q) ^ k <= 1).
  { split; [apply pow_le; lra|]. rewrite <- (pow1 k). apply pow_incr. lra. }
  assert (C : -1 < q * q * q < 1) by (split; nra).
  assert (D : -1 <= q * q * q * (q * q) ^ k <= 1) by (split; nra).
  rewrite !Rabs_right by nra. nra.
Qed.
Lemma goo_b_inside u : Rabs u < 1 -> Rbar_lt (Rabs u) (CV_radius b).
Proof.
  intros H. apply Rbar_lt_le_trans with (CV_radius phi_a); [rewrite phi_radius; exact H|].
  destruct (CV_radius_bounded phi_a) as [_ A]. destruct (CV_radius_bounded b) as [B _]. apply A.
  intros r [M HM]. apply B. exists (2 * M). intros n. specialize (HM n). pose proof (goo_b_bound n) as G.
  rewrite Rabs_mult in *. pose proof (Rabs_pos (r ^ n)). nra.
Qed.
Definition goo_F (u : R) : R := PSeries (goo_b q) u.
Definition goo_F1 (u : R) : R := PSeries (PS_derive (goo_b q)) u.
Definition goo_F2 (u : R) : R := PSeries (PS_derive (PS_derive (goo_b q))) u.
Definition goo_F3 (u : R) : R := PSeries (PS_derive (PS_derive (PS_derive (goo_b q)))) u.

Lemma goo_F_derive u : Rabs u < 1 -> is_derive goo_F u (goo_F1 u).
Proof. intros H. apply is_derive_PSeries. now apply goo_b_inside. Qed.
Lemma goo_F1_derive u : Rabs u < 1 -> is_derive goo_F1 u (goo_F2 u).
Proof. intros H. apply is_derive_PSeries. rewrite CV_radius_derive. now apply goo_b_inside. Qed.
Lemma goo_F2_derive u : Rabs u < 1 -> is_derive goo_F2 u (goo_F3 u).
Proof. intros H. apply is_derive_PSeries. rewrite !CV_radius_derive. now apply goo_b_inside. Qed.

Lemma goo_F_phi u : Rabs u < 1 -> goo_F u = phi_f u - q * q * q * phi_f (q * q * u).
Proof.
  intros H. assert (H2 : Rabs (q * q * u) < 1).
  { rewrite Rabs_mult, (Rabs_right (q * q)) by nra. pose proof (Rabs_pos u). nra. }
  pose proof (phi_pseries _ H) as A. pose proof (phi_pseries _ H2) as B. apply is_pseries_R in A. apply is_pseries_R in B.
  unfold goo_F. apply is_pseries_unique. apply is_pseries_R.
  pose proof (is_series_scal_l (q * q * q) _ _ B) as B'.
  pose proof (is_series_minus _ _ _ _ A B') as C. refine (is_series_ext _ _ _ _ C).
  intros n. unfold plus, opp, goo_b; cbn. rewrite Rpow_mult_distr. ring.
Qed.

(** The state of the loop after [k] passes. *)
Definition goo_sum (f : nat -> R) (k : nat) : R := sum_n f k.
Variable u : R.
Let st := @tl_iter XR (Fin u) (Fin (q * q)) (@tl_init XR (Fin q) (Fin (1 - q * q))).

Lemma tl_init_F : @tl_init XR (Fin q) (Fin (1 - q * q)) =
  @TLS XR (Fin 1) (Fin 1) (Fin 1) (Fin 1) (Fin 4) (Fin (q * (1 - q * q))) (Fin (1 - q * q * q)) (Fin (4 / 3))
    (Fin (4 / 3 * (1 - q * q * q))) (Fin 0) (Fin 0) (Fin 0).
Proof.
  unfold tl_init. xunf. cbn [nofZ XR xmul xadd xsub xlift2]. rewrite !xdiv_F by lra. cbn [xmul xadd xsub xlift2].
  destruct (xltb (Fin q) (Fin (1 / 2))) eqn:E; cbn [xmul]; f_equal; apply f_equal; field; lra.
Qed.

Lemma tl_iter_F k : st k =
  @TLS XR (Fin (u ^ k)) (Fin (u ^ (k - 1))) (Fin (u ^ (k - 2))) (Fin (u ^ (k - 3)))
    (Fin (4 * bin k)) (Fin (q * (1 - q * q) * (q * q) ^ k)) (Fin (1 - q * q * q * (q * q) ^ k)) (Fin (phi_a k))
    (Fin (sum_n (fun j => b j * u ^ j) k - u * (sum_n (fun j => b j * u ^ j) k - b k * u ^ k)))
    (Fin (sum_n (fun j => INR j * b j * u ^ (j - 1)) k))
    (Fin (sum_n (fun j => INR j * (INR j - 1) * b j * u ^ (j - 2)) k))
    (Fin (sum_n (fun j => INR j * (INR j - 1) * (INR j - 2) * b j * u ^ (j - 3)) k)).
Proof.
  induction k as [|k IH].
  - unfold st. cbn [tl_iter]. rewrite tl_init_F, !sum_O. cbn [Nat.sub pow INR bin]. unfold b, goo_b, phi_a. cbn [bin INR pow].
    f_equal; apply (f_equal Fin); field; lra.
  - unfold st in *. cbn [tl_iter]. rewrite IH. unfold tl_step. cbn [tl_u0i tl_u1i tl_u2i tl_u3i tl_term tl_tq tl_tqsum tl_ttmold tl_t tl_dt tl_d2t tl_d3t].
    xunf. cbn [nofZ XR xmul xadd xsub xlift2]. rewrite <- INR_IZR_INZ. pose proof (pos_INR k) as PK. rewrite S_INR.
    set (p := INR k + 1). assert (Hp : 1 <= p) by (unfold p; lra).
    assert (P2 : p * p - 1 / 4 <> 0) by (intros X; nra).
    rewrite !(xdiv_F _ p) by lra. cbn [xmul xadd xsub xlift2].
    rewrite !(xdiv_F _ (2 * p + 3)) by lra. cbn [xmul xadd xsub xlift2].
    rewrite !(xdiv_F _ (p * p - 1 / 4)) by assumption. cbn [xmul xadd xsub xlift2].
    assert (E1 : forall (A : Type) (x y : A), (if (1 <? Z.of_nat (S k))%Z then x else y) = if (1 <? S k)%nat then x else y).
    { intros. destruct (Z.ltb_spec 1 (Z.of_nat (S k))), (Nat.ltb_spec 1 (S k)); try reflexivity; lia. }
    assert (E2 : forall (A : Type) (x y : A), (if (2 <? Z.of_nat (S k))%Z then x else y) = if (2 <? S k)%nat then x else y).
    { intros. destruct (Z.ltb_spec 2 (Z.of_nat (S k))), (Nat.ltb_spec 2 (S k)); try reflexivity; lia. }
    assert (E3 : forall (A : Type) (x y : A), (if (3 <? Z.of_nat (S k))%Z then x else y) = if (3 <? S k)%nat then x else y).
    { intros. destruct (Z.ltb_spec 3 (Z.of_nat (S k))), (Nat.ltb_spec 3 (S k)); try reflexivity; lia. }
    rewrite !E1, !E2, !E3. clear E1 E2 E3.
    assert (U1 : (if (1 <? S k)%nat then Fin (u ^ (k - 1) * u) else Fin (u ^ (k - 1))) = Fin (u ^ (S k - 1))).
    { destruct (Nat.ltb_spec 1 (S k)); apply (f_equal Fin).
      - replace (S k - 1)%nat with (S (k - 1)) by lia. cbn [pow]. ring.
      - replace (S k - 1)%nat with (k - 1)%nat by lia. reflexivity. }
    assert (U2 : (if (2 <? S k)%nat then Fin (u ^ (k - 2) * u) else Fin (u ^ (k - 2))) = Fin (u ^ (S k - 2))).
    { destruct (Nat.ltb_spec 2 (S k)); apply (f_equal Fin).
      - replace (S k - 2)%nat with (S (k - 2)) by lia. cbn [pow]. ring.
      - replace (S k - 2)%nat with (k - 2)%nat by lia. reflexivity. }
    assert (U3 : (if (3 <? S k)%nat then Fin (u ^ (k - 3) * u) else Fin (u ^ (k - 3))) = Fin (u ^ (S k - 3))).
    { destruct (Nat.ltb_spec 3 (S k)); apply (f_equal Fin).
      - replace (S k - 3)%nat with (S (k - 3)) by lia. cbn [pow]. ring.
      - replace (S k - 3)%nat with (k - 3)%nat by lia. reflexivity. }
    rewrite U1, U2, U3. cbn [xmul xadd xsub xlift2]. clear U1 U2 U3.
    rewrite !sum_Sn.
    set (S0 := sum_n (fun j => b j * u ^ j) k). set (S1 := sum_n (fun j => INR j * b j * _) k).
    set (S2 := sum_n (fun j => INR j * (INR j - 1) * b j * _) k). set (S3 := sum_n _ k).
    assert (PL : forall x y : R, @plus R_AbelianGroup x y = x + y) by reflexivity. 
    change (@plus R_AbelianGroup) with Rplus. cbv beta. rewrite S_INR. fold p.
    unfold b, goo_b. assert (EA : phi_a (S k) = 4 * (bin k * (p - / 2) / p) / (2 * p + 3)).
    { unfold phi_a. cbn [bin]. rewrite S_INR. replace (INR k) with (p - 1) by (unfold p; lra). field. lra. }
    assert (EB : phi_a k = 4 * bin k / (2 * p + 1)) by (unfold phi_a; f_equal; unfold p; lra).
    rewrite EA, EB. replace (INR k) with (p - 1) by (unfold p; lra). cbn [pow].
    f_equal; apply (f_equal Fin); try (field; repeat split; lra); try ring.
    cbn [bin]. replace (INR k) with (p - 1) by (unfold p; lra). field. lra.
Qed.

Hypothesis Hu : Rabs u < 1.
Lemma sum_shift (f : nat -> R) k : sum_n f (S k) = f 0%nat + sum_n (fun j => f (S j)) k.
Proof.
  induction k as [|k IH]; [now rewrite sum_Sn, !sum_O|].
  rewrite sum_Sn, IH, (sum_Sn (fun j => f (S j)) k). change (@plus R_AbelianGroup) with Rplus. req. ring.
Qed.
Lemma pseries_lim a l : is_pseries a u l -> is_lim_seq (sum_n (fun j => a j * u ^ j)) l.
Proof. intros H. apply is_pseries_R in H. exact H. Qed.

Lemma lim_F : is_lim_seq (sum_n (fun j => b j * u ^ j)) (goo_F u).
Proof. apply pseries_lim, PSeries_correct, CV_radius_inside. now apply goo_b_inside. Qed.
Lemma lim_F1 : is_lim_seq (sum_n (fun j => INR j * b j * u ^ (j - 1))) (goo_F1 u).
Proof.
  apply is_lim_seq_incr_1. apply is_lim_seq_ext with (sum_n (fun j => PS_derive b j * u ^ j)).
  { intros n. rewrite sum_shift. change (INR 0) with 0; change (INR 1) with 1; change (INR 2) with (1 + 1). rewrite !Rmult_0_l, Rplus_0_l. apply sum_n_ext. intros j.
    unfold PS_derive. replace (S j - 1)%nat with j by lia. reflexivity. }
  apply pseries_lim, PSeries_correct, CV_radius_inside. rewrite CV_radius_derive. now apply goo_b_inside.
Qed.
Lemma lim_F2 : is_lim_seq (sum_n (fun j => INR j * (INR j - 1) * b j * u ^ (j - 2))) (goo_F2 u).
Proof.
  apply is_lim_seq_incr_1, is_lim_seq_incr_1. apply is_lim_seq_ext with (sum_n (fun j => PS_derive (PS_derive b) j * u ^ j)).
  { intros n. rewrite !sum_shift. change (INR 0) with 0; change (INR 1) with 1; change (INR 2) with (1 + 1). replace (1 * (1 - 1)) with 0 by ring. rewrite !Rmult_0_l, !Rplus_0_l. apply sum_n_ext. intros j.
    unfold PS_derive. replace (S (S j) - 2)%nat with j by lia. rewrite !S_INR. req. ring. }
  apply pseries_lim, PSeries_correct, CV_radius_inside. rewrite !CV_radius_derive. now apply goo_b_inside.
Qed.
Lemma lim_F3 : is_lim_seq (sum_n (fun j => INR j * (INR j - 1) * (INR j - 2) * b j * u ^ (j - 3))) (goo_F3 u).
Proof.
  apply is_lim_seq_incr_1, is_lim_seq_incr_1, is_lim_seq_incr_1.
  apply is_lim_seq_ext with (sum_n (fun j => PS_derive (PS_derive (PS_derive b)) j * u ^ j)).
  { intros n. rewrite !sum_shift. change (INR 0) with 0; change (INR 1) with 1; change (INR 2) with (1 + 1). replace (1 * (1 - 1)) with 0 by ring. replace (1 + 1 - 2) with 0 by ring.
    rewrite Rmult_0_r, !Rmult_0_l, !Rplus_0_l. apply sum_n_ext. intros j.
    unfold PS_derive. replace (S (S (S j)) - 3)%nat with j by lia. rewrite !S_INR. req. ring. }
  apply pseries_lim, PSeries_correct, CV_radius_inside. rewrite !CV_radius_derive. now apply goo_b_inside.
Qed.

Lemma lim_t : xlim (fun k => @tl_t XR (st k)) = Fin ((1 - u) * goo_F u).
Proof.
  apply (xlim_is_lim _ (fun k => sum_n (fun j => b j * u ^ j) k - u * (sum_n (fun j => b j * u ^ j) k - b k * u ^ k))).
  { intros n. rewrite tl_iter_F. reflexivity. }
  replace ((1 - u) * goo_F u) with (goo_F u - u * (goo_F u - 0)) by ring.
  apply is_lim_seq_minus'; [apply lim_F|]. apply is_lim_seq_mult'; [apply is_lim_seq_const|].
  apply is_lim_seq_minus'; [apply lim_F|]. apply ex_series_lim_0. exists (goo_F u). exact lim_F.
Qed.
Lemma lim_dt : xlim (fun k => @tl_dt XR (st k)) = Fin (goo_F1 u).
Proof. eapply xlim_is_lim; [|apply lim_F1]. intros n. rewrite tl_iter_F. reflexivity. Qed.
Lemma lim_d2t : xlim (fun k => @tl_d2t XR (st k)) = Fin (goo_F2 u).
Proof. eapply xlim_is_lim; [|apply lim_F2]. intros n. rewrite tl_iter_F. reflexivity. Qed.
Lemma lim_d3t : xlim (fun k => @tl_d3t XR (st k)) = Fin (goo_F3 u).
Proof. eapply xlim_is_lim; [|apply lim_F3]. intros n. rewrite tl_iter_F. reflexivity. Qed.
End Series.

(** The time and its derivatives as the series gives them. *)
Definition goo_S0 (q x : R) : R := goo_F q (1 - x * x).
Definition goo_S1 (q x : R) : R := - 2 * x * goo_F1 q (1 - x * x).
Definition goo_S2 (q x : R) : R := 2 * (2 * (x * x) * goo_F2 q (1 - x * x) - goo_F1 q (1 - x * x)).
Definition goo_S3 (q x : R) : R := 8 * x * (3 / 2 * goo_F2 q (1 - x * x) - x * x * goo_F3 q (1 - x * x)).

Lemma tl_series_F q x n : -1 < q < 1 -> x <> 0 -> Rabs (1 - x * x) < 1 ->
  @tl_series XR (Fin q) (Fin (1 - q * q)) (Fin x) n =
  (Fin (goo_S0 q x), Fin (if (1 <=? n)%Z then goo_S1 q x else 0), Fin (if (2 <=? n)%Z then goo_S2 q x else 0),
   Fin (if (n =? 3)%Z then goo_S3 q x else 0)).
Proof.
  intros Hq Hx Hu. unfold tl_series. xunf. cbn [nofZ XR xmul xadd xsub xlift2]. cbn [nuntil_stable].
  replace ((1 - x) * (1 + x)) with (1 - x * x) by ring.
  rewrite lim_t, lim_dt, lim_d2t, lim_d3t by assumption.
  assert (X2 : x * x <> 0) by nra. cbn [xmul xadd xsub xlift2].
  rewrite xdiv_F by assumption.
  apply pair_equal_spec; split; [apply pair_equal_spec; split; [apply pair_equal_spec; split|]|].
  - apply (f_equal Fin). unfold goo_S0. field. intros ->. lra.
  - destruct (1 <=? n)%Z; [|reflexivity]. cbn. apply (f_equal Fin). unfold goo_S1. ring.
  - destruct (Z.leb_spec 2 n); [|reflexivity]. destruct (Z.leb_spec 1 n); [|lia]. reflexivity.
  - destruct (Z.eqb_spec n 3) as [->|]; reflexivity.
Qed.

(** ** The series is the time equation *)
Lemma phi_ell_odd t : - (PI / 2) < t < PI / 2 -> phi_f (sin t * sin t) * (sin t * sin t * sin t) = 2 * t - sin (2 * t).
Proof.
  intros Ht. destruct (Rle_lt_dec 0 t) as [L|L]; [apply phi_ell; lra|].
  pose proof (phi_ell (- t) ltac:(lra)) as E. replace (2 * - t) with (- (2 * t)) in E by ring. rewrite !sin_neg in E.
  replace (- sin t * - sin t) with (sin t * sin t) in E by ring. lra.
Qed.
Lemma phi_hyp_odd t : -1 < sinh t < 1 -> phi_f (- (sinh t * sinh t)) * (sinh t * sinh t * sinh t) = sinh (2 * t) - 2 * t.
Proof.
  intros Ht. destruct (Rle_lt_dec 0 t) as [L|L]; [apply phi_hyp; lra|].
  assert (N : forall x, sinh (- x) = - sinh x) by (intros; unfold sinh; rewrite Ropp_involutive; field).
  pose proof (phi_hyp (- t) ltac:(lra) ltac:(rewrite N; lra)) as E. replace (2 * - t) with (- (2 * t)) in E by ring. rewrite !N in E.
  replace (- sinh t * - sinh t) with (sinh t * sinh t) in E by ring. lra.
Qed.

Lemma series_ell q x : -1 < q < 1 -> 0 < x < 1 -> goo_S0 q x = 2 * T_ell q 0 x.
Proof.
  intros Hq Hx. assert (Q : 0 < 1 - x * x < 1) by nra. destruct (sqrt_facts (1 - x * x)) as [S1 S2]; [lra|].
  set (s := sqrt (1 - x * x)) in *.
  assert (Hs : s < 1) by nra.
  set (t := asin s). assert (Et : sin t = s) by (apply sin_asin; lra).
  assert (Bt : - (PI / 2) < t < PI / 2) by (apply asin_bound_lt; lra).
  set (w := asin (q * s)). assert (Eqs : -1 < q * s < 1) by (split; nra). assert (Ew : sin w = q * s) by (apply sin_asin; lra).
  assert (Bw : - (PI / 2) < w < PI / 2) by (apply asin_bound_lt; lra).
  assert (Ct : cos t = x).
  { assert (0 < cos t) by (apply cos_gt_0; lra). pose proof (sin2_cos2 t) as SC. unfold Rsqr in SC. rewrite Et in SC. nra. }
  assert (Cw : cos w = sqrt (1 - q * q * (1 - x * x))).
  { assert (0 < cos w) by (apply cos_gt_0; lra). pose proof (sin2_cos2 w) as SC. unfold Rsqr in SC. rewrite Ew in SC.
    symmetry. replace (1 - q * q * (1 - x * x)) with (cos w * cos w); [apply sqrt_square; lra|]. rewrite <- S2. lra. }
  assert (Hwt : 0 < t - w < PI).
  { split; [|lra]. assert (w < t); [|lra].
    destruct (Rlt_le_dec w t) as [|L]; [assumption|exfalso].
    destruct L as [L|L]; [|rewrite <- L in Ew; nra].
    pose proof (sin_increasing_1 t w ltac:(lra) ltac:(lra) ltac:(lra) ltac:(lra) L). nra. }
  unfold goo_S0. rewrite goo_F_phi; [|assumption|apply Rabs_def1; lra].
  unfold T_ell. rewrite <- Cw. fold s. replace (x * cos w + q * (1 - x * x)) with (cos (t - w)).
  2: { rewrite cos_minus, Ct, Et, Ew, <- S2. ring. }
  rewrite acos_cos by lra.
  pose proof (phi_ell_odd t Bt) as P1. pose proof (phi_ell_odd w Bw) as P2. rewrite sin_2a in P1, P2. rewrite Et, Ct in P1. rewrite Ew in P2.
  rewrite <- S2. replace (q * q * (s * s)) with (q * s * (q * s)) by ring.
  apply Rmult_eq_reg_r with (s * s * s); [|apply Rgt_not_eq; repeat apply Rmult_lt_0_compat; lra].
  transitivity (phi_f (s * s) * (s * s * s) - phi_f (q * s * (q * s)) * (q * s * (q * s) * (q * s))); [ring|].
  rewrite P1, P2. field. lra.
Qed.

Lemma series_hyp q x : -1 < q < 1 -> 1 < x -> x * x < 2 -> goo_S0 q x = 2 * T_hyp q x.
Proof.
  intros Hq Hx Hx2. assert (Q : 0 < x * x - 1 < 1) by nra. destruct (sqrt_facts (x * x - 1)) as [S1 S2]; [lra|].
  set (s := sqrt (x * x - 1)) in *.
  assert (Hs : s < 1) by nra.
  set (t := arcsinh s). assert (Et : sinh t = s) by apply sinh_arcsinh.
  set (w := arcsinh (q * s)). assert (Eqs : -1 < q * s < 1) by (split; nra). assert (Ew : sinh w = q * s) by apply sinh_arcsinh.
  assert (CS : forall z, 0 < cosh z /\ cosh z * cosh z = 1 + sinh z * sinh z).
  { intros z. split; [unfold cosh; pose proof (exp_pos z); pose proof (exp_pos (- z)); lra|]. unfold cosh, sinh. pose proof (exp_plus z (- z)) as E. rewrite Rplus_opp_r, exp_0 in E. nra. }
  destruct (CS t) as [C1 C2]. destruct (CS w) as [D1 D2]. rewrite Et in C2. rewrite Ew in D2.
  assert (Ct : cosh t = x) by nra.
  assert (Cw : cosh w = sqrt (1 - q * q * (1 - x * x))).
  { symmetry. replace (1 - q * q * (1 - x * x)) with (cosh w * cosh w); [apply sqrt_square; lra|].
    rewrite D2. replace (x * x) with (1 + s * s) by lra. ring. }
  unfold goo_S0. rewrite goo_F_phi; [|assumption|apply Rabs_def1; lra].
  unfold T_hyp. rewrite <- Cw. fold s. replace (s * (cosh w - q * x)) with (sinh (t - w)).
  2: { transitivity (sinh t * cosh w - cosh t * sinh w); [|rewrite Ct, Et, Ew; ring].
       unfold sinh, cosh, Rminus. rewrite Ropp_plus_distr, Ropp_involutive, !exp_plus. field. }
  rewrite arcsinh_sinh.
  pose proof (phi_hyp_odd t ltac:(lra)) as P1. pose proof (phi_hyp_odd w ltac:(lra)) as P2.
  assert (D : forall z, sinh (2 * z) = 2 * sinh z * cosh z).
  { intros z. unfold sinh, cosh. replace (2 * z) with (z + z) by ring. replace (- (z + z)) with (- z + - z) by ring. rewrite !exp_plus. field. }
  rewrite D in P1, P2. rewrite Et, Ct in P1. rewrite Ew in P2.
  replace (1 - x * x) with (- (s * s)) by lra. replace (q * q * - (s * s)) with (- (q * s * (q * s))) by ring.
  apply Rmult_eq_reg_r with (s * s * s); [|apply Rgt_not_eq; repeat apply Rmult_lt_0_compat; lra].
  transitivity (phi_f (- (s * s)) * (s * s * s) - phi_f (- (q * s * (q * s))) * (q * s * (q * s) * (q * s))); [ring|].
  rewrite P1, P2. field. lra.
Qed.

Lemma series_T q x : -1 < q < 1 -> 0 < x -> x * x < 2 -> x <> 1 -> goo_S0 q x = 2 * izzo_T q 0 x.
Proof.
  intros Hq Hx H2 H1. destruct (izzo_T_F q 0 Hq x) as [_ E]; [repeat split; auto; lra|]. rewrite E.
  destruct (Rlt_dec x 1) as [L|L]; [apply series_ell; lra|apply series_hyp; lra].
Qed.

(** ** The logarithm series and the arc tangent *)
Definition log_c (k : nat) : R := 2 / (2 * INR k + 1).
Lemma log_c_pos k : 0 < log_c k.
Proof. unfold log_c. pose proof (pos_INR k). apply Rdiv_lt_0_compat; lra. Qed.
Lemma log_radius : CV_radius log_c = Finite 1.
Proof.
  rewrite <- Rinv_1. apply CV_radius_finite_DAlembert.
  - intros n. pose proof (log_c_pos n). lra.
  - lra.
  - apply is_lim_seq_ext with (fun n => 1 + - 1 * / (INR n + 3 / 2)).
    { intros n. unfold log_c. rewrite S_INR. pose proof (pos_INR n).
      replace (2 / (2 * (INR n + 1) + 1) / (2 / (2 * INR n + 1))) with ((2 * INR n + 1) / (2 * INR n + 3)) by (field; lra).
      rewrite Rabs_right; [field; lra|]. apply Rle_ge, Rlt_le, Rdiv_lt_0_compat; lra. }
    replace (Finite 1) with (Rbar_plus (Finite 1) (Rbar_mult (Finite (- 1)) (Finite 0))) by (cbn; f_equal; ring).
    apply is_lim_seq_plus'; [apply is_lim_seq_const|]. apply is_lim_seq_scal_l with (lu := Finite 0). apply lim_inv_shift.
Qed.
Lemma log_term_F w n : @goo_log_term XR (Fin w) n = Fin (2 * w * (w * w) ^ n).
Proof.
  induction n as [|n IH]; [cbn; apply (f_equal Fin); ring|]. cbn [goo_log_term]. rewrite IH. xunf. cbn [xmul]. apply (f_equal Fin). cbn [pow]. ring.
Qed.
Lemma log_partial_F w n : @goo_log_partial XR (Fin w) n = Fin (w * sum_n (fun k => log_c k * (w * w) ^ k) n).
Proof.
  induction n as [|n IH].
  - rewrite sum_O. cbn. apply (f_equal Fin). unfold log_c. cbn. field.
  - cbn [goo_log_partial]. rewrite IH, log_term_F, sum_Sn. xunf. cbn [nofZ XR].
    pose proof (pos_INR n) as P. rewrite plus_IZR, mult_IZR, <- INR_IZR_INZ, xdiv_F by lra. cbn [xadd xlift2]. apply (f_equal Fin).
    change (@plus R_AbelianGroup) with Rplus. unfold log_c. rewrite S_INR. req. field. lra.
Qed.
Lemma log_series w : 0 <= w < 1 -> w * PSeries log_c (w * w) = ln ((1 + w) / (1 - w)).
Proof.
  intros Hw.
  assert (B : forall x, -1 < x < 1 -> Rabs (x * x) < 1) by (intros; apply Rabs_def1; nra).
  assert (OD : forall v, Rabs v < 1 -> 2 * v * PSeries (PS_derive log_c) v + PSeries log_c v = 2 * / (1 - v)).
  { intros v Hv.
    assert (R0 : Rbar_lt (Rabs v) (CV_radius log_c)) by (rewrite log_radius; exact Hv).
    assert (R1 : Rbar_lt (Rabs v) (CV_radius (PS_derive log_c))) by (rewrite CV_radius_derive, log_radius; exact Hv).
    set (d := PS_derive log_c) in *.
    assert (X0 : is_pseries log_c v (PSeries log_c v)) by now apply PSeries_correct, CV_radius_inside.
    assert (X1 : is_pseries d v (PSeries d v)) by now apply PSeries_correct, CV_radius_inside.
    set (f := PSeries log_c v) in *. set (f' := PSeries d v) in *.
    assert (Y1 : is_pseries (PS_incr_1 d) v (v * f')) by (apply (is_pseries_incr_1 d v f'); exact X1).
    assert (W0 : is_pseries (PS_scal 2 (PS_incr_1 d)) v (2 * (v * f'))).
    { apply (is_pseries_scal 2 _ v (v * f')); [apply Rmult_comm|exact Y1]. }
    pose proof (is_pseries_plus _ _ v _ _ W0 X0) as T. apply is_pseries_R in T.
    assert (G : is_series (fun n => 2 * v ^ n) (2 * / (1 - v))) by (exact (is_series_scal_l 2 _ _ (is_series_geom v Hv))).
    apply is_series_unique in G. apply is_series_unique in T. rewrite <- G.
    rewrite Rmult_assoc. transitivity (Series (fun n : nat => PS_plus (PS_scal 2 (PS_incr_1 d)) log_c n * v ^ n)); [symmetry; exact T|].
    apply Series_ext. intros n.
    unfold PS_plus, PS_scal, PS_incr_1, d, PS_derive. unfold plus, scal, zero; cbn -[INR]. unfold mult; cbn -[INR].
    unfold log_c. destruct n as [|n].
    - cbn. field.
    - rewrite !S_INR. pose proof (pos_INR n). field. lra. }
  set (G := fun x => x * PSeries log_c (x * x) - (ln (1 + x) - ln (1 - x))).
  assert (DG : forall x, -1 < x < 1 -> is_derive G x 0).
  { intros x Hx. unfold G. pose proof (B x Hx) as Bx.
    assert (D : is_derive (PSeries log_c) (x * x) (PSeries (PS_derive log_c) (x * x))) by (apply is_derive_PSeries; rewrite log_radius; exact Bx).
    assert (D3 : is_derive (fun x => x * x) x (x + x)) by (auto_derive; [exact I|ring]).
    assert (D2 : is_derive (fun x => PSeries log_c (x * x)) x ((x + x) * PSeries (PS_derive log_c) (x * x))).
    { apply (rd_comp (PSeries log_c) (fun x => x * x)); [exact D|exact D3]. }
    assert (D4 : is_derive (fun x : R => x) x 1) by (auto_derive; [exact I|ring]).
    assert (L : is_derive (fun x => ln (1 + x) - ln (1 - x)) x (/ (1 + x) + / (1 - x))) by (auto_derive; [lra|field; lra]).
    eapply rd_eq; [apply rd_minus; [apply rd_mult; [exact D4|exact D2]|exact L]|].
    req. specialize (OD _ Bx). cbv beta.
    transitivity (2 * (x * x) * PSeries (PS_derive log_c) (x * x) + PSeries log_c (x * x) - (/ (1 + x) + / (1 - x))); [ring|].
    rewrite OD. field. repeat split; nra. }
  assert (E : G w = G 0).
  { destruct (Req_dec w 0) as [->|N]; [reflexivity|].
    destruct (MVT_gen G 0 w (fun _ => 0)) as (c & _ & E).
    - intros x Hx. rewrite Rmin_left, Rmax_right in Hx by lra. apply DG. lra.
    - intros x Hx. rewrite Rmin_left, Rmax_right in Hx by lra. apply continuity_pt_filterlim. apply (ex_derive_continuous (V := R_NormedModule)). exists 0. apply DG. lra.
    - lra. }
  unfold G in E. rewrite Rplus_0_r, Rminus_0_r, ln_1 in E. rewrite ln_div by lra. lra.
Qed.
Lemma log_limit w : 0 <= w < 1 -> @nuntil_stable XR (@goo_log_partial XR (Fin w)) = Fin (ln ((1 + w) / (1 - w))).
Proof.
  intros Hw. apply (xlim_is_lim _ (fun n => w * sum_n (fun k => log_c k * (w * w) ^ k) n)); [apply log_partial_F|].
  rewrite <- log_series by assumption. apply is_lim_seq_mult'; [apply is_lim_seq_const|].
  assert (P : is_pseries log_c (w * w) (PSeries log_c (w * w))).
  { apply PSeries_correct, CV_radius_inside. rewrite log_radius. apply Rabs_def1; nra. }
  apply is_pseries_R in P. exact P.
Qed.

Lemma Ratan2_acos f g : 0 < f -> f * f + g * g = 1 -> Ratan2 f g = acos g.
Proof.
  intros Hf E. destruct (Ratan2_cos_sin g f) as [C _]; [lra|].
  replace (g * g + f * f) with 1 in C by lra. rewrite sqrt_1 in C. unfold Rdiv in C. rewrite Rinv_1, Rmult_1_r in C.
  assert (B : 0 <= Ratan2 f g <= PI).
  { pose proof PI_RGT_0. unfold Ratan2. destruct (Rlt_dec 0 g) as [P|P]; [|destruct (Rlt_dec g 0) as [P'|P']].
    - assert (0 < f / g) by (apply Rdiv_lt_0_compat; lra). pose proof (atan_bound (f / g)).
      assert (0 < atan (f / g)) by (rewrite <- atan_0; now apply atan_increasing). lra.
    - destruct (Rle_dec 0 f); [|lra]. pose proof (atan_bound (f / g)).
      assert (f / g < 0) by (pose proof (Rinv_lt_0_compat g P'); unfold Rdiv; nra).
      assert (atan (f / g) < 0) by (rewrite <- atan_0; now apply atan_increasing). lra.
    - destruct (Rlt_dec 0 f); lra. }
  rewrite <- C at 2. symmetry. now apply acos_cos.
Qed.

(** ** The direct formulas *)
Section Direct.
Variables (q x : R) (m : Z).
Hypothesis Hq : -1 < q < 1.
Hypothesis D : izzo_domain m x.
Let y := sqrt (1 - q * q * (1 - x * x)).

Lemma goo_y : 0 < y /\ y * y = 1 - q * q * (1 - x * x).
Proof. exact (Y_facts q Hq x). Qed.

Lemma goo_ab : 
  (if @nleb XR (Fin (q * x)) (Fin 0) then (Fin (y - q * x), Fin (q * y - x))
   else (xdiv (Fin (1 - q * q)) (Fin (y + q * x)), xdiv (Fin ((1 - q * q) * (q * q * ((1 - x) * (1 + x)) - x * x))) (Fin (q * y + x)))) =
  (Fin (y - q * x), Fin (q * y - x)).
Proof.
  destruct goo_y as [P E]. cbn [nleb XR]. destruct (xleb (Fin (q * x)) (Fin 0)) eqn:L; [reflexivity|].
  assert (QX : 0 < q * x) by (destruct (Rle_lt_dec (q * x) 0) as [Z|Z]; [apply xleb_F in Z; rewrite Z in L; discriminate|exact Z]).
  assert (N : q * y + x <> 0).
  { intros Z. assert (q * (q * y + x) = 0) by (rewrite Z; ring). nra. }
  rewrite !xdiv_F by (assumption || nra).
  f_equal; apply (f_equal Fin).
  - apply Rmult_eq_reg_r with (y + q * x); [|nra]. unfold Rdiv. rewrite Rmult_assoc, Rinv_l by nra.
    transitivity (y * y - q * q * (x * x)); [rewrite E; ring|ring].
  - apply Rmult_eq_reg_r with (q * y + x); [|assumption]. unfold Rdiv. rewrite Rmult_assoc, Rinv_l by assumption.
    transitivity (q * q * (y * y) - x * x); [rewrite E; ring|ring].
Qed.

Lemma goo_g :
  (if @nleb XR (Fin 0) (Fin (q * x * ((1 - x) * (1 + x)))) then Fin (x * y + q * ((1 - x) * (1 + x)))
   else xdiv (Fin (x * x - q * q * ((1 - x) * (1 + x)))) (Fin (x * y - q * ((1 - x) * (1 + x))))) =
  Fin (x * y + q * (1 - x * x)).
Proof.
  destruct goo_y as [P E]. cbn [nleb XR]. replace ((1 - x) * (1 + x)) with (1 - x * x) by ring.
  destruct (xleb (Fin 0) (Fin (q * x * (1 - x * x)))) eqn:L; [reflexivity|].
  assert (QX : q * x * (1 - x * x) < 0) by (destruct (Rle_lt_dec 0 (q * x * (1 - x * x))) as [Z|Z]; [apply xleb_F in Z; rewrite Z in L; discriminate|exact Z]).
  assert (N : x * y - q * (1 - x * x) <> 0).
  { intros Z. assert (X2 : 0 <= x * x) by nra. assert (x * (x * y - q * (1 - x * x)) = 0) by (rewrite Z; ring). nra. }
  rewrite xdiv_F by assumption. apply (f_equal Fin).
  apply Rmult_eq_reg_r with (x * y - q * (1 - x * x)); [|assumption]. unfold Rdiv. rewrite Rmult_assoc, Rinv_l by assumption.
  transitivity (x * x * (y * y) - q * (1 - x * x) * (q * (1 - x * x))); [rewrite E; ring|ring].
Qed.

Lemma tl_direct_F n : @tl_direct XR m (Fin q) (Fin (1 - q * q)) (Fin x) n =
  (Fin (2 * izzo_T q m x), Fin (if (1 <=? n)%Z then 2 * d1 q m x else 0), Fin (if (2 <=? n)%Z then 2 * d2 q m x else 0),
   Fin (if (n =? 3)%Z then 2 * d3 q m x else 0)).
Proof.
  destruct goo_y as [P E]. pose proof D as (Hx & Hx1 & HM). assert (P0 : 0 <= y) by lra.
  assert (NZ : 1 - x * x <> 0) by (intros H; apply Hx1; nra).
  pose proof (xy_c2 q x y E) as C2. pose proof (xy_eta q x y Hq P0 E) as He.
  assert (EZ : xsqrt (Fin (1 - q * q + q * q * (x * x))) = Fin y).
  { replace (1 - q * q + q * q * (x * x)) with (1 - q * q * (1 - x * x)) by ring. rewrite xsqrt_F; [reflexivity|]. rewrite <- E. nra. }
  assert (EU : (1 - x) * (1 + x) = 1 - x * x) by ring.
  assert (AP : 0 < Rabs (1 - x * x)) by (now apply Rabs_pos_lt). destruct (sqrt_facts _ AP) as [A1 A2].
  set (s := sqrt (Rabs (1 - x * x))) in *. set (f := (y - q * x) * s). set (g := x * y + q * (1 - x * x)) in *.
  assert (F0 : 0 < f) by (apply Rmult_lt_0_compat; assumption).
  assert (ES : xsqrt (xabs (Fin (1 - x * x))) = Fin s) by (unfold xabs; cbn [xlift1]; rewrite xsqrt_F; [reflexivity|lra]).
  destruct (izzo_T_F q m Hq x D) as [_ ET].
  assert (EL : exists L, (if xleb (Fin x) (Fin 1) then Fin (IZR m * PI + Ratan2 f g)
     else if xltb (Fin (4 / 10)) (Fin f) then xln (Fin (f + g)) else @nuntil_stable XR (@goo_log_partial XR (xdiv (Fin f) (Fin (g + 1))))) = Fin L
     /\ 2 * (L / s + (q * y - x)) / (1 - x * x) = 2 * izzo_T q m x).
  { rewrite ET. destruct (Rlt_dec x 1) as [L|L].
    - rewrite (proj2 (xleb_F x 1)) by lra. eexists. split; [reflexivity|].
      assert (AE : Rabs (1 - x * x) = 1 - x * x) by (apply Rabs_right; nra).
      assert (SE : sqrt (1 - x * x) = s) by (unfold s; now rewrite AE). rewrite AE in A2.
      rewrite Ratan2_acos; [|assumption|].
      2: { unfold f. transitivity ((s * s) * ((y - q * x) * (y - q * x)) + g * g); [ring|]. rewrite A2, C2. ring. }
      unfold T_ell. rewrite SE. fold y. fold g. field. repeat split; lra.
    - assert (L1 : 1 < x) by lra. rewrite (proj2 (xleb_Ff x 1)) by lra.
      pose proof (xy_c_hyp q x y Hq P0 E L1) as Hg. fold g in Hg.
      assert (AE : Rabs (1 - x * x) = x * x - 1) by (rewrite Rabs_left by nra; ring).
      assert (FG : g * g - f * f = 1).
      { unfold f. transitivity (g * g - (s * s) * ((y - q * x) * (y - q * x))); [ring|]. rewrite A2, C2, AE. ring. }
      exists (ln (f + g)). split.
      + destruct (xltb (Fin (4 / 10)) (Fin f)).
        * unfold xln, xpart1. destruct (Rlt_dec 0 (f + g)); [reflexivity|lra].
        * rewrite xdiv_F by lra.
          assert (FW : 0 <= f / (g + 1) < 1).
          { split; [apply Rlt_le, Rdiv_lt_0_compat; lra|]. apply Rmult_lt_reg_r with (g + 1); [lra|]. unfold Rdiv. rewrite Rmult_assoc, Rinv_l by lra. nra. }
          rewrite log_limit by exact FW. apply (f_equal Fin), (f_equal ln).
          assert (GF : 0 < g + 1 - f) by nra. assert (g + 1 - f <> 0) by lra.
          apply Rmult_eq_reg_r with (g + 1 - f); [|assumption]. transitivity (g + 1 + f); [field; split; lra|]. nra.
      + assert (EA : arcsinh f = ln (f + g)).
        { unfold arcsinh. replace (f ^ 2 + 1) with (g * g) by (rewrite <- FG; ring). rewrite sqrt_square by lra. reflexivity. }
        unfold T_hyp. fold y. rewrite <- AE. fold s. replace (s * (y - q * x)) with f by (unfold f; ring). rewrite EA.
        field. split; lra. }
  destruct EL as (L & EL & ER).
  unfold tl_direct. xunf. cbn [nofZ XR xmul xadd xsub xlift2 xlift1 nabs]. rewrite EZ. cbn [xmul xadd xsub xlift2].
  pose proof goo_ab as AB. cbn [nleb XR] in AB. rewrite AB. pose proof goo_g as GG. cbn [nleb XR] in GG. rewrite GG. clear AB GG.
  rewrite EU, ES. cbn [xmul xadd xsub xlift2]. fold f g. cbn [nuntil_stable XR] in EL. change (@num XR) with xr in *. rewrite EL.
  rewrite !(xdiv_F _ s) by lra. cbn [xmul xadd xsub xlift2]. rewrite !(xdiv_F _ (1 - x * x)) by assumption. rewrite ER.
  cbn [xmul xadd xsub xlift2]. rewrite !(xdiv_F _ y) by lra. cbn [xmul xadd xsub xlift2].
  rewrite !(xdiv_F _ (1 - x * x)) by assumption. cbn [xmul xadd xsub xlift2]. rewrite !(xdiv_F _ (1 - x * x)) by assumption.
  unfold nneqb. cbn [neqb XR]. rewrite (proj2 (xeqb_Ff y 0)) by lra. cbn [negb]. rewrite andb_true_r.
  clear EL ER L ET F0 f A1 A2 AP ES EZ C2.
  assert (X1 : (3 * x * (2 * izzo_T q m x) - 4 * (y - q * x + q * x * (1 - q * q)) / y) / (1 - x * x) = 2 * d1 q m x).
  { unfold d1, T1. fold y. set (T := izzo_T q m x). clearbody T. field. split; lra. }
  rewrite X1.
  assert (X2 : (3 * (2 * izzo_T q m x) + 5 * x * (2 * d1 q m x) + 4 * (q / y * (q / y * (q / y))) * (1 - q * q)) / (1 - x * x) = 2 * d2 q m x).
  { unfold d2, T2. change (T1 q (izzo_T q m x) x) with (d1 q m x). fold y. set (T := izzo_T q m x). set (T' := d1 q m x). clearbody T T'. field. split; lra. }
  rewrite X2.
  destruct (Z.leb_spec 1 n).
  - destruct (Z.leb_spec 2 n).
    + destruct (Z.eqb_spec n 3); [|reflexivity]. cbn [xsub xlift2]. rewrite xdiv_F by assumption.
      apply pair_equal_spec; split; [reflexivity|]. apply (f_equal Fin).
      unfold d3, T3. change (T1 q (izzo_T q m x) x) with (d1 q m x). change (T2 q (izzo_T q m x) x) with (d2 q m x).
      fold y. set (T2' := d2 q m x). set (T' := d1 q m x). clearbody T2' T'. field. split; lra.
    + destruct (Z.eqb_spec n 3); [lia|]. reflexivity.
  - destruct (Z.leb_spec 2 n); [lia|]. destruct (Z.eqb_spec n 3); [lia|]. reflexivity.
Qed.
End Direct.

(** ** One function *)

(** The normalised time of flight and its derivatives: twice those of izzo2015,
    with the parabola put in place by the series. *)
Definition goo_T (q : R) (m : Z) (x : R) : R := if Req_EM_T x 1 then goo_S0 q x else 2 * izzo_T q m x.
Definition goo_T1 (q : R) (m : Z) (x : R) : R := if Req_EM_T x 1 then goo_S1 q x else 2 * d1 q m x.
Definition goo_T2 (q : R) (m : Z) (x : R) : R := if Req_EM_T x 1 then goo_S2 q x else 2 * d2 q m x.
Definition goo_T3 (q : R) (m : Z) (x : R) : R := if Req_EM_T x 1 then goo_S3 q x else 2 * d3 q m x.

Lemma usq_derive x : is_derive (fun x => 1 - x * x) x (- 2 * x).
Proof. auto_derive; [exact I|ring]. Qed.
Lemma S0_derive q x : -1 < q < 1 -> Rabs (1 - x * x) < 1 -> is_derive (goo_S0 q) x (goo_S1 q x).
Proof.
  intros Hq Hu. eapply rd_eq; [apply (rd_comp (goo_F q) (fun x => 1 - x * x)); [apply goo_F_derive; assumption|apply usq_derive]|].
  req. unfold goo_S1. ring.
Qed.
Lemma F1_derive q x : -1 < q < 1 -> Rabs (1 - x * x) < 1 -> is_derive (fun x => goo_F1 q (1 - x * x)) x (- 2 * x * goo_F2 q (1 - x * x)).
Proof. intros Hq Hu. apply (rd_comp (goo_F1 q) (fun x => 1 - x * x)); [apply goo_F1_derive; assumption|apply usq_derive]. Qed.
Lemma F2_derive q x : -1 < q < 1 -> Rabs (1 - x * x) < 1 -> is_derive (fun x => goo_F2 q (1 - x * x)) x (- 2 * x * goo_F3 q (1 - x * x)).
Proof. intros Hq Hu. apply (rd_comp (goo_F2 q) (fun x => 1 - x * x)); [apply goo_F2_derive; assumption|apply usq_derive]. Qed.
Lemma S1_derive q x : -1 < q < 1 -> Rabs (1 - x * x) < 1 -> is_derive (goo_S1 q) x (goo_S2 q x).
Proof.
  intros Hq Hu. unfold goo_S1. eapply rd_eq; [rd_step ltac:(idtac; apply F1_derive; assumption)|]. req. unfold goo_S2. ring.
Qed.
Lemma S2_derive q x : -1 < q < 1 -> Rabs (1 - x * x) < 1 -> is_derive (goo_S2 q) x (goo_S3 q x).
Proof.
  intros Hq Hu. unfold goo_S2. eapply rd_eq; [rd_step ltac:(idtac; lazymatch goal with |- is_derive (fun _ => goo_F1 _ _) _ _ => apply F1_derive; assumption | _ => apply F2_derive; assumption end)|].
  req. unfold goo_S3. field.
Qed.

Lemma locally_between (a b x : R) (P : R -> Prop) : a < x < b -> (forall t, a < t < b -> P t) -> locally x P.
Proof.
  intros Hx HP. exists (mkposreal (Rmin (x - a) (b - x)) ltac:(apply Rmin_pos; lra)). intros t Ht.
  unfold ball in Ht; simpl in Ht. unfold AbsRing_ball, abs, minus, plus, opp in Ht; simpl in Ht.
  pose proof (Rmin_l (x - a) (b - x)); pose proof (Rmin_r (x - a) (b - x)). apply Rabs_def2 in Ht. apply HP. lra.
Qed.
Lemma u_small x : 0 < x -> x * x < 2 -> Rabs (1 - x * x) < 1.
Proof. intros. apply Rabs_def1; nra. Qed.

(** The derivatives of equal functions agree. *)
Lemma same_derive (f g : R -> R) (x a b df dg : R) : a < x < b -> (forall t, a < t < b -> f t = g t) ->
  is_derive f x df -> is_derive g x dg -> df = dg.
Proof.
  intros Hx H Df Dg. assert (D : is_derive g x df) by (eapply is_derive_ext_loc; [|exact Df]; apply (locally_between a b); assumption).
  apply is_derive_unique in D. apply is_derive_unique in Dg. congruence.
Qed.
Lemma twice_derive (f : R -> R) (x d : R) : is_derive f x d -> is_derive (fun x => 2 * f x) x (2 * d).
Proof. intros H. eapply rd_eq; [rd_step ltac:(idtac; exact H)|]. req. ring. Qed.

(** Around a point other than the parabola there is an interval without it. *)
Lemma interval x : 0 < x -> x * x < 2 -> x <> 1 -> exists a b, a < x < b /\ 0 <= a /\ forall t, a < t < b -> t * t < 2 /\ t <> 1.
Proof.
  intros H0 H2 H1. destruct (Rlt_le_dec x 1) as [L|L].
  - exists 0, 1. split; [lra|]. split; [lra|]. intros t Ht. split; nra.
  - destruct (sqrt_facts 2) as [W1 W2]; [lra|]. exists 1, (sqrt 2). split; [split; nra|]. split; [lra|]. intros t Ht. split; nra.
Qed.
Lemma series_T1 q x : -1 < q < 1 -> 0 < x -> x * x < 2 -> x <> 1 -> goo_S1 q x = 2 * d1 q 0 x.
Proof.
  intros Hq H0 H2 H1. destruct (interval x H0 H2 H1) as (a & b & Hab & Ha & HI).
  apply (same_derive (goo_S0 q) (fun x => 2 * izzo_T q 0 x) x a b); [assumption| | |].
  - intros t Ht. destruct (HI t Ht). apply series_T; auto; lra.
  - apply S0_derive; [assumption|now apply u_small].
  - apply twice_derive, izzo_T_derive; [assumption|]. repeat split; auto; lra.
Qed.
Lemma series_T2 q x : -1 < q < 1 -> 0 < x -> x * x < 2 -> x <> 1 -> goo_S2 q x = 2 * d2 q 0 x.
Proof.
  intros Hq H0 H2 H1. destruct (interval x H0 H2 H1) as (a & b & Hab & Ha & HI).
  apply (same_derive (goo_S1 q) (fun x => 2 * d1 q 0 x) x a b); [assumption| | |].
  - intros t Ht. destruct (HI t Ht). apply series_T1; auto; lra.
  - apply S1_derive; [assumption|now apply u_small].
  - apply twice_derive, d1_derive; [assumption|]. repeat split; auto; lra.
Qed.
Lemma series_T3 q x : -1 < q < 1 -> 0 < x -> x * x < 2 -> x <> 1 -> goo_S3 q x = 2 * d3 q 0 x.
Proof.
  intros Hq H0 H2 H1. destruct (interval x H0 H2 H1) as (a & b & Hab & Ha & HI).
  apply (same_derive (goo_S2 q) (fun x => 2 * d2 q 0 x) x a b); [assumption| | |].
  - intros t Ht. destruct (HI t Ht). apply series_T2; auto; lra.
  - apply S2_derive; [assumption|now apply u_small].
  - apply twice_derive, d2_derive; [assumption|]. repeat split; auto; lra.
Qed.

(** Both branches of [tlamb] compute it. *)
Lemma tlamb_F q m x n : -1 < q < 1 -> -1 < x -> (m = 0%Z \/ ((0 < m)%Z /\ x < 1)) -> (0 <= n)%Z ->
  @tlamb XR m (Fin q) (Fin (1 - q * q)) (Fin x) n =
  (Fin (goo_T q m x), Fin (if (1 <=? n)%Z then goo_T1 q m x else 0), Fin (if (2 <=? n)%Z then goo_T2 q m x else 0),
   Fin (if (n =? 3)%Z then goo_T3 q m x else 0)).
Proof.
  intros Hq Hx HM Hn. unfold tlamb. destruct (Z.eqb_spec n (-1)); [lia|]. xunf. cbn [nofZ XR xmul xadd xsub xlift2].
  replace ((1 - x) * (1 + x)) with (1 - x * x) by ring. unfold xabs. cbn [xlift1].
  destruct ((0 <? m)%Z || xltb (Fin x) (Fin 0) || xltb (Fin (4 / 10)) (Fin (Rabs (1 - x * x)))) eqn:B.
  - assert (X1 : x <> 1).
    { intros ->. destruct HM as [->|[_ HM]]; [|lra]. cbn [Z.ltb Z.compare orb] in B. apply orb_prop in B. destruct B as [B|B]; apply xltb_F in B; [lra|].
      replace (1 - 1 * 1) with 0 in B by ring. rewrite Rabs_R0 in B. lra. }
    unfold goo_T, goo_T1, goo_T2, goo_T3. destruct (Req_EM_T x 1); [contradiction|].
    apply tl_direct_F; [assumption|]. repeat split; auto. destruct HM as [|[_ ?]]; auto.
  - apply orb_false_elim in B. destruct B as [B B3]. apply orb_false_elim in B. destruct B as [B1 B2].
    apply xltb_Ff in B2. apply xltb_Ff in B3. destruct HM as [->|[HM _]]; [|apply Z.ltb_ge in B1; lia].
    assert (U : -4 / 10 <= 1 - x * x <= 4 / 10) by (apply Rabs_def2b || (split; [pose proof (Rle_abs (- (1 - x * x))) as A; rewrite Rabs_Ropp in A; lra|pose proof (Rle_abs (1 - x * x)); lra])).
    assert (x0 : 0 < x) by (destruct B2 as [|E]; [assumption|rewrite <- E in U; lra]).
    rewrite tl_series_F; [|assumption|lra|apply Rabs_def1; lra].
    unfold goo_T, goo_T1, goo_T2, goo_T3. destruct (Req_EM_T x 1) as [|N]; [reflexivity|].
    rewrite series_T, series_T1, series_T2, series_T3 by (assumption || lra). reflexivity.
Qed.

Lemma goo_derive q m x : -1 < q < 1 -> -1 < x -> (m = 0%Z \/ x < 1) ->
  is_derive (goo_T q m) x (goo_T1 q m x) /\ is_derive (goo_T1 q m) x (goo_T2 q m x) /\ is_derive (goo_T2 q m) x (goo_T3 q m x).
Proof.
  intros Hq Hx HM. destruct (Req_dec x 1) as [E1|N].
  - assert (m = 0%Z) as -> by (destruct HM; [assumption|lra]). subst x.
    destruct (sqrt_facts 2) as [W1 W2]; [lra|]. assert (HI : 0 < 1 < sqrt 2) by (split; nra).
    assert (LI : forall t, 0 < t < sqrt 2 -> t * t < 2) by (intros; nra).
    assert (U1 : Rabs (1 - 1 * 1) < 1) by (apply u_small; lra).
    split; [|split].
    + replace (goo_T1 q 0 1) with (goo_S1 q 1) by (unfold goo_T1; destruct (Req_EM_T 1 1); [reflexivity|lra]).
      eapply is_derive_ext_loc; [|apply S0_derive; assumption]. apply (locally_between 0 (sqrt 2)); [exact HI|].
      intros t Ht. specialize (LI t Ht). unfold goo_T. destruct (Req_EM_T t 1); [reflexivity|apply series_T; auto; lra].
    + replace (goo_T2 q 0 1) with (goo_S2 q 1) by (unfold goo_T2; destruct (Req_EM_T 1 1); [reflexivity|lra]).
      eapply is_derive_ext_loc; [|apply S1_derive; assumption]. apply (locally_between 0 (sqrt 2)); [exact HI|].
      intros t Ht. specialize (LI t Ht). unfold goo_T1. destruct (Req_EM_T t 1); [reflexivity|apply series_T1; auto; lra].
    + replace (goo_T3 q 0 1) with (goo_S3 q 1) by (unfold goo_T3; destruct (Req_EM_T 1 1); [reflexivity|lra]).
      eapply is_derive_ext_loc; [|apply S2_derive; assumption]. apply (locally_between 0 (sqrt 2)); [exact HI|].
      intros t Ht. specialize (LI t Ht). unfold goo_T2. destruct (Req_EM_T t 1); [reflexivity|apply series_T2; auto; lra].
  - assert (DI : izzo_domain m x) by (repeat split; auto).
    assert (HL : exists a b, a < x < b /\ forall t, a < t < b -> t <> 1).
    { destruct (Rlt_le_dec x 1); [exists (-1), 1; split; [lra|intros; lra]|exists 1, (x + 1); split; [lra|intros; lra]]. }
    destruct HL as (a & b & Hab & HI).
    replace (goo_T1 q m x) with (2 * d1 q m x) by (unfold goo_T1; destruct (Req_EM_T x 1); [contradiction|reflexivity]).
    replace (goo_T2 q m x) with (2 * d2 q m x) by (unfold goo_T2; destruct (Req_EM_T x 1); [contradiction|reflexivity]).
    replace (goo_T3 q m x) with (2 * d3 q m x) by (unfold goo_T3; destruct (Req_EM_T x 1); [contradiction|reflexivity]).
    split; [|split].
    + eapply is_derive_ext_loc; [|apply twice_derive, izzo_T_derive; assumption]. apply (locally_between a b); [exact Hab|].
      intros t Ht. specialize (HI t Ht). unfold goo_T. destruct (Req_EM_T t 1); [contradiction|reflexivity].
    + eapply is_derive_ext_loc; [|apply twice_derive, d1_derive; assumption]. apply (locally_between a b); [exact Hab|].
      intros t Ht. specialize (HI t Ht). unfold goo_T1. destruct (Req_EM_T t 1); [contradiction|reflexivity].
    + eapply is_derive_ext_loc; [|apply twice_derive, d2_derive; assumption]. apply (locally_between a b); [exact Hab|].
      intros t Ht. specialize (HI t Ht). unfold goo_T2. destruct (Req_EM_T t 1); [contradiction|reflexivity].
Qed.
