(** * Anomalies and Kepler's equation: C22, C23. *)
From Coq Require Import Reals ZArith String Bool Lra Lia Psatz.
From Verif Require Import Num XReal XRealLemmas MAngles MKepler KeplerXR.
Local Open Scope R_scope.

(** ** C22 *)

(** Same sign. *)
Definition same_sign (x y : R) : Prop := (0 < x <-> 0 < y) /\ (x = 0 <-> y = 0).

Lemma same_sign_scale k x : 0 < k -> same_sign x (k * x).
Proof. intros H. split; split; intros; nra. Qed.
Lemma same_sign_trans x y z : same_sign x y -> same_sign y z -> same_sign x z.
Proof. unfold same_sign. tauto. Qed.
Lemma same_sign_atan x : same_sign x (2 * atan x).
Proof.
  assert (A0 : atan 0 = 0) by apply atan_0.
  destruct (Rtotal_order x 0) as [L|[L|L]].
  - pose proof (atan_increasing _ _ L). split; split; intros; lra.
  - subst. rewrite A0. split; split; intros; lra.
  - assert (L' : 0 < x) by lra. pose proof (atan_increasing _ _ L'). split; split; intros; lra.
Qed.
Lemma same_sign_artanh x : -1 < x < 1 -> same_sign x (2 * artanh x).
Proof.
  intros B. pose proof artanh_0 as A0. destruct (Rtotal_order x 0) as [L|[L|L]].
  - pose proof (artanh_incr x 0). split; split; intros; lra.
  - subst. rewrite A0. split; split; intros; lra.
  - assert (L' : 0 < x) by lra. pose proof (artanh_incr 0 x). split; split; intros; lra.
Qed.

(** Elliptic orbits.  The eccentric anomaly is the geometric one: it gives the
    radius and the direction. *)
Theorem C22_elliptic : forall nu e, 0 <= e < 1 -> - PI < nu < PI ->
  exists E, @nu_to_E XR (Fin nu) (Fin e) = Fin E /\ - PI < E < PI /\
    @E_to_nu XR (Fin E) (Fin e) = Fin nu /\ same_sign nu E /\
    cos E = (e + cos nu) / (1 + e * cos nu) /\ sin E = sqrt (1 - e * e) * sin nu / (1 + e * cos nu).
Proof.
  intros nu e He Hnu. destruct (kE_pos e He) as (K & K2 & _). pose proof (half_cos nu Hnu) as C.
  set (t := kE e * tan (nu / 2)). exists (2 * atan t).
  split; [apply nu_to_E_F; lra|]. split; [apply atan_bounds|]. split; [|split; [|]].
  - rewrite E_to_nu_F; [|assumption|].
    + rewrite tan_two_atan. unfold t. f_equal. rewrite <- Rmult_assoc, Rinv_l by lra. rewrite Rmult_1_l.
      now apply two_atan_tan.
    + pose proof (half_cos _ (atan_bounds t)). lra.
  - apply same_sign_trans with (tan (nu / 2)); [exact (tan_half_sign nu Hnu)|].
    apply same_sign_trans with t; [now apply same_sign_scale|apply same_sign_atan].
  - set (c := cos (nu / 2)) in *. set (s := sin (nu / 2)).
    assert (S : s * s + c * c = 1) by (pose proof (sin2_cos2 (nu / 2)) as Q; exact Q).
    assert (CN : cos nu = c * c - s * s) by (replace nu with (2 * (nu / 2)) by field; rewrite cos_2a; reflexivity).
    assert (SN : sin nu = 2 * s * c) by (replace nu with (2 * (nu / 2)) by field; rewrite sin_2a; reflexivity).
    assert (T : t = kE e * (s / c)) by reflexivity.
    assert (D : 0 < 1 + t * t) by nra.
    assert (TT : t * t = (1 - e) / (1 + e) * (s * s / (c * c))).
    { rewrite T. transitivity (kE e * kE e * (s * s / (c * c))); [field; lra|]. now rewrite K2. }
    assert (D2 : (1 + e) * (c * c) + (1 - e) * (s * s) = 1 + e * cos nu).
    { rewrite CN. transitivity (s * s + c * c + e * (c * c - s * s)); [ring|]. rewrite S. ring. }
    assert (P : 0 < 1 + e * cos nu) by (destruct (COS_bound nu); nra).
    assert (CE : cos (2 * atan t) = (1 - t * t) / (1 + t * t)).
    { rewrite cos_2a_cos, cos_atan. unfold Rsqr, Rdiv. rewrite Rmult_1_l.
      assert (Q : 0 < sqrt (1 + t * t)) by (apply sqrt_lt_R0; assumption).
      transitivity (2 / (sqrt (1 + t * t) * sqrt (1 + t * t)) - 1); [field; lra|].
      rewrite sqrt_sqrt by lra. field. lra. }
    assert (SE : sin (2 * atan t) = 2 * t / (1 + t * t)).
    { rewrite sin_2a, sin_atan, cos_atan. unfold Rsqr.
      assert (Q : 0 < sqrt (1 + t * t)) by (apply sqrt_lt_R0; assumption).
      transitivity (2 * t / (sqrt (1 + t * t) * sqrt (1 + t * t))); [field; lra|].
      rewrite sqrt_sqrt by lra. reflexivity. }
    assert (R1 : 1 + t * t = (1 + e * cos nu) / ((1 + e) * (c * c))).
    { rewrite TT, <- D2. field. split; lra. }
    split.
    + rewrite CE, R1.
      replace (1 - t * t) with ((e + cos nu) / ((1 + e) * (c * c))).
      * field. repeat split; lra.
      * rewrite TT, CN. transitivity (((e * (s * s + c * c)) + (c * c - s * s)) / ((1 + e) * (c * c))).
        -- rewrite S. f_equal. ring.
        -- field. split; lra.
    + rewrite SE, R1, T, SN.
      assert (KK : kE e * (1 + e) = sqrt (1 - e * e)).
      { unfold kE. rewrite <- (sqrt_square (1 + e)) at 2 by lra.
        rewrite <- sqrt_mult; [|apply Rlt_le, Rdiv_lt_0_compat; lra|nra]. f_equal. field. lra. }
      rewrite <- KK. field. repeat split; lra.
Qed.
Print Assumptions C22_elliptic.

Theorem C22_elliptic_inverse : forall E e, 0 <= e < 1 -> - PI < E < PI ->
  exists nu, @E_to_nu XR (Fin E) (Fin e) = Fin nu /\ - PI < nu < PI /\
    @nu_to_E XR (Fin nu) (Fin e) = Fin E /\ same_sign E nu.
Proof.
  intros E e He HE. destruct (kE_pos e He) as (K & K2 & _). pose proof (half_cos E HE) as C.
  assert (IK : 0 < / kE e) by now apply Rinv_0_lt_compat.
  set (t := / kE e * tan (E / 2)). exists (2 * atan t).
  split; [apply E_to_nu_F; lra|]. split; [apply atan_bounds|]. split.
  - rewrite nu_to_E_F; [|assumption|].
    + rewrite tan_two_atan. unfold t. f_equal. rewrite <- Rmult_assoc, Rinv_r by lra. rewrite Rmult_1_l.
      now apply two_atan_tan.
    + pose proof (half_cos _ (atan_bounds t)). lra.
  - apply same_sign_trans with (tan (E / 2)); [exact (tan_half_sign E HE)|].
    apply same_sign_trans with t; [now apply same_sign_scale|apply same_sign_atan].
Qed.
Print Assumptions C22_elliptic_inverse.

Theorem C22_parabolic : forall nu, - PI < nu < PI ->
  exists B, @nu_to_B XR (Fin nu) = Fin B /\ @B_to_nu XR (Fin B) = Fin nu /\ same_sign nu B.
Proof.
  intros nu Hnu. pose proof (half_cos nu Hnu) as C. exists (tan (nu / 2)). split.
  - unfold nu_to_B. xunf. rewrite xdiv_F by lra. apply xtan_F. lra.
  - split; [|exact (tan_half_sign nu Hnu)].
    unfold B_to_nu. xunf. cbn [xlift1 xmul xlift2]. f_equal. now apply two_atan_tan.
Qed.
Print Assumptions C22_parabolic.

Theorem C22_parabolic_inverse : forall B,
  exists nu, @B_to_nu XR (Fin B) = Fin nu /\ - PI < nu < PI /\ @nu_to_B XR (Fin nu) = Fin B.
Proof.
  intros B. exists (2 * atan B). split; [reflexivity|]. split; [apply atan_bounds|].
  unfold nu_to_B. xunf. rewrite xdiv_F by lra. rewrite xtan_F.
  - now rewrite tan_two_atan.
  - pose proof (half_cos _ (atan_bounds B)). lra.
Qed.
Print Assumptions C22_parabolic_inverse.

(** Hyperbolic orbits, on the branch around the centre of attraction. *)
Theorem C22_hyperbolic : forall nu e, 1 < e -> - PI < nu < PI -> 0 < 1 + e * cos nu ->
  exists H, @nu_to_H XR (Fin nu) (Fin e) = Fin H /\ @H_to_nu XR (Fin H) (Fin e) = Fin nu /\ same_sign nu H.
Proof.
  intros nu e He Hnu Hb. destruct (kH_pos e He) as (K & K2 & _). pose proof (half_cos nu Hnu) as C.
  apply hyperbolic_range in Hb; try assumption.
  set (t := kH e * tan (nu / 2)) in *. exists (2 * artanh t).
  split; [apply nu_to_H_F; try assumption; lra|]. split.
  - rewrite H_to_nu_F by assumption. replace (2 * artanh t / 2) with (artanh t) by field.
    rewrite tanh_artanh by assumption. unfold t. f_equal. rewrite <- Rmult_assoc, Rinv_l by lra.
    rewrite Rmult_1_l. now apply two_atan_tan.
  - apply same_sign_trans with (tan (nu / 2)); [exact (tan_half_sign nu Hnu)|].
    apply same_sign_trans with t; [now apply same_sign_scale|now apply same_sign_artanh].
Qed.
Print Assumptions C22_hyperbolic.

Theorem C22_hyperbolic_inverse : forall H e, 1 < e ->
  exists nu, @H_to_nu XR (Fin H) (Fin e) = Fin nu /\ - PI < nu < PI /\ 0 < 1 + e * cos nu /\
    @nu_to_H XR (Fin nu) (Fin e) = Fin H.
Proof.
  intros H e He. destruct (kH_pos e He) as (K & K2 & _). set (t := / kH e * tanh (H / 2)).
  exists (2 * atan t). pose proof (atan_bounds t) as B. pose proof (half_cos _ B) as C.
  assert (E : kH e * tan (2 * atan t / 2) = tanh (H / 2)).
  { rewrite tan_two_atan. unfold t. rewrite <- Rmult_assoc, Rinv_r by lra. ring. }
  assert (R : -1 < kH e * tan (2 * atan t / 2) < 1) by (rewrite E; apply tanh_bound).
  split; [now apply H_to_nu_F|]. split; [assumption|]. split; [now apply hyperbolic_range|].
  rewrite nu_to_H_F; try assumption; [|lra]. rewrite E, artanh_tanh. f_equal. field.
Qed.
Print Assumptions C22_hyperbolic_inverse.

Example C22_case : 0 <= 1 / 2 < 1 /\ - PI < 2 < PI /\ 0 < 1 + 2 * cos (PI / 2).
Proof. rewrite cos_PI2. pose proof PI2_3_2. repeat split; lra. Qed.

(** ** C23 *)

(** Mean anomaly of [nu]. *)
Definition mean (e nu M : R) : Prop := @kepler_from_nu XR (Fin nu) (Fin e) = Ok (Fin M).

(** True anomalies on the orbit (on the branch around the focus). *)
Definition on_orbit (e nu : R) : Prop := - PI < nu < PI /\ 0 < 1 + e * cos nu.

Definition meanF (e nu : R) : R :=
  if Rlt_dec e 1 then let E := 2 * atan (kE e * tan (nu / 2)) in E - e * sin E
  else if Req_EM_T e 1 then let B := tan (nu / 2) in B + 1 / 3 * (B * B * B)
  else let H := 2 * artanh (kH e * tan (nu / 2)) in e * sinh H - H.

Lemma mean_F e nu : 0 <= e -> on_orbit e nu -> @kepler_from_nu XR (Fin nu) (Fin e) = Ok (Fin (meanF e nu)).
Proof.
  intros He [Hnu Hb]. pose proof (half_cos nu Hnu) as C. unfold kepler_from_nu, meanF.
  replace (@nltb XR (Fin e) (nofZ 0)) with false by (symmetry; apply xltb_Ff; lra).
  replace (@nleb XR (nofZ 0) (Fin e)) with true by (symmetry; apply xleb_F; lra).
  destruct (Rlt_dec e 1) as [L|L].
  - replace (@nltb XR (Fin e) (nofZ 1)) with true by (symmetry; apply xltb_F; lra). cbn [andb].
    rewrite nu_to_E_F by lra. reflexivity.
  - replace (@nltb XR (Fin e) (nofZ 1)) with false by (symmetry; apply xltb_Ff; lra). cbn [andb].
    destruct (Req_EM_T e 1) as [Q|Q].
    + replace (@neqb XR (Fin e) (nofZ 1)) with true by (symmetry; apply xeqb_F; lra).
      unfold nu_to_B. xunf. rewrite xdiv_F by lra. rewrite xtan_F by lra.
      unfold kepler_parabolic, cube. xunf. cbn [xmul xlift2]. rewrite xdiv_F by lra. reflexivity.
    + replace (@neqb XR (Fin e) (nofZ 1)) with false by (symmetry; apply xeqb_Ff; lra).
      rewrite nu_to_H_F; [reflexivity|lra|lra|]. apply hyperbolic_range; [lra|assumption|assumption].
Qed.

Lemma incr_of_derive f f' a b : a < b -> (forall c, a <= c <= b -> derivable_pt_lim f c (f' c)) ->
  (forall c, a < c < b -> 0 < f' c) -> f a < f b.
Proof.
  intros H D P. destruct (MVT_cor2 f f' a b H D) as (c & E & Hc). specialize (P c Hc). nra.
Qed.

Lemma ell_incr e a b : 0 <= e < 1 -> a < b -> a - e * sin a < b - e * sin b.
Proof.
  intros He H. apply (incr_of_derive (fun x => x - e * sin x) (fun x => 1 - e * cos x) a b H).
  - intros c _. apply (derivable_pt_lim_minus (fun x => x) (fun x => e * sin x)); [apply derivable_pt_lim_id|].
    apply (derivable_pt_lim_scal sin e). apply derivable_pt_lim_sin.
  - intros c _. destruct (COS_bound c). nra.
Qed.

Lemma hyp_incr e a b : 1 < e -> a < b -> e * sinh a - a < e * sinh b - b.
Proof.
  intros He H. apply (incr_of_derive (fun x => e * sinh x - x) (fun x => e * cosh x - 1) a b H).
  - intros c _. apply (derivable_pt_lim_minus (fun x => e * sinh x) (fun x => x)); [|apply derivable_pt_lim_id].
    apply (derivable_pt_lim_scal sinh e). apply derivable_pt_lim_sinh.
  - intros c _. assert (1 <= cosh c); [|nra].
    unfold cosh. rewrite exp_Ropp. pose proof (exp_pos c) as P. set (x := exp c) in *. clearbody x.
    apply (Rmult_le_reg_r (2 * x)); [lra|]. replace ((x + / x) / 2 * (2 * x)) with (x * x + 1) by (field; lra).
    pose proof (Rle_0_sqr (x - 1)) as Q. unfold Rsqr in Q. lra.
Qed.

Theorem C23_mean_anomaly_defined : forall e nu, 0 <= e -> on_orbit e nu -> exists M, mean e nu M.
Proof. intros e nu He H. eexists. now apply mean_F. Qed.
Print Assumptions C23_mean_anomaly_defined.

Theorem C23_increasing : forall e nu nu' M M', 0 <= e -> on_orbit e nu -> on_orbit e nu' ->
  nu < nu' -> mean e nu M -> mean e nu' M' -> M < M'.
Proof.
  intros e nu nu' M M' He H H' L E E'. unfold mean in E, E'. rewrite mean_F in E, E' by assumption.
  injection E as <-. injection E' as <-. pose proof H as [Hn Hb]. pose proof H' as [Hn' Hb'].
  assert (T : tan (nu / 2) < tan (nu' / 2)) by (apply tan_increasing; lra).
  unfold meanF. destruct (Rlt_dec e 1) as [L1|L1].
  - destruct (kE_pos e) as (K & _); [lra|]. apply ell_incr; [lra|].
    apply Rmult_lt_compat_l; [lra|]. apply atan_increasing. now apply Rmult_lt_compat_l.
  - destruct (Req_EM_T e 1) as [Q|Q].
    + cbv zeta. set (x := tan (nu / 2)) in *. set (y := tan (nu' / 2)) in *. clearbody x y.
      assert (Z : 0 < x * x + x * y + y * y).
      { pose proof (Rle_0_sqr (x + y / 2)) as S1. unfold Rsqr in S1.
        destruct (Req_EM_T y 0) as [->|Hy]; nra. }
      assert (y * y * y - x * x * x = (y - x) * (x * x + x * y + y * y)) by ring. nra.
    + assert (e1 : 1 < e) by lra. destruct (kH_pos e e1) as (K & _).
      apply hyperbolic_range in Hb; try assumption. apply hyperbolic_range in Hb'; try assumption.
      apply hyp_incr; [assumption|]. apply Rmult_lt_compat_l; [lra|].
      apply artanh_incr; try lra. now apply Rmult_lt_compat_l.
Qed.
Print Assumptions C23_increasing.

Theorem C23_odd : forall e nu M, 0 <= e -> on_orbit e nu -> mean e nu M -> mean e (- nu) (- M).
Proof.
  intros e nu M He H E. unfold mean in *. rewrite mean_F in E by assumption. injection E as <-.
  assert (H' : on_orbit e (- nu)) by (destruct H as [H1 H2]; split; [lra|now rewrite cos_neg]).
  rewrite mean_F by assumption. do 2 f_equal. destruct H as [Hn Hb].
  assert (T : tan (- nu / 2) = - tan (nu / 2)) by (replace (- nu / 2) with (- (nu / 2)) by field; apply tan_neg).
  unfold meanF. rewrite T. destruct (Rlt_dec e 1) as [L1|L1].
  - cbv zeta. rewrite Ropp_mult_distr_r_reverse, atan_opp.
    replace (2 * - atan (kE e * tan (nu / 2))) with (- (2 * atan (kE e * tan (nu / 2)))) by ring.
    rewrite sin_neg. ring.
  - destruct (Req_EM_T e 1) as [Q|Q]; cbv zeta; [ring|].
    apply hyperbolic_range in Hb; try lra.
    rewrite Ropp_mult_distr_r_reverse, artanh_odd by assumption.
    replace (2 * - artanh (kH e * tan (nu / 2))) with (- (2 * artanh (kH e * tan (nu / 2)))) by ring.
    unfold sinh. rewrite Ropp_involutive. field.
Qed.
Print Assumptions C23_odd.

(** Negative eccentricities are rejected and no others, in every arithmetic. *)
Theorem C23_negative_eccentricity : forall (N : Num) (nu e : num),
  (nltb e (nofZ 0) = true -> exists msg, kepler_from_nu nu e = Err (ValueError msg)) /\
  (nltb e (nofZ 0) = false -> exists M, kepler_from_nu nu e = Ok M).
Proof.
  intros N nu e. unfold kepler_from_nu. split; intros ->.
  - eexists. reflexivity.
  - destruct (_ && _); [eexists; reflexivity|]. destruct (neqb _ _); eexists; reflexivity.
Qed.
Print Assumptions C23_negative_eccentricity.

Example C23_case : on_orbit 2 1 /\ on_orbit 2 (-1) /\ on_orbit (1 / 2) 3.
Proof.
  pose proof PI2_3_2 as P. assert (C1 : 0 < cos 1) by (apply cos_gt_0; lra).
  assert (C2 : 0 < cos (-1)) by (apply cos_gt_0; lra). unfold on_orbit.
  destruct (COS_bound 3). repeat split; lra.
Qed.
