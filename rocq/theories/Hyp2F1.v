(** * The hypergeometric series of izzo.py in closed form. *)
From Coq Require Import Reals ZArith Bool Lra Lia Psatz.
From Coquelicot Require Import Coquelicot.
From Verif Require Import Num RDerive UniversalKepler LambertUV LambertRev DelatorreXR LambertZ.
Local Open Scope R_scope.

(** [hyp_a n] is [prod_{k < n} (k + 3) / (k + 5/2)]. *)
Fixpoint hyp_a (n : nat) : R :=
  match n with O => 1 | S k => hyp_a k * (INR k + 3) / (INR k + 5 / 2) end.

Lemma hyp_a_pos n : 0 < hyp_a n.
Proof.
  induction n; cbn [hyp_a]; [lra|]. pose proof (pos_INR n). apply Rdiv_lt_0_compat; [|lra].
  apply Rmult_lt_0_compat; lra.
Qed.

Lemma hyp_radius : CV_radius hyp_a = Finite 1.
Proof.
  rewrite <- Rinv_1. apply CV_radius_finite_DAlembert.
  - intros n. pose proof (hyp_a_pos n). lra.
  - lra.
  - apply is_lim_seq_ext with (fun n => 1 + / 2 * / (INR n + 5 / 2)).
    { intros n. cbn [hyp_a]. pose proof (hyp_a_pos n). pose proof (pos_INR n).
      replace (hyp_a n * (INR n + 3) / (INR n + 5 / 2) / hyp_a n) with (1 + / 2 * / (INR n + 5 / 2)) by (field; lra).
      symmetry. apply Rabs_right. assert (0 < / (INR n + 5 / 2)) by (apply Rinv_0_lt_compat; lra). lra. }
    replace (Finite 1) with (Rbar_plus (Finite 1) (Rbar_mult (Finite (/ 2)) (Finite 0))) by (cbn; f_equal; ring).
    apply is_lim_seq_plus'; [apply is_lim_seq_const|].
    apply is_lim_seq_scal_l with (lu := Finite 0).
    replace (Finite 0) with (Rbar_inv p_infty) by reflexivity.
    apply is_lim_seq_inv; [|discriminate].
    apply is_lim_seq_plus with (l1 := p_infty) (l2 := Finite (5 / 2)); [apply is_lim_seq_INR|apply is_lim_seq_const|reflexivity].
Qed.

Definition hyp_f (x : R) : R := PSeries hyp_a x.

Lemma hyp_f_0 : hyp_f 0 = 1.
Proof. unfold hyp_f. rewrite PSeries_0. reflexivity. Qed.

Lemma hyp_f_derive x : Rabs x < 1 -> is_derive hyp_f x (PSeries (PS_derive hyp_a) x).
Proof. intros H. apply is_derive_PSeries. rewrite hyp_radius. exact H. Qed.

(** The differential equation. *)
Lemma hyp_ode x : Rabs x < 1 ->
  x * (1 - x) * PSeries (PS_derive hyp_a) x + (3 / 2 - 3 * x) * hyp_f x = 3 / 2.
Proof.
  intros H. unfold hyp_f.
  assert (R0 : Rbar_lt (Rabs x) (CV_radius hyp_a)) by (rewrite hyp_radius; exact H).
  assert (R1 : Rbar_lt (Rabs x) (CV_radius (PS_derive hyp_a))) by (rewrite CV_radius_derive, hyp_radius; exact H).
  pose proof (CV_radius_inside _ _ R0) as E0. pose proof (CV_radius_inside _ _ R1) as E1.
  set (d := PS_derive hyp_a) in *.
  assert (X0 : is_pseries hyp_a x (PSeries hyp_a x)) by now apply PSeries_correct.
  assert (X1 : is_pseries d x (PSeries d x)) by now apply PSeries_correct.
  set (f := PSeries hyp_a x) in *. set (f' := PSeries d x) in *. clearbody f f'.
  assert (Y1 : is_pseries (PS_incr_1 d) x (x * f')) by (apply (is_pseries_incr_1 d x f'); exact X1).
  assert (Y2 : is_pseries (PS_incr_1 (PS_incr_1 d)) x (x * (x * f'))) by (apply (is_pseries_incr_1 _ x (x * f')); exact Y1).
  assert (Z1 : is_pseries (PS_incr_1 hyp_a) x (x * f)) by (apply (is_pseries_incr_1 _ x f); exact X0).
  assert (W1 : is_pseries (PS_scal (3 / 2) hyp_a) x (3 / 2 * f)).
  { apply (is_pseries_scal (3 / 2) hyp_a x f); [apply Rmult_comm|exact X0]. }
  assert (W2 : is_pseries (PS_scal (-3) (PS_incr_1 hyp_a)) x (-3 * (x * f))).
  { apply (is_pseries_scal (-3) _ x (x * f)); [apply Rmult_comm|exact Z1]. }
  assert (W3 : is_pseries (PS_scal (-1) (PS_incr_1 (PS_incr_1 d))) x (-1 * (x * (x * f')))).
  { apply (is_pseries_scal (-1) _ x (x * (x * f'))); [apply Rmult_comm|exact Y2]. }
  pose proof (is_pseries_plus _ _ x _ _ (is_pseries_plus _ _ x _ _ (is_pseries_plus _ _ x _ _ Y1 W3) W1) W2) as T.
  apply is_pseries_unique in T. unfold plus in T; cbn in T.
  assert (E : PSeries (PS_plus (PS_plus (PS_plus (PS_incr_1 d) (PS_scal (-1) (PS_incr_1 (PS_incr_1 d)))) (PS_scal (3 / 2) hyp_a)) (PS_scal (-3) (PS_incr_1 hyp_a))) x = 3 / 2).
  { rewrite (PSeries_ext _ (fun n => match n with O => 3 / 2 | S _ => 0 end)).
    - rewrite PSeries_decr_1.
      + rewrite (PSeries_ext _ (fun _ => 0)) by (intros n; reflexivity).
        rewrite PSeries_const_0. ring.
      + exists (3 / 2). apply is_pseries_R. apply (is_series_ext (fun n => match n with O => 3 / 2 | S _ => 0 end)).
        { intros [|n]; req; unfold scal, mult; cbn; ring. }
        apply (is_series_decr_1 (fun n => match n with O => 3 / 2 | S _ => 0 end)).
        match goal with |- is_series _ ?l => replace l with 0 by (unfold plus, opp; cbn; ring) end.
        apply (is_series_ext (fun _ => 0)); [intros; reflexivity|].
        apply filterlim_ext with (fun _ : nat => 0); [|apply filterlim_const].
        intros n. symmetry. rewrite sum_n_const. ring.
    - intros n. unfold PS_plus, PS_scal, PS_incr_1, d, PS_derive. unfold plus, scal, zero; cbn -[INR].
      unfold mult; cbn -[INR].
      destruct n as [|[|n]].
      + cbn. ring.
      + cbn. field.
      + rewrite !S_INR. cbn [hyp_a]. rewrite !S_INR. pose proof (pos_INR n). field. lra. }
  rewrite E in T. lra.
Qed.

Lemma hyp_ell s : 0 < s < PI ->
  hyp_f ((1 - cos s) / 2) * (sin s * sin s * sin s) = 3 / 4 * (2 * s - sin (2 * s)).
Proof.
  intros [Hs Hs'].
  set (G := fun t => hyp_f ((1 - cos t) / 2) * (sin t * sin t * sin t) - 3 / 4 * (2 * t - 2 * (sin t * cos t))).
  assert (B : forall t, 0 <= t <= s -> Rabs ((1 - cos t) / 2) < 1).
  { intros t Ht. destruct (COS_bound t). apply Rabs_def1; [|lra].
    destruct (Req_dec (cos t) (-1)) as [E|E]; [exfalso|lra].
    assert (cos PI < cos t) by (apply cos_decreasing_1; lra). rewrite cos_PI in *. lra. }
  assert (E : G 0 = G s).
  { apply (eq_is_derive G 0 s); [|lra]. intros t Ht. specialize (B t Ht).
    pose proof (hyp_f_derive _ B) as D. pose proof (hyp_ode _ B) as O.
    set (d := PSeries _ _) in *. clearbody d.
    apply rd_eq with (d * (sin t / 2) * (sin t * sin t * sin t) + hyp_f ((1 - cos t) / 2) * (3 * (sin t * sin t) * cos t)
       - 3 / 4 * (2 - 2 * (cos t * cos t - sin t * sin t))).
    - unfold G. apply rd_minus.
      + eapply rd_eq; [apply rd_mult; [apply (rd_comp hyp_f (fun t => (1 - cos t) / 2)); [exact D|]|]|].
        * auto_derive; [trivial|reflexivity].
        * auto_derive; [trivial|reflexivity].
        * req. field.
      + auto_derive; [trivial|]. field.
    - req. unfold zero; cbn.
      pose proof (sin2_cos2 t) as SC. unfold Rsqr in SC.
      set (f := hyp_f _) in *. clearbody f. set (c := cos t) in *. set (w := sin t) in *. clearbody c w.
      assert (O' : w * w * d = 6 - 6 * (c * f)).
      { replace (w * w) with (1 - c * c) by lra. nra. }
      transitivity ((w * w * d) * (w * w) / 2 + f * (3 * (w * w) * c) - 3 / 4 * (2 - 2 * (c * c - w * w))); [field|].
      rewrite O'. replace (c * c) with (1 - w * w) by lra. field. }
  assert (G0 : G 0 = 0) by (unfold G; rewrite sin_0, cos_0; ring).
  unfold G in E at 2. rewrite G0 in E. rewrite sin_2a. lra.
Qed.

Lemma hyp_hyp s : 0 < s -> cosh s < 3 ->
  hyp_f ((1 - cosh s) / 2) * (sinh s * sinh s * sinh s) = 3 / 4 * (sinh (2 * s) - 2 * s).
Proof.
  intros Hs Hc.
  set (G := fun t => hyp_f ((1 - cosh t) / 2) * (sinh t * sinh t * sinh t) - 3 / 4 * (2 * (sinh t * cosh t) - 2 * t)).
  assert (B : forall t, 0 <= t <= s -> Rabs ((1 - cosh t) / 2) < 1).
  { intros t Ht. assert (1 <= cosh t).
    { pose proof (cosh_sinh_sq t). assert (0 < cosh t) by (unfold cosh; pose proof (exp_pos t); pose proof (exp_pos (- t)); lra).
      pose proof (Rle_0_sqr (sinh t)). unfold Rsqr in *. nra. }
    assert (cosh t <= cosh s) by (destruct (proj2 Ht) as [L| ->]; [left; apply cosh_increasing; lra|lra]).
    apply Rabs_def1; lra. }
  assert (E : G 0 = G s).
  { apply (eq_is_derive G 0 s); [|lra]. intros t Ht. specialize (B t Ht).
    pose proof (hyp_f_derive _ B) as D. pose proof (hyp_ode _ B) as O.
    set (d := PSeries _ _) in *. clearbody d.
    assert (Dc : is_derive cosh t (sinh t)) by (apply is_derive_Reals, derivable_pt_lim_cosh).
    assert (Ds : is_derive sinh t (cosh t)) by (apply is_derive_Reals, derivable_pt_lim_sinh).
    apply rd_eq with (d * (- sinh t / 2) * (sinh t * sinh t * sinh t) + hyp_f ((1 - cosh t) / 2) * (3 * (sinh t * sinh t) * cosh t)
       - 3 / 4 * (2 * (cosh t * cosh t + sinh t * sinh t) - 2)).
    - unfold G. apply rd_minus.
      + eapply rd_eq; [apply rd_mult; [apply (rd_comp hyp_f (fun t => (1 - cosh t) / 2)); [exact D|]|]|].
        * eapply rd_div; [apply rd_minus; [apply rd_const|exact Dc]|apply rd_const|lra].
        * apply (rd_mult (fun t => sinh t * sinh t) sinh); [|exact Ds]. apply rd_mult; exact Ds.
        * req. cbv beta. field.
      + rd ltac:(idtac; lazymatch goal with |- is_derive (fun _ => cosh _) _ _ => exact Dc | _ => exact Ds end). field.
    - req. unfold zero; cbn.
      pose proof (cosh_sinh_sq t) as SC.
      set (f := hyp_f _) in *. clearbody f. set (c := cosh t) in *. set (w := sinh t) in *. clearbody c w.
      assert (O' : - (w * w) * d = 6 - 6 * (c * f)).
      { replace (w * w) with (c * c - 1) by lra. nra. }
      transitivity ((- (w * w) * d) * (w * w) / 2 + f * (3 * (w * w) * c) - 3 / 4 * (2 * (c * c + w * w) - 2)); [field|].
      rewrite O'. replace (c * c) with (1 + w * w) by lra. field. }
  assert (G0 : G 0 = 0) by (unfold G; rewrite sinh_0, cosh_0; ring).
  unfold G in E at 2. rewrite G0 in E. rewrite sinh_double. lra.
Qed.

(** In terms of the half angle parameter. *)
Lemma hyp_z z : z < PI * PI -> C0 z < 3 -> hyp_f ((1 - C0 z) / 2) = 6 * S3 (4 * z) / (S1 z * S1 z * S1 z).
Proof.
  intros Hz Hc. pose proof PI_RGT_0 as HP. destruct (Rtotal_order z 0) as [L|[->|L]].
  - destruct (sqrt_facts (- z)) as [W1 W2]; [lra|]. set (s := sqrt (- z)) in *. clearbody s.
    replace z with (- (s * s)) in * by lra. replace (4 * - (s * s)) with (- ((2 * s) * (2 * s))) by ring.
    rewrite C0_hyp in * by lra. rewrite S1_hyp, S3_hyp by lra. pose proof (hyp_hyp s W1 Hc) as H.
    pose proof (sinh_pos s W1) as P. apply Rmult_eq_reg_r with (sinh s * sinh s * sinh s); [|apply Rgt_not_eq; apply Rmult_lt_0_compat; [apply Rmult_lt_0_compat|]; assumption].
    rewrite H. field. split; lra.
  - destruct at_0 as (E0 & E1 & E3). rewrite Rmult_0_r, E0, E1, E3. replace ((1 - 1) / 2) with 0 by field. rewrite hyp_f_0. field.
  - destruct (sqrt_below_PI z L Hz) as [W1 W1']. pose proof (sqrt_sqrt z (Rlt_le _ _ L)) as W2.
    set (s := sqrt z) in *. clearbody s. subst z.
    replace (4 * (s * s)) with ((2 * s) * (2 * s)) by ring.
    rewrite C0_ell in * by lra. rewrite S1_ell, S3_ell by lra. pose proof (hyp_ell s (conj W1 W1')) as H.
    pose proof (sin_gt_0 s W1 W1') as P. apply Rmult_eq_reg_r with (sin s * sin s * sin s); [|apply Rgt_not_eq; apply Rmult_lt_0_compat; [apply Rmult_lt_0_compat|]; assumption].
    rewrite H. field. split; lra.
Qed.
