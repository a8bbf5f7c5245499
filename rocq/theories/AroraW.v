(** * The function W of arora2013: closed forms, series and truncation error. *)
From Coq Require Import Reals ZArith Bool Lra Lia Psatz.
From Coquelicot Require Import Coquelicot.
From Verif Require Import RDerive UniversalKepler LambertUV LambertRev LambertZ XReal DelatorreXR StumpffSmooth.
Local Open Scope R_scope.

(** The series of arora.py:519-538. *)
Definition Wser (k : R) : R :=
  let v := k - sqrt 2 in
  sqrt 2 / 3 - 1 / 5 * v + 2 / 35 * sqrt 2 * (v * v) - 2 / 63 * (v * (v * v)) + 2 / 231 * sqrt 2 * (v * (v * (v * v)))
  - 2 / 429 * (v * (v * (v * (v * v)))) + 8 / 6435 * sqrt 2 * (v * (v * (v * (v * (v * v)))))
  - 8 / 12155 * (v * (v * (v * (v * (v * (v * v)))))) + 8 / 46189 * sqrt 2 * (v * (v * (v * (v * (v * (v * (v * v))))))).
Definition Wser' (k : R) : R :=
  let v := k - sqrt 2 in
  - 1 / 5 + sqrt 2 * v * (4 / 35) - v * v * (6 / 63) + sqrt 2 * (v * (v * v)) * (8 / 231) - v * (v * (v * v)) * (10 / 429)
  + sqrt 2 * (v * (v * (v * (v * v)))) * (48 / 6435) - v * (v * (v * (v * (v * v)))) * (56 / 12155)
  + sqrt 2 * (v * (v * (v * (v * (v * (v * v)))))) * (64 / 46189).

Lemma sqrt2_facts : 0 < sqrt 2 /\ sqrt 2 * sqrt 2 = 2.
Proof. apply sqrt_facts. lra. Qed.

Lemma Wser_derive k : is_derive Wser k (Wser' k).
Proof.
  unfold Wser, Wser'. rd idtac. field.
Qed.

(** The series satisfies the differential equation of W up to the ninth power. *)
Definition resid (k : R) : R := 2 - 3 * k * Wser k + (2 - k * k) * Wser' k.
Lemma resid_eq k : resid k = - (88 / 46189) * sqrt 2 * (k - sqrt 2) ^ 9.
Proof.
  unfold resid, Wser, Wser'. destruct sqrt2_facts as [_ W2]. set (w := sqrt 2) in *. set (v := k - w).
  replace k with (v + w) by (unfold v; ring). clearbody v w. field [W2].
Qed.
Lemma resid_small k : Rabs (k - sqrt 2) <= 1 / 50 -> Rabs (resid k) <= 1 / 10 ^ 17.
Proof.
  intros H. rewrite resid_eq. destruct sqrt2_facts as [W1 W2].
  assert (W3 : sqrt 2 <= 3 / 2) by nra.
  rewrite !Rabs_mult, Rabs_Ropp, (Rabs_pos_eq (88 / 46189)), (Rabs_pos_eq (sqrt 2)), <- RPow_abs by lra.
  assert (P : Rabs (k - sqrt 2) ^ 9 <= (1 / 50) ^ 9) by (apply pow_incr; split; [apply Rabs_pos|assumption]).
  assert (0 <= Rabs (k - sqrt 2) ^ 9) by (apply pow_le, Rabs_pos).
  set (q := Rabs (k - sqrt 2) ^ 9) in *. clearbody q.
  assert (sqrt 2 * q <= 3 / 2 * (1 / 50) ^ 9) by nra. nra.
Qed.

(** ** Ellipse *)
Definition Fe (s : R) : R := 2 * s - sin (2 * s) - 2 * sqrt 2 * (sin s * sin s * sin s) * Wser (sqrt 2 * cos s).
Lemma Fe_derive s : is_derive Fe s (2 * (sin s * sin s) * resid (sqrt 2 * cos s)).
Proof.
  unfold Fe.
  eapply rd_eq; [rd_step ltac:(idtac; lazymatch goal with
    | |- is_derive (fun y => sin (2 * y)) _ _ => apply (rd_comp sin (fun y => 2 * y)); [apply is_derive_Reals, derivable_pt_lim_sin|rd_step idtac]
    | |- is_derive (fun y => sin y) _ _ => apply is_derive_Reals, derivable_pt_lim_sin
    | |- is_derive (fun y => Wser _) _ _ => apply (rd_comp Wser (fun y => sqrt 2 * cos y)); [apply Wser_derive|rd_step ltac:(idtac; apply is_derive_Reals, derivable_pt_lim_cos)]
    end)|].
  req. unfold resid. destruct sqrt2_facts as [_ W2]. set (w := sqrt 2) in *.
  set (W := Wser _). set (W' := Wser' _). clearbody W W' w. rewrite cos_2a_sin.
  pose proof (sin2_cos2 s) as SC. unfold Rsqr in SC. set (a := sin s) in *. set (b := cos s) in *. clearbody a b.
  assert (B2 : b * b = 1 - a * a) by lra. ring [W2 B2].
Qed.
Lemma W_ell_err s : 0 < s < PI / 2 -> Rabs (sqrt 2 * cos s - sqrt 2) <= 1 / 50 ->
  Rabs ((2 * s - sin (2 * s)) / (2 * sqrt 2 * (sin s * sin s * sin s)) - Wser (sqrt 2 * cos s)) <= 1 / 10 ^ 17.
Proof.
  intros Hs Hk. destruct sqrt2_facts as [W1 W2]. pose proof PI2_3_2 as P3. unfold PI2 in P3.
  assert (S0 : 0 < sin s) by (apply sin_gt_0; lra).
  assert (C0' : 0 < cos s) by (apply cos_gt_0; lra).
  destruct (MVT_gen Fe 0 s (fun s => 2 * (sin s * sin s) * resid (sqrt 2 * cos s))) as (xi & Hxi & E).
  - intros t _. apply Fe_derive.
  - intros t _. eapply rd_continuous, Fe_derive.
  - rewrite Rmin_left, Rmax_right in Hxi by lra.
    assert (F0 : Fe 0 = 0) by (unfold Fe; rewrite Rmult_0_r, sin_0; ring). rewrite F0, !Rminus_0_r in E.
    assert (CX : cos s <= cos xi) by (apply cos_decr_1; lra).
    assert (SX : 0 <= sin xi <= sin s) by (split; [apply sin_ge_0; lra|apply sin_incr_1; lra]).
    assert (RX : Rabs (resid (sqrt 2 * cos xi)) <= 1 / 10 ^ 17).
    { apply resid_small. apply Rle_trans with (2 := Hk). destruct (COS_bound xi). destruct (COS_bound s).
      rewrite !Rabs_left1 by nra. nra. }
    (* s <= tan s *)
    assert (TS : s * cos s <= sin s).
    { destruct (MVT_gen (fun t => sin t - t * cos t) 0 s (fun t => t * sin t)) as (e & He & Ee).
      - intros t _. rd ltac:(idtac; lazymatch goal with |- is_derive (fun _ => sin _) _ _ => apply is_derive_Reals, derivable_pt_lim_sin | _ => apply is_derive_Reals, derivable_pt_lim_cos end). ring.
      - intros t _. apply continuity_pt_minus; [apply continuity_sin|]. apply continuity_pt_mult; [apply derivable_continuous_pt, derivable_pt_id|apply continuity_cos].
      - rewrite Rmin_left, Rmax_right in He by lra. rewrite sin_0 in Ee.
        assert (0 <= sin e) by (apply sin_ge_0; lra). assert (0 <= e * sin e * (s - 0)) by (apply Rmult_le_pos; [apply Rmult_le_pos|]; lra). lra. }
    assert (Ck : 3 / 4 <= cos s).
    { apply Rabs_le_between in Hk. assert (7 / 5 < sqrt 2) by nra. nra. }
    assert (D : (2 * s - sin (2 * s)) / (2 * sqrt 2 * (sin s * sin s * sin s)) - Wser (sqrt 2 * cos s)
      = Fe s / (2 * sqrt 2 * (sin s * sin s * sin s))).
    { unfold Fe. field. split; lra. }
    rewrite D, E. set (R := resid _) in *. clearbody R.
    assert (Q : 0 < 2 * sqrt 2 * (sin s * sin s * sin s)) by (repeat apply Rmult_lt_0_compat; lra).
    unfold Rdiv at 1. rewrite !Rabs_mult, Rabs_inv, (Rabs_pos_eq (2 * sqrt 2 * _)), (Rabs_pos_eq s), (Rabs_pos_eq 2) by lra.
    rewrite (Rabs_pos_eq (sin xi)) by lra.
    apply Rmult_le_reg_r with (2 * sqrt 2 * (sin s * sin s * sin s)); [assumption|].
    rewrite Rmult_assoc, Rinv_l, Rmult_1_r by lra.
    pose proof (Rabs_pos R) as R0. set (r := Rabs R) in *. clearbody r.
    assert (X2 : sin xi * sin xi <= sin s * sin s) by nra.
    assert (X3 : sin xi * sin xi * s <= sin s * sin s * s) by nra.
    assert (X4 : s <= 4 / 3 * sin s) by nra.
    assert (X5 : sin s * sin s * s <= 4 / 3 * (sin s * sin s * sin s)) by nra.
    assert (X6 : 0 <= sin xi * sin xi * s) by nra.
    set (c3 := sin s * sin s * sin s) in *. set (q := sin xi * sin xi * s) in *.
    replace (2 * (sin xi * sin xi) * r * s) with (2 * q * r) by (unfold q; ring). clearbody c3 q.
    assert (q <= sqrt 2 * c3).
    { assert (4 / 3 < sqrt 2) by nra. nra. }
    assert (q * r <= sqrt 2 * c3 * (1 / 10 ^ 17)) by (apply Rmult_le_compat; lra). lra.
Qed.

(** ** Hyperbola *)
Lemma cosh_ge_1 s : 1 <= cosh s.
Proof.
  replace s with (2 * (s / 2)) by field. rewrite cosh_double. nra.
Qed.
Lemma cosh_inj a b : 0 <= a -> 0 <= b -> cosh a = cosh b -> a = b.
Proof.
  intros Ha Hb E. destruct (Rtotal_order a b) as [L|[L|L]]; [|assumption|].
  - pose proof (cosh_increasing a b Ha L). lra.
  - pose proof (cosh_increasing b a Hb L). lra.
Qed.
Lemma arcosh_cosh s : 0 <= s -> arcosh (cosh s) = s.
Proof.
  intros H. destruct (cosh_arcosh (cosh s) (cosh_ge_1 s)) as [E P]. now apply cosh_inj.
Qed.
Definition Fh (s : R) : R := sinh (2 * s) - 2 * s - 2 * sqrt 2 * (sinh s * sinh s * sinh s) * Wser (sqrt 2 * cosh s).
Lemma Fh_derive s : is_derive Fh s (2 * (sinh s * sinh s) * resid (sqrt 2 * cosh s)).
Proof.
  unfold Fh.
  eapply rd_eq; [rd_step ltac:(idtac; lazymatch goal with
    | |- is_derive (fun y => sinh (2 * y)) _ _ => apply (rd_comp sinh (fun y => 2 * y)); [apply is_derive_Reals, derivable_pt_lim_sinh|rd_step idtac]
    | |- is_derive (fun y => sinh y) _ _ => apply is_derive_Reals, derivable_pt_lim_sinh
    | |- is_derive (fun y => Wser _) _ _ => apply (rd_comp Wser (fun y => sqrt 2 * cosh y)); [apply Wser_derive|rd_step ltac:(idtac; apply is_derive_Reals, derivable_pt_lim_cosh)]
    end)|].
  req. unfold resid. destruct sqrt2_facts as [_ W2]. set (w := sqrt 2) in *.
  set (W := Wser _). set (W' := Wser' _). clearbody W W' w.
  rewrite cosh_double. pose proof (cosh_sinh_sq s) as SC. set (a := sinh s) in *. set (b := cosh s) in *. clearbody a b.
  assert (B2 : b * b = 1 + a * a) by lra. ring [W2 B2].
Qed.
Lemma sinh_ge x : 0 <= x -> x <= sinh x.
Proof.
  intros H. destruct (MVT_gen sinh 0 x cosh) as (xi & Hxi & E).
  - intros t _. apply is_derive_sinh.
  - intros t _. eapply rd_continuous, is_derive_sinh.
  - rewrite Rmin_left, Rmax_right in Hxi by lra. rewrite sinh_0 in E. pose proof (cosh_ge_1 xi). nra.
Qed.
Lemma sinh3_pos s : 0 < s -> 0 < 2 * sqrt 2 * (sinh s * sinh s * sinh s).
Proof.
  intros H. destruct sqrt2_facts as [W1 _]. pose proof (sinh_ge s ltac:(lra)).
  assert (0 < sinh s) by lra. set (a := sinh s) in *. clearbody a. repeat apply Rmult_lt_0_compat; lra.
Qed.
Lemma W_hyp_err s : 0 < s -> Rabs (sqrt 2 * cosh s - sqrt 2) <= 1 / 50 ->
  Rabs ((sinh (2 * s) - 2 * s) / (2 * sqrt 2 * (sinh s * sinh s * sinh s)) - Wser (sqrt 2 * cosh s)) <= 1 / 10 ^ 17.
Proof.
  intros Hs Hk. destruct sqrt2_facts as [W1 W2].
  pose proof (sinh_ge s ltac:(lra)) as TS.
  destruct (MVT_gen Fh 0 s (fun s => 2 * (sinh s * sinh s) * resid (sqrt 2 * cosh s))) as (xi & Hxi & E).
  - intros t _. apply Fh_derive.
  - intros t _. eapply rd_continuous, Fh_derive.
  - rewrite Rmin_left, Rmax_right in Hxi by lra.
    assert (F0 : Fh 0 = 0) by (unfold Fh; rewrite Rmult_0_r, sinh_0; ring). rewrite F0, !Rminus_0_r in E.
    assert (CX : cosh xi <= cosh s).
    { destruct (proj2 Hxi) as [L| ->]; [|lra]. left. apply cosh_increasing; lra. }
    pose proof (cosh_ge_1 xi) as C1. pose proof (cosh_ge_1 s) as C1'.
    assert (SX : 0 <= sinh xi <= sinh s).
    { pose proof (sinh_ge xi ltac:(lra)). split; [lra|]. pose proof (cosh_sinh_sq xi). pose proof (cosh_sinh_sq s). nra. }
    assert (RX : Rabs (resid (sqrt 2 * cosh xi)) <= 1 / 10 ^ 17).
    { apply resid_small. apply Rle_trans with (2 := Hk). rewrite !Rabs_pos_eq by nra. nra. }
    assert (D : (sinh (2 * s) - 2 * s) / (2 * sqrt 2 * (sinh s * sinh s * sinh s)) - Wser (sqrt 2 * cosh s)
      = Fh s / (2 * sqrt 2 * (sinh s * sinh s * sinh s))).
    { unfold Fh. field. split; apply Rgt_not_eq; lra. }
    rewrite D, E. set (R := resid _) in *. clearbody R.
    assert (Q : 0 < 2 * sqrt 2 * (sinh s * sinh s * sinh s)) by (apply sinh3_pos; lra).
    unfold Rdiv at 1. rewrite !Rabs_mult, Rabs_inv, (Rabs_pos_eq (2 * sqrt 2 * _)), (Rabs_pos_eq s), (Rabs_pos_eq 2) by lra.
    rewrite (Rabs_pos_eq (sinh xi)) by lra.
    apply Rmult_le_reg_r with (2 * sqrt 2 * (sinh s * sinh s * sinh s)); [assumption|].
    rewrite Rmult_assoc, Rinv_l, Rmult_1_r by lra.
    pose proof (Rabs_pos R) as R0. set (r := Rabs R) in *. clearbody r.
    assert (X2 : sinh xi * sinh xi <= sinh s * sinh s) by nra.
    assert (X3 : sinh xi * sinh xi * s <= sinh s * sinh s * s) by nra.
    assert (X5 : sinh s * sinh s * s <= sinh s * sinh s * sinh s) by nra.
    assert (X6 : 0 <= sinh xi * sinh xi * s) by nra.
    set (c3 := sinh s * sinh s * sinh s) in *. set (q := sinh xi * sinh xi * s) in *.
    replace (2 * (sinh xi * sinh xi) * r * s) with (2 * q * r) by (unfold q; ring). clearbody c3 q.
    assert (q <= sqrt 2 * c3).
    { assert (1 < sqrt 2) by nra. nra. }
    assert (q * r <= sqrt 2 * c3 * (1 / 10 ^ 17)) by (apply Rmult_le_compat; lra). lra.
Qed.

(** ** Closed forms *)

Lemma W_closed_ell k s M : 0 < s < PI -> k = sqrt 2 * cos s ->
  forall g, (0 < k -> g = 1) -> (k = 0 -> g = 0) -> (k < 0 -> g = -1) ->
  ((1 - g) * PI + g * acos (1 - (2 - k * k)) + 2 * PI * IZR M) / sqrt ((2 - k * k) * (2 - k * k) * (2 - k * k)) - k / (2 - k * k)
  = (2 * s - sin (2 * s) + 2 * PI * IZR M) / (2 * sqrt 2 * (sin s * sin s * sin s)).
Proof.
  intros Hs Hk g G1 G0 G2. destruct sqrt2_facts as [W1 W2].
  assert (S0 : 0 < sin s) by (apply sin_gt_0; lra).
  pose proof (sin2_cos2 s) as SC. unfold Rsqr in SC.
  assert (M2 : 2 - k * k = 2 * (sin s * sin s)).
  { rewrite Hk. transitivity (2 - (sqrt 2 * sqrt 2) * (cos s * cos s)); [ring|]. rewrite W2. lra. }
  assert (Q3 : sqrt ((2 - k * k) * (2 - k * k) * (2 - k * k)) = 2 * sqrt 2 * (sin s * sin s * sin s)).
  { rewrite M2. replace (2 * (sin s * sin s) * (2 * (sin s * sin s)) * (2 * (sin s * sin s)))
      with ((2 * sqrt 2 * (sin s * sin s * sin s)) * (2 * sqrt 2 * (sin s * sin s * sin s))).
    - apply sqrt_square. apply Rlt_le. repeat apply Rmult_lt_0_compat; lra.
    - transitivity ((sqrt 2 * sqrt 2) * 4 * (sin s * sin s * sin s) * (sin s * sin s * sin s)); [ring|]. rewrite W2. ring. }
  assert (A : (1 - g) * PI + g * acos (1 - (2 - k * k)) = 2 * s).
  { replace (1 - (2 - k * k)) with (cos (2 * s)) by (rewrite M2, cos_2a_sin; ring).
    destruct (Rtotal_order k 0) as [L|[L|L]].
    - rewrite (G2 L). assert (PI / 2 < s).
      { destruct (Rlt_dec (PI / 2) s) as [|N]; [assumption|exfalso]. assert (0 <= cos s) by (apply cos_ge_0; lra). nra. }
      replace (cos (2 * s)) with (cos (2 * (PI - s))).
      + rewrite acos_cos by lra. ring.
      + rewrite !cos_2a_cos. replace (cos (PI - s)) with (- cos s) by (rewrite <- Rtrigo_facts.cos_pi_minus; reflexivity). ring.
    - rewrite (G0 L). assert (cos s = 0) by nra. replace s with (PI / 2); [field|].
      rewrite <- (acos_cos s) by lra. rewrite H. symmetry. apply acos_0.
    - rewrite (G1 L). assert (s < PI / 2).
      { destruct (Rlt_dec s (PI / 2)) as [|N]; [assumption|exfalso]. assert (cos s <= 0) by (apply cos_le_0; lra). nra. }
      rewrite acos_cos by lra. ring. }
  rewrite A, Q3, M2, Hk, sin_2a. apply Rminus_diag_uniq.
  transitivity ((sqrt 2 * sqrt 2 - 2) * (- cos s / (sqrt 2 * 2 * (sin s * sin s)))); [field; split; lra|]. rewrite W2. ring.
Qed.

Lemma W_closed_hyp k s : 0 < s -> k = sqrt 2 * cosh s ->
  - arcosh (1 - (2 - k * k)) / sqrt (- ((2 - k * k) * (2 - k * k) * (2 - k * k))) - k / (2 - k * k)
  = (sinh (2 * s) - 2 * s) / (2 * sqrt 2 * (sinh s * sinh s * sinh s)).
Proof.
  intros Hs Hk. destruct sqrt2_facts as [W1 W2]. pose proof (sinh_ge s ltac:(lra)) as S0.
  pose proof (cosh_sinh_sq s) as SC.
  assert (M2 : 2 - k * k = - (2 * (sinh s * sinh s))).
  { rewrite Hk. transitivity (2 - (sqrt 2 * sqrt 2) * (cosh s * cosh s)); [ring|]. rewrite W2. lra. }
  assert (Q3 : sqrt (- ((2 - k * k) * (2 - k * k) * (2 - k * k))) = 2 * sqrt 2 * (sinh s * sinh s * sinh s)).
  { rewrite M2. match goal with |- sqrt ?x = _ => replace x
      with ((2 * sqrt 2 * (sinh s * sinh s * sinh s)) * (2 * sqrt 2 * (sinh s * sinh s * sinh s))) end.
    - apply sqrt_square. apply Rlt_le. apply sinh3_pos; lra.
    - transitivity ((sqrt 2 * sqrt 2) * 4 * (sinh s * sinh s * sinh s) * (sinh s * sinh s * sinh s)); [ring|]. rewrite W2. ring. }
  assert (A : arcosh (1 - (2 - k * k)) = 2 * s).
  { replace (1 - (2 - k * k)) with (cosh (2 * s)); [apply arcosh_cosh; lra|].
    rewrite cosh_double, M2. ring. }
  rewrite A, Q3, M2, Hk. rewrite sinh_double.
  apply Rminus_diag_uniq.
  transitivity ((sqrt 2 * sqrt 2 - 2) * (cosh s / (sqrt 2 * 2 * (sinh s * sinh s)))); [field; split; lra|]. rewrite W2. ring.
Qed.
