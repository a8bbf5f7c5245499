(** * The power series of [2 (asin (sqrt u) - sqrt (u (1 - u))) / u^(3/2)]. *)
From Coq Require Import Reals ZArith Bool Lra Lia Psatz.
From Coquelicot Require Import Coquelicot.
From Verif Require Import Num RDerive UniversalKepler LambertUV LambertRev DelatorreXR LambertZ.
Local Open Scope R_scope.

(** [bin n] is [prod_{k < n} (k + 1/2) / (k + 1)], the coefficients of [1/sqrt(1-u)]. *)
Fixpoint bin (n : nat) : R :=
  match n with O => 1 | S k => bin k * (INR k + / 2) / (INR k + 1) end.
(** The coefficients of the function above *)
Definition phi_a (n : nat) : R := 4 * bin n / (2 * INR n + 3).

Lemma bin_pos n : 0 < bin n.
Proof.
  induction n; cbn [bin]; [lra|]. pose proof (pos_INR n). apply Rdiv_lt_0_compat; [|lra]. apply Rmult_lt_0_compat; lra.
Qed.
Lemma phi_a_pos n : 0 < phi_a n.
Proof. unfold phi_a. pose proof (bin_pos n). pose proof (pos_INR n). apply Rdiv_lt_0_compat; lra. Qed.

Lemma lim_inv_shift c : is_lim_seq (fun n => / (INR n + c)) 0.
Proof.
  replace (Finite 0) with (Rbar_inv p_infty) by reflexivity. apply is_lim_seq_inv; [|discriminate].
  apply is_lim_seq_plus with (l1 := p_infty) (l2 := Finite c); [apply is_lim_seq_INR|apply is_lim_seq_const|reflexivity].
Qed.
Lemma bin_radius : CV_radius bin = Finite 1.
Proof.
  rewrite <- Rinv_1. apply CV_radius_finite_DAlembert.
  - intros n. pose proof (bin_pos n). lra.
  - lra.
  - apply is_lim_seq_ext with (fun n => 1 + - / 2 * / (INR n + 1)).
    { intros n. cbn [bin]. pose proof (bin_pos n). pose proof (pos_INR n).
      replace (bin n * (INR n + / 2) / (INR n + 1) / bin n) with ((INR n + / 2) / (INR n + 1)) by (field; lra).
      rewrite Rabs_right; [field; lra|]. apply Rle_ge, Rlt_le, Rdiv_lt_0_compat; lra. }
    replace (Finite 1) with (Rbar_plus (Finite 1) (Rbar_mult (Finite (- / 2)) (Finite 0))) by (cbn; f_equal; ring).
    apply is_lim_seq_plus'; [apply is_lim_seq_const|]. apply is_lim_seq_scal_l with (lu := Finite 0). apply lim_inv_shift.
Qed.
Lemma phi_radius : CV_radius phi_a = Finite 1.
Proof.
  rewrite <- Rinv_1. apply CV_radius_finite_DAlembert.
  - intros n. pose proof (phi_a_pos n). lra.
  - lra.
  - apply is_lim_seq_ext with (fun n => (1 + - / 2 * / (INR n + 1)) * (1 + - 1 * / (INR n + 5 / 2))).
    { intros n. unfold phi_a. cbn [bin]. rewrite S_INR. pose proof (bin_pos n). pose proof (pos_INR n).
      replace (4 * (bin n * (INR n + / 2) / (INR n + 1)) / (2 * (INR n + 1) + 3) / (4 * bin n / (2 * INR n + 3)))
        with (((INR n + / 2) * (2 * INR n + 3)) / ((INR n + 1) * (2 * INR n + 5))) by (field; lra).
      rewrite Rabs_right; [field; lra|]. apply Rle_ge, Rlt_le, Rdiv_lt_0_compat; apply Rmult_lt_0_compat; lra. }
    replace (Finite 1) with (Finite (1 * 1)) by (f_equal; ring).
    apply is_lim_seq_mult'.
    + replace (Finite 1) with (Rbar_plus (Finite 1) (Rbar_mult (Finite (- / 2)) (Finite 0))) by (cbn; f_equal; ring).
      apply is_lim_seq_plus'; [apply is_lim_seq_const|]. apply is_lim_seq_scal_l with (lu := Finite 0). apply lim_inv_shift.
    + replace (Finite 1) with (Rbar_plus (Finite 1) (Rbar_mult (Finite (- 1)) (Finite 0))) by (cbn; f_equal; ring).
      apply is_lim_seq_plus'; [apply is_lim_seq_const|]. apply is_lim_seq_scal_l with (lu := Finite 0). apply lim_inv_shift.
Qed.

Definition bin_f (u : R) : R := PSeries bin u.
Definition phi_f (u : R) : R := PSeries phi_a u.
Lemma bin_f_derive u : Rabs u < 1 -> is_derive bin_f u (PSeries (PS_derive bin) u).
Proof. intros H. apply is_derive_PSeries. rewrite bin_radius. exact H. Qed.
Lemma phi_f_derive u : Rabs u < 1 -> is_derive phi_f u (PSeries (PS_derive phi_a) u).
Proof. intros H. apply is_derive_PSeries. rewrite phi_radius. exact H. Qed.
Lemma phi_pseries u : Rabs u < 1 -> is_pseries phi_a u (phi_f u).
Proof. intros H. apply PSeries_correct, CV_radius_inside. rewrite phi_radius. exact H. Qed.

Lemma bin_ode u : Rabs u < 1 -> (1 - u) * PSeries (PS_derive bin) u = / 2 * bin_f u.
Proof.
  intros H. unfold bin_f.
  assert (R0 : Rbar_lt (Rabs u) (CV_radius bin)) by (rewrite bin_radius; exact H).
  assert (R1 : Rbar_lt (Rabs u) (CV_radius (PS_derive bin))) by (rewrite CV_radius_derive, bin_radius; exact H).
  set (d := PS_derive bin) in *.
  assert (X0 : is_pseries bin u (PSeries bin u)) by now apply PSeries_correct, CV_radius_inside.
  assert (X1 : is_pseries d u (PSeries d u)) by now apply PSeries_correct, CV_radius_inside.
  set (f := PSeries bin u) in *. set (f' := PSeries d u) in *.
  assert (Y1 : is_pseries (PS_incr_1 d) u (u * f')) by (apply (is_pseries_incr_1 d u f'); exact X1).
  assert (W1 : is_pseries (PS_scal (/ 2) bin) u (/ 2 * f)).
  { apply (is_pseries_scal (/ 2) bin u f); [apply Rmult_comm|exact X0]. }
  pose proof (is_pseries_plus _ _ u _ _ W1 Y1) as T. 
  assert (E : f' = / 2 * f + u * f').
  { apply is_pseries_unique in T. unfold plus in T; cbn in T. rewrite <- T. apply PSeries_ext. intros n.
    unfold PS_plus, PS_scal, PS_incr_1, d, PS_derive. unfold plus, scal, zero; cbn -[INR]. unfold mult; cbn -[INR].
    destruct n as [|n].
    - cbn. field.
    - cbn [bin]. rewrite !S_INR. pose proof (pos_INR n). field. lra. }
  lra.
Qed.
Lemma phi_ode u : Rabs u < 1 -> 2 * u * PSeries (PS_derive phi_a) u + 3 * phi_f u = 4 * bin_f u.
Proof.
  intros H. unfold bin_f, phi_f.
  assert (R0 : Rbar_lt (Rabs u) (CV_radius phi_a)) by (rewrite phi_radius; exact H).
  assert (R1 : Rbar_lt (Rabs u) (CV_radius (PS_derive phi_a))) by (rewrite CV_radius_derive, phi_radius; exact H).
  assert (R2 : Rbar_lt (Rabs u) (CV_radius bin)) by (rewrite bin_radius; exact H).
  set (d := PS_derive phi_a) in *.
  assert (X0 : is_pseries phi_a u (PSeries phi_a u)) by now apply PSeries_correct, CV_radius_inside.
  assert (X1 : is_pseries d u (PSeries d u)) by now apply PSeries_correct, CV_radius_inside.
  assert (X2 : is_pseries bin u (PSeries bin u)) by now apply PSeries_correct, CV_radius_inside.
  set (f := PSeries phi_a u) in *. set (f' := PSeries d u) in *. set (g := PSeries bin u) in *.
  assert (Y1 : is_pseries (PS_incr_1 d) u (u * f')) by (apply (is_pseries_incr_1 d u f'); exact X1).
  assert (W0 : is_pseries (PS_scal 2 (PS_incr_1 d)) u (2 * (u * f'))).
  { apply (is_pseries_scal 2 _ u (u * f')); [apply Rmult_comm|exact Y1]. }
  assert (W1 : is_pseries (PS_scal 3 phi_a) u (3 * f)).
  { apply (is_pseries_scal 3 phi_a u f); [apply Rmult_comm|exact X0]. }
  assert (W2 : is_pseries (PS_scal 4 bin) u (4 * g)).
  { apply (is_pseries_scal 4 bin u g); [apply Rmult_comm|exact X2]. }
  pose proof (is_pseries_plus _ _ u _ _ W0 W1) as T. apply is_pseries_unique in T. apply is_pseries_unique in W2.
  unfold plus in T; cbn in T. rewrite <- W2. rewrite Rmult_assoc, <- T. apply PSeries_ext. intros n.
  unfold PS_plus, PS_scal, PS_incr_1, d, PS_derive. unfold plus, scal, zero; cbn -[INR]. unfold mult; cbn -[INR].
  unfold phi_a. destruct n as [|n].
  - cbn. field.
  - cbn [bin]. rewrite !S_INR. pose proof (pos_INR n). field. lra.
Qed.

Lemma sin_sq_bound t : - (PI / 2) < t < PI / 2 -> Rabs (sin t * sin t) < 1.
Proof.
  intros Ht. pose proof (sin2_cos2 t) as SC. unfold Rsqr in SC.
  assert (0 < cos t) by (apply cos_gt_0; lra). apply Rabs_def1; nra.
Qed.
Lemma bin_ell t : 0 <= t < PI / 2 -> bin_f (sin t * sin t) * cos t = 1.
Proof.
  intros [Ht Ht'].
  assert (E : bin_f (sin 0 * sin 0) * cos 0 = bin_f (sin t * sin t) * cos t).
  { destruct Ht as [Ht|<-]; [|reflexivity].
    apply (eq_is_derive (fun t => bin_f (sin t * sin t) * cos t) 0 t); [|lra]. intros x Hx.
    assert (B : Rabs (sin x * sin x) < 1) by (apply sin_sq_bound; lra).
    pose proof (bin_f_derive _ B) as D. pose proof (bin_ode _ B) as O. set (d := PSeries _ _) in *. clearbody d.
    apply rd_eq with (d * (2 * (sin x * cos x)) * cos x + bin_f (sin x * sin x) * (- sin x)).
    - eapply rd_eq; [apply rd_mult; [apply (rd_comp bin_f (fun t => sin t * sin t)); [exact D|]|]|].
      + auto_derive; [trivial|reflexivity].
      + auto_derive; [trivial|reflexivity].
      + req. ring.
    - req. unfold zero; cbn. pose proof (sin2_cos2 x) as SC. unfold Rsqr in SC.
      replace (1 - sin x * sin x) with (cos x * cos x) in O by lra.
      transitivity (2 * sin x * (cos x * cos x * d) - bin_f (sin x * sin x) * sin x); [ring|]. rewrite O. field. }
  rewrite <- E, sin_0, cos_0. unfold bin_f. rewrite Rmult_0_l, PSeries_0. cbn [bin]. ring.
Qed.
Lemma bin_hyp t : 0 <= t -> sinh t < 1 -> bin_f (- (sinh t * sinh t)) * cosh t = 1.
Proof.
  intros Ht Ht'.
  assert (S0 : forall x, 0 <= x <= t -> 0 <= sinh x <= sinh t).
  { intros x [H1 H2]. split; [|destruct H2 as [H2| -> ]; [left; now apply sinh_lt|lra]].
    destruct H1 as [H1|<-]; [|rewrite sinh_0; lra]. left. rewrite <- sinh_0. now apply sinh_lt. }
  assert (E : bin_f (- (sinh 0 * sinh 0)) * cosh 0 = bin_f (- (sinh t * sinh t)) * cosh t).
  { destruct Ht as [Ht|<-]; [|reflexivity].
    apply (eq_is_derive (fun t => bin_f (- (sinh t * sinh t)) * cosh t) 0 t); [|lra]. intros x Hx.
    assert (B : Rabs (- (sinh x * sinh x)) < 1) by (specialize (S0 x Hx); apply Rabs_def1; nra).
    pose proof (bin_f_derive _ B) as D. pose proof (bin_ode _ B) as O. set (d := PSeries _ _) in *. clearbody d.
    apply rd_eq with (- d * (2 * (sinh x * cosh x)) * cosh x + bin_f (- (sinh x * sinh x)) * sinh x).
    - eapply rd_eq; [apply rd_mult; [apply (rd_comp bin_f (fun t => - (sinh t * sinh t))); [exact D|]|]|].
      + apply rd_opp. apply rd_mult; apply is_derive_Reals, derivable_pt_lim_sinh.
      + apply is_derive_Reals, derivable_pt_lim_cosh.
      + req. ring.
    - req. unfold zero; cbn. pose proof (cosh_sinh_sq x) as SC.
      replace (1 - - (sinh x * sinh x)) with (cosh x * cosh x) in O by lra.
      transitivity (- (2 * sinh x * (cosh x * cosh x * d)) + bin_f (- (sinh x * sinh x)) * sinh x); [ring|]. rewrite O. field. }
  rewrite <- E, sinh_0, cosh_0. replace (- (0 * 0)) with 0 by ring. unfold bin_f. rewrite PSeries_0. cbn [bin]. ring.
Qed.

(** [phi (sin^2 t) sin^3 t = 2 t - sin 2t] *)
Lemma phi_ell t : 0 <= t < PI / 2 -> phi_f (sin t * sin t) * (sin t * sin t * sin t) = 2 * t - sin (2 * t).
Proof.
  intros [Ht Ht']. rewrite sin_2a.
  set (G := fun t => phi_f (sin t * sin t) * (sin t * sin t * sin t) - (2 * t - 2 * sin t * cos t)).
  assert (E : G 0 = G t).
  { destruct Ht as [Ht|<-]; [|reflexivity].
    apply (eq_is_derive G 0 t); [|lra]. intros x Hx.
    assert (B : Rabs (sin x * sin x) < 1) by (apply sin_sq_bound; lra).
    pose proof (phi_f_derive _ B) as D. pose proof (phi_ode _ B) as O. pose proof (bin_ell x ltac:(lra)) as I.
    set (d := PSeries _ _) in *. clearbody d.
    apply rd_eq with (d * (2 * (sin x * cos x)) * (sin x * sin x * sin x) + phi_f (sin x * sin x) * (3 * (sin x * sin x) * cos x)
      - (2 - 2 * (cos x * cos x - sin x * sin x))).
    - unfold G. apply rd_minus.
      + eapply rd_eq; [apply rd_mult; [apply (rd_comp phi_f (fun t => sin t * sin t)); [exact D|]|]|].
        * auto_derive; [trivial|reflexivity].
        * auto_derive; [trivial|reflexivity].
        * req. ring.
      + auto_derive; [trivial|]. ring.
    - req. unfold zero; cbn. pose proof (sin2_cos2 x) as SC. unfold Rsqr in SC.
      transitivity (sin x * sin x * cos x * (2 * (sin x * sin x) * d + 3 * phi_f (sin x * sin x)) - (2 - 2 * (cos x * cos x - sin x * sin x))); [ring|].
      rewrite O. transitivity (4 * (sin x * sin x) * (bin_f (sin x * sin x) * cos x) - (2 - 2 * (cos x * cos x - sin x * sin x))); [ring|].
      rewrite I. lra. }
  assert (G0 : G 0 = 0) by (unfold G; rewrite sin_0, cos_0; ring). unfold G in E at 2. lra.
Qed.
(** [phi (- sinh^2 t) sinh^3 t = sinh 2t - 2t] *)
Lemma phi_hyp t : 0 <= t -> sinh t < 1 -> phi_f (- (sinh t * sinh t)) * (sinh t * sinh t * sinh t) = sinh (2 * t) - 2 * t.
Proof.
  intros Ht Ht'. replace (sinh (2 * t)) with (2 * sinh t * cosh t).
  2: { unfold sinh, cosh. replace (2 * t) with (t + t) by ring. replace (- (t + t)) with (- t + - t) by ring. rewrite !exp_plus. field. }
  assert (S0 : forall x, 0 <= x <= t -> 0 <= sinh x <= sinh t).
  { intros x [H1 H2]. split; [|destruct H2 as [H2| -> ]; [left; now apply sinh_lt|lra]].
    destruct H1 as [H1|<-]; [|rewrite sinh_0; lra]. left. rewrite <- sinh_0. now apply sinh_lt. }
  set (G := fun t => phi_f (- (sinh t * sinh t)) * (sinh t * sinh t * sinh t) - (2 * (sinh t * cosh t) - 2 * t)).
  assert (E : G 0 = G t).
  { destruct Ht as [Ht|<-]; [|reflexivity].
    apply (eq_is_derive G 0 t); [|lra]. intros x Hx. pose proof (S0 x Hx) as Sx.
    assert (B : Rabs (- (sinh x * sinh x)) < 1) by (apply Rabs_def1; nra).
    pose proof (phi_f_derive _ B) as D. pose proof (phi_ode _ B) as O. pose proof (bin_hyp x ltac:(lra) ltac:(lra)) as I.
    set (d := PSeries _ _) in *. clearbody d.
    assert (DS : is_derive sinh x (cosh x)) by apply is_derive_Reals, derivable_pt_lim_sinh.
    assert (DC : is_derive cosh x (sinh x)) by apply is_derive_Reals, derivable_pt_lim_cosh.
    apply rd_eq with (- d * (2 * (sinh x * cosh x)) * (sinh x * sinh x * sinh x) + phi_f (- (sinh x * sinh x)) * (3 * (sinh x * sinh x) * cosh x)
      - (2 * (cosh x * cosh x + sinh x * sinh x) - 2)).
    - unfold G. apply rd_minus.
      + eapply rd_eq; [apply rd_mult; [apply (rd_comp phi_f (fun t => - (sinh t * sinh t))); [exact D|]|]|].
        * apply rd_opp. apply rd_mult; exact DS.
        * apply rd_mult; [apply rd_mult|]; exact DS.
        * req. ring.
      + apply rd_minus.
        * eapply rd_eq; [apply rd_mult; [apply is_derive_const|apply rd_mult; [exact DS|exact DC]]|]. req. unfold zero; cbn. ring.
        * auto_derive; [trivial|ring].
    - req. unfold zero; cbn. pose proof (cosh_sinh_sq x) as SC.
      transitivity (sinh x * sinh x * cosh x * (2 * (- (sinh x * sinh x)) * d + 3 * phi_f (- (sinh x * sinh x))) - (2 * (cosh x * cosh x + sinh x * sinh x) - 2)); [ring|].
      rewrite O. transitivity (4 * (sinh x * sinh x) * (bin_f (- (sinh x * sinh x)) * cosh x) - (2 * (cosh x * cosh x + sinh x * sinh x) - 2)); [ring|].
      rewrite I. lra. }
  assert (G0 : G 0 = 0) by (unfold G; rewrite sinh_0, cosh_0; ring). unfold G in E at 2. lra.
Qed.
