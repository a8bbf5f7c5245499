(** * Householder's methods.

    The method of order [d] for [F x = 0] replaces [x] by
    [x + d (1/F)^(d-1)(x) / (1/F)^(d)(x)]: Newton's method for [d = 1], Halley's
    for [d = 2]. *)
From Coq Require Import Reals Lra Arith.
From Coquelicot Require Import Coquelicot.
Local Open Scope R_scope.

Definition householder (d : nat) (F : R -> R) (x : R) : R :=
  x + INR d * Derive_n (fun t => / F t) (d - 1) x / Derive_n (fun t => / F t) d x.

(** The methods in terms of the derivatives of [F] itself. *)
(** The first of the [ys] that lies between the bounds, if any does. *)
Fixpoint first_within (lo hi : R) (ys : list R) : option R :=
  match ys with
  | nil => None
  | y :: ys => if Rle_dec lo y then if Rle_dec y hi then Some y else first_within lo hi ys else first_within lo hi ys
  end%list.

Section Householder.
Variables (F F1 F2 F3 : R -> R) (x : R).
Hypothesis H1 : locally x (fun t => is_derive F t (F1 t)).
Hypothesis H0 : F x <> 0.

Lemma locally_nonzero : locally x (fun t => F t <> 0).
Proof.
  assert (C : continuous F x).
  { apply (@ex_derive_continuous R_AbsRing R_NormedModule). exists (F1 x). exact (locally_singleton _ _ H1). }
  exact (C _ (open_neq 0 _ H0)).
Qed.

Lemma inv_derive_1 : locally x (fun t => Derive_n (fun u => / F u) 1 t = - F1 t / (F t * F t)).
Proof.
  generalize (filter_and _ _ H1 locally_nonzero). apply filter_imp. intros t [D N]. apply is_derive_unique.
  replace (- F1 t / (F t * F t)) with (- F1 t / F t ^ 2) by (field; exact N). apply is_derive_inv; assumption.
Qed.

Lemma newton_den : Derive_n (fun u => / F u) 1 x <> 0 -> F1 x <> 0.
Proof.
  rewrite (locally_singleton _ _ inv_derive_1). intros N E. apply N. rewrite E. unfold Rdiv. rewrite Ropp_0. apply Rmult_0_l.
Qed.
Lemma householder_1 : F1 x <> 0 -> householder 1 F x = x - F x / F1 x.
Proof.
  intros N. unfold householder. rewrite (locally_singleton _ _ inv_derive_1). cbn. field. split; assumption.
Qed.

Hypothesis H2 : locally x (fun t => is_derive F1 t (F2 t)).
Lemma inv_derive_2 : locally x (fun t => Derive_n (fun u => / F u) 2 t
   = (2 * F1 t * F1 t - F t * F2 t) / (F t * F t * F t)).
Proof.
  generalize (filter_and _ _ H1 (filter_and _ _ H2 (filter_and _ _ locally_nonzero (locally_locally _ _ inv_derive_1)))).
  apply filter_imp. intros t (D1 & D2 & N & L).
  change (Derive (Derive_n (fun u => / F u) 1) t = (2 * F1 t * F1 t - F t * F2 t) / (F t * F t * F t)).
  rewrite (Derive_ext_loc _ _ _ L). apply is_derive_unique.
  auto_derive.
  - repeat split; try (exists (F2 t); exact D2); try (exists (F1 t); exact D1).
    intros E. apply Rmult_integral in E. destruct E; contradiction.
  - pose proof (is_derive_unique F _ _ D1) as E1; pose proof (is_derive_unique F1 _ _ D2) as E2.
    change (Derive (fun x : R => F x) t) with (Derive F t). change (Derive (fun x : R => F1 x) t) with (Derive F1 t). rewrite E1, E2. field. exact N.
Qed.

Lemma halley_den : Derive_n (fun u => / F u) 2 x <> 0 -> 2 * F1 x * F1 x - F x * F2 x <> 0.
Proof.
  rewrite (locally_singleton _ _ inv_derive_2). intros N E. apply N. rewrite E. unfold Rdiv. apply Rmult_0_l.
Qed.
Lemma halley : 2 * F1 x * F1 x - F x * F2 x <> 0 ->
  householder 2 F x = x - 2 * F x * F1 x / (2 * F1 x * F1 x - F x * F2 x).
Proof.
  intros N. unfold householder. rewrite (locally_singleton _ _ inv_derive_2). change (2 - 1)%nat with 1%nat.
  rewrite (locally_singleton _ _ inv_derive_1). change (INR 2) with (1 + 1). field. split; assumption.
Qed.

Hypothesis H3 : locally x (fun t => is_derive F2 t (F3 t)).
Lemma inv_derive_3 : locally x (fun t => Derive_n (fun u => / F u) 3 t
   = (6 * F t * F1 t * F2 t - 6 * F1 t * F1 t * F1 t - F t * F t * F3 t) / (F t * F t * F t * F t)).
Proof.
  generalize (filter_and _ _ H1 (filter_and _ _ H2 (filter_and _ _ H3 (filter_and _ _ locally_nonzero (locally_locally _ _ inv_derive_2))))).
  apply filter_imp. intros t (D1 & D2 & D3 & N & L).
  change (Derive (Derive_n (fun u => / F u) 2) t = (6 * F t * F1 t * F2 t - 6 * F1 t * F1 t * F1 t - F t * F t * F3 t) / (F t * F t * F t * F t)).
  rewrite (Derive_ext_loc _ _ _ L). apply is_derive_unique.
  auto_derive.
  - repeat split; try (exists (F2 t); exact D2); try (exists (F1 t); exact D1); try (exists (F3 t); exact D3).
    intros E. apply Rmult_integral in E. destruct E as [E|E]; [|contradiction]. apply Rmult_integral in E. destruct E; contradiction.
  - pose proof (is_derive_unique F _ _ D1) as E1; pose proof (is_derive_unique F1 _ _ D2) as E2; pose proof (is_derive_unique F2 _ _ D3) as E3.
    change (Derive (fun x : R => F x) t) with (Derive F t). change (Derive (fun x : R => F1 x) t) with (Derive F1 t). change (Derive (fun x : R => F2 x) t) with (Derive F2 t). rewrite E1, E2, E3. field. exact N.
Qed.

Lemma householder_den : Derive_n (fun u => / F u) 3 x <> 0 ->
  6 * F1 x * F1 x * F1 x - 6 * F x * F1 x * F2 x + F x * F x * F3 x <> 0.
Proof.
  rewrite (locally_singleton _ _ inv_derive_3). intros N E. apply N.
  replace (6 * F x * F1 x * F2 x - 6 * F1 x * F1 x * F1 x - F x * F x * F3 x) with 0 by lra. unfold Rdiv. apply Rmult_0_l.
Qed.
Lemma householder_3 : 6 * F1 x * F1 x * F1 x - 6 * F x * F1 x * F2 x + F x * F x * F3 x <> 0 ->
  householder 3 F x = x - 3 * F x * (2 * F1 x * F1 x - F x * F2 x)
    / (6 * F1 x * F1 x * F1 x - 6 * F x * F1 x * F2 x + F x * F x * F3 x).
Proof.
  intros N. unfold householder. rewrite (locally_singleton _ _ inv_derive_3). change (3 - 1)%nat with 2%nat.
  rewrite (locally_singleton _ _ inv_derive_2). change (INR 3) with (1 + 1 + 1). field. repeat split; try assumption.
  intros E. apply N. lra.
Qed.
End Householder.
