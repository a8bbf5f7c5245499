(** * thorne2004's series routines: reversion (C34). *)
From Coq Require Import String ZArith List Bool Arith Lia Reals Lra.
From Verif Require Import Num XReal XRealLemmas MApi MThorne SpecSeries.
Local Open Scope R_scope.

(** ** Formal series *)
Lemma sum_eq' f g n : (forall k, (k <= n)%nat -> f k = g k) -> sum_f_R0 f n = sum_f_R0 g n.
Proof. intros H. apply sum_eq. intros i Hi. now apply H. Qed.
Lemma sum_zero f n : (forall k, (k <= n)%nat -> f k = 0) -> sum_f_R0 f n = 0.
Proof.
  intros H. rewrite (sum_eq' f (fun _ => 0 * 0)) by (intros; rewrite H by assumption; ring).
  induction n; cbn [sum_f_R0]; [ring|]. rewrite IHn by (intros; apply H; lia). ring.
Qed.
Lemma pow_low x j : x O = 0 -> forall n, (n < j)%nat -> ps_pow x j n = 0.
Proof.
  intros H0. induction j as [|j IH]; intros n Hn; [lia|]. cbn [ps_pow]. unfold ps_mul. apply sum_zero. intros k Hk.
  destruct (Nat.eq_dec k n) as [->|D]; [rewrite Nat.sub_diag, H0; ring|]. rewrite IH by lia. ring.
Qed.
Lemma pow_1 x n : ps_pow x 1 n = x n.
Proof.
  cbn [ps_pow]. unfold ps_mul, ps_one. destruct n as [|n]; [cbn; ring|].
  rewrite decomp_sum by lia. rewrite sum_zero; [cbn; ring|]. intros k _. cbn. ring.
Qed.
(** Sums from 1 to [n] *)
Fixpoint sum1 (f : nat -> R) (n : nat) : R := match n with O => 0 | S k => sum1 f k + f (S k) end.
Lemma sum1_sum f n : sum_f_R0 f n = f O + sum1 f n.
Proof. induction n; cbn [sum_f_R0 sum1]; [ring|]. rewrite IHn. ring. Qed.
Lemma sum1_eq f g n : (forall k, (1 <= k <= n)%nat -> f k = g k) -> sum1 f n = sum1 g n.
Proof. induction n; intros H; cbn [sum1]; [reflexivity|]. rewrite IHn by (intros; apply H; lia). now rewrite (H (S n)) by lia. Qed.
Lemma sum1_S f n : sum1 f (S n) = f 1%nat + sum1 (fun k => f (S k)) n.
Proof. induction n; cbn [sum1]; [ring|]. cbn [sum1] in IHn. rewrite IHn. ring. Qed.
Lemma sum1_scal c f n : c * sum1 f n = sum1 (fun k => c * f k) n.
Proof. induction n; cbn [sum1]; [ring|]. rewrite <- IHn. ring. Qed.
Lemma nsum_F f g n : (forall k, (1 <= k <= n)%nat -> f k = Fin (g k)) -> @nsum XR f 1 n = Fin (sum1 g n).
Proof.
  induction n; intros H; cbn [nsum sum1]; [reflexivity|]. rewrite IHn by (intros; apply H; lia).
  change (1 + n)%nat with (S n). rewrite H by lia. reflexivity.
Qed.

(** ** The matrix over the reals *)
Section Matrix.
Variable a : nat -> R.
Hypothesis a1 : a 1%nat <> 0.
Let A : nat -> xr := fun k => Fin (a k).

Definition r_inner (Q : nat -> nat -> R) (i j : nat) : R := sum1 (fun k => Q (i - k)%nat (j - 1)%nat * Q k 1%nat) (i - 1).
Definition r_row (Q : nat -> nat -> R) (i j : nat) : R :=
  if Nat.ltb i j then 0 else if Nat.eqb i 1 then 1 / a 1%nat
  else if Nat.eqb j 1 then sum1 (fun k => - 1 / a 1%nat * r_inner Q i (k + 1) * a (k + 1)%nat) (i - 1)
  else r_inner Q i j.
Fixpoint r_Q (n : nat) : nat -> nat -> R :=
  match n with
  | O => fun _ _ => 0
  | S k => fun i j => if Nat.eqb i n && Nat.leb 1 j then r_row (r_Q k) i j else r_Q k i j
  end.
Lemma inner_F Q q i j : (forall i j, Q i j = Fin (q i j)) -> @tho_Q_inner XR Q i j = Fin (r_inner q i j).
Proof. intros H. unfold tho_Q_inner, r_inner. apply nsum_F. intros k _. rewrite !H. reflexivity. Qed.
Lemma Q_F n : forall i j, @tho_Q XR A n i j = Fin (r_Q n i j).
Proof.
  induction n as [|n IH]; intros i j; cbn [tho_Q r_Q]; [reflexivity|].
  destruct (Nat.eqb i (S n) && Nat.leb 1 j); [|apply IH].
  unfold tho_Q_row, r_row. destruct (Nat.ltb i j); [reflexivity|]. destruct (Nat.eqb i 1).
  { unfold A. change (@nofZ XR 1) with (Fin 1). change (@ndiv XR) with xdiv. now rewrite xdiv_F by assumption. }
  destruct (Nat.eqb j 1); [|now apply inner_F].
  apply nsum_F. intros k _. rewrite (inner_F _ _ i (k + 1) IH). unfold A.
  change (@nopp XR (@nofZ XR 1)) with (Fin (- (1))). change (@ndiv XR) with xdiv. rewrite xdiv_F by assumption. reflexivity.
Qed.
(** Rows do not change once they are filled. *)
Lemma Q_stable n m i j : (i <= n)%nat -> (n <= m)%nat -> r_Q m i j = r_Q n i j.
Proof.
  intros Hi Hm. induction Hm as [|m Hm IH]; [reflexivity|]. cbn [r_Q].
  destruct (Nat.eqb_spec i (S m)); [lia|]. exact IH.
Qed.
Definition X (i : nat) : R := r_Q i i 1.
Lemma X0 : X 0 = 0. Proof. reflexivity. Qed.
Lemma inner_pow n i j : (i <= S n)%nat -> (2 <= j)%nat -> (forall i j, (1 <= i <= n)%nat -> (1 <= j)%nat -> r_Q n i j = ps_pow X j i) ->
  r_inner (r_Q n) i j = ps_pow X j i.
Proof.
  intros Hi Hj H. destruct j as [|j]; [lia|]. unfold r_inner. cbn [ps_pow]. replace (S j - 1)%nat with j by lia.
  unfold ps_mul. rewrite sum1_sum, (pow_low X j X0 0) by lia. rewrite Rmult_0_l, Rplus_0_l.
  destruct i as [|i]; [reflexivity|]. replace (S i - 1)%nat with i by lia. cbn [sum1]. rewrite Nat.sub_diag, X0, Rmult_0_r, Rplus_0_r.
  rewrite (sum1_eq _ (fun k => ps_pow X j (S i - k)%nat * X k)).
  2: { intros k Hk. rewrite H by lia. rewrite (H k 1%nat) by lia. now rewrite pow_1. }
  assert (R : forall f m, sum1 (fun k => f (S m - k)%nat) m = sum1 f m).
  { intros f m. induction m as [|m IH]; [reflexivity|]. rewrite sum1_S. replace (S (S m) - 1)%nat with (S m) by lia.
    rewrite (sum1_eq _ (fun k => f (S m - k)%nat)) by (intros; f_equal; lia). rewrite IH. cbn [sum1]. ring. }
  rewrite <- (R (fun k => ps_pow X j k * X (S i - k)%nat)). apply sum1_eq. intros k Hk.
  replace (S i - (S i - k))%nat with k by lia. reflexivity.
Qed.
Lemma Q_pow n : forall i j, (1 <= i <= n)%nat -> (1 <= j)%nat -> r_Q n i j = ps_pow X j i.
Proof.
  induction n as [|n IH]; intros i j Hi Hj; [lia|]. destruct (Nat.eq_dec i (S n)) as [->|D].
  2: { rewrite (Q_stable n) by lia. apply IH; lia. }
  destruct (Nat.eq_dec j 1) as [->|D]; [rewrite pow_1; reflexivity|].
  cbn [r_Q]. rewrite Nat.eqb_refl. destruct (Nat.leb_spec 1 j); [|lia]. cbn [andb]. unfold r_row.
  destruct (Nat.ltb_spec (S n) j); [symmetry; apply pow_low; [exact X0|lia]|].
  destruct (Nat.eqb_spec (S n) 1) as [E|E]; [lia|]. destruct (Nat.eqb_spec j 1); [contradiction|].
  apply inner_pow; [lia|lia|exact IH].
Qed.
Lemma X_row i : (2 <= i)%nat -> X i = sum1 (fun k => - 1 / a 1%nat * ps_pow X (k + 1) i * a (k + 1)%nat) (i - 1).
Proof.
  intros Hi. destruct i as [|i]; [lia|]. unfold X at 1. cbn [r_Q]. rewrite Nat.eqb_refl. cbn [Nat.leb andb]. unfold r_row.
  destruct (Nat.ltb_spec (S i) 1); [lia|]. destruct (Nat.eqb_spec (S i) 1); [lia|]. cbn [Nat.eqb].
  apply sum1_eq. intros k Hk. rewrite (inner_pow i) by (try lia; apply Q_pow). reflexivity.
Qed.
Lemma X_inverse i : a O = 0 -> (1 <= i)%nat -> ps_compose a X i = ps_t i.
Proof.
  intros a0 Hi. unfold ps_compose. rewrite sum1_sum, a0. destruct i as [|i]; [lia|]. rewrite sum1_S, pow_1.
  destruct i as [|i].
  - cbn [sum1]. unfold X, ps_t. cbn. field. assumption.
  - rewrite (X_row (S (S i))) by lia. replace (S (S i) - 1)%nat with (S i) by lia. rewrite sum1_scal.
    unfold ps_t. cbn [Nat.eqb]. rewrite (sum1_eq (fun k => a 1%nat * _) (fun k => - 1 * (a (S k) * ps_pow X (S k) (S (S i))))).
    + rewrite <- sum1_scal. ring.
    + intros k _. rewrite Nat.add_1_r. field. assumption.
Qed.

Lemma B_F n m : (m <= n)%nat -> @tho_B XR A (@tho_Q XR A n) (S m) = Fin (sum_f_R0 (fun j => a (S j) * ps_pow X j m) m).
Proof.
  intros Hm. unfold tho_B. destruct m as [|m].
  - cbn. apply (f_equal Fin). unfold ps_one. cbn. ring.
  - cbn [Nat.eqb]. rewrite sum1_sum. replace (S (S m) - 1)%nat with (S m) by lia.
    cbn [ps_pow]. unfold ps_one at 1. cbn [Nat.eqb]. rewrite Rmult_0_r, Rplus_0_l. apply nsum_F. intros k Hk. rewrite Q_F.
    rewrite Q_pow by lia. unfold A. rewrite Nat.add_1_r. change (@nmul XR (Fin ?x) (Fin ?y)) with (Fin (x * y)). apply (f_equal Fin). ring.
Qed.
End Matrix.

Lemma sum_swap (f : nat -> nat -> R) n m : sum_f_R0 (fun i => sum_f_R0 (f i) m) n = sum_f_R0 (fun j => sum_f_R0 (fun i => f i j) n) m.
Proof.
  induction n as [|n IH]; cbn [sum_f_R0]; [reflexivity|]. rewrite IH, <- plus_sum. reflexivity.
Qed.
Lemma sum_extend f n m : (n <= m)%nat -> (forall k, (n < k <= m)%nat -> f k = 0) -> sum_f_R0 f n = sum_f_R0 f m.
Proof.
  intros H. induction H as [|m H IH]; intros Z; [reflexivity|]. cbn [sum_f_R0]. rewrite (Z (S m)) by lia. rewrite <- IH; [ring|].
  intros k Hk. apply Z. lia.
Qed.
Lemma quotient_mul a x i : x O = 0 -> a O = 0 ->
  ps_mul (fun m => sum_f_R0 (fun j => a (S j) * ps_pow x j m) m) x i = ps_compose a x i.
Proof.
  intros x0 a0. unfold ps_mul, ps_compose.
  rewrite (sum_eq' _ (fun k => sum_f_R0 (fun j => a (S j) * (ps_pow x j k * x (i - k)%nat)) i)).
  2: { intros k Hk. rewrite (sum_extend _ k i Hk). 2: { intros j Hj. rewrite (pow_low x j x0) by lia. ring. }
       rewrite Rmult_comm, scal_sum. apply sum_eq'. intros j _. ring. }
  rewrite sum_swap. rewrite (sum_eq' _ (fun j => a (S j) * ps_pow x (S j) i)).
  2: { intros j _. cbn [ps_pow]. unfold ps_mul. rewrite scal_sum. apply sum_eq'. intros k _. ring. }
  rewrite (sum_extend (fun j => a j * ps_pow x j i) i (S i)); [|lia|intros k Hk; rewrite (pow_low x k x0) by lia; ring].
  rewrite (decomp_sum (fun j => a j * ps_pow x j i) (S i)) by lia. rewrite a0. cbn [pred]. ring.
Qed.

(** ** C34 *)

(** For every coefficient sequence [a 1, a 2, ...] with [a 1 <> 0] and every order
    [n] there is a series [x] with [a(x(t)) = t] such that column [j] of the Q
    matrix holds the coefficients of [x^j] and the B array those of [t / x(t)], up
    to order [n]. *)
Theorem C34_series_reversion : forall (a : nat -> R), a O = 0 -> a 1%nat <> 0 ->
  exists x : nat -> R, x O = 0 /\ (forall i, ps_compose a x i = ps_t i) /\
  forall n, let Q := @tho_Q XR (fun k => Fin (a k)) n in
  (forall i j, (1 <= i <= n)%nat -> (1 <= j)%nat -> Q i j = Fin (ps_pow x j i)) /\
  exists b : nat -> R, (forall i, (1 <= i <= n)%nat -> @tho_B XR (fun k => Fin (a k)) Q i = Fin (b (i - 1)%nat)) /\
    forall i, ps_mul b x i = ps_t i.
Proof.
  intros a a0 a1. exists (X a). split; [reflexivity|].
  assert (I : forall i, ps_compose a (X a) i = ps_t i).
  { intros [|i]; [|apply X_inverse; [assumption|assumption|lia]]. unfold ps_compose, ps_t. cbn. rewrite a0. ring. }
  split; [exact I|]. intros n Q. split.
  - intros i j Hi Hj. unfold Q. rewrite Q_F by assumption. now rewrite Q_pow.
  - exists (fun m => sum_f_R0 (fun j => a (S j) * ps_pow (X a) j m) m). split.
    + intros i Hi. unfold Q. destruct i as [|i]; [lia|]. rewrite B_F by (assumption || lia).
      replace (S i - 1)%nat with i by lia. reflexivity.
    + intros i. rewrite quotient_mul by (reflexivity || assumption). apply I.
Qed.
Print Assumptions C34_series_reversion.

(** The inverse series is unique. *)
Lemma pow_agree x y i : (forall k, (k < i)%nat -> x k = y k) -> forall j m, (m < i)%nat -> ps_pow x j m = ps_pow y j m.
Proof.
  intros H. induction j as [|j IH]; intros m Hm; [reflexivity|]. cbn [ps_pow]. unfold ps_mul. apply sum_eq'. intros k Hk.
  rewrite IH by lia. rewrite H by lia. reflexivity.
Qed.
Theorem C34_inverse_unique : forall a x y : nat -> R, a O = 0 -> a 1%nat <> 0 -> x O = 0 -> y O = 0 ->
  (forall i, ps_compose a x i = ps_t i) -> (forall i, ps_compose a y i = ps_t i) -> forall i, x i = y i.
Proof.
  intros a x y a0 a1 x0 y0 Hx Hy i. induction i as [i IH] using (well_founded_induction lt_wf).
  destruct i as [|i]; [congruence|].
  pose proof (Hx (S i)) as E1. rewrite <- (Hy (S i)) in E1. unfold ps_compose in E1. rewrite !sum1_sum, !sum1_S, !pow_1, a0 in E1.
  rewrite (sum1_eq (fun k => a (S k) * ps_pow x (S k) (S i)) (fun k => a (S k) * ps_pow y (S k) (S i))) in E1.
  - assert (E2 : a 1%nat * (x (S i) - y (S i)) = 0) by lra. apply Rmult_integral in E2. destruct E2; [contradiction|lra].
  - intros k Hk. f_equal. cbn [ps_pow]. unfold ps_mul. apply sum_eq'. intros m Hm.
    destruct (Nat.eq_dec m 0) as [->|D].
    + rewrite (pow_low x k x0), (pow_low y k y0) by lia. ring.
    + destruct (Nat.eq_dec m (S i)) as [->|D']; [rewrite Nat.sub_diag, x0, y0; ring|].
      rewrite (pow_agree x y (S i)) by (assumption || lia). rewrite (IH (S i - m)%nat) by lia. reflexivity.
Qed.
Print Assumptions C34_inverse_unique.
Example C34_case : let A k := Fin (if Nat.eqb k 1 then 1 else if Nat.eqb k 2 then 1 else 0) in
  @tho_Q XR A 3 3%nat 1%nat = Fin 2 /\ @tho_Q XR A 3 3%nat 2%nat = Fin (-2) /\ @tho_B XR A (@tho_Q XR A 3) 3%nat = Fin (-1).
Proof.
  intros A. assert (H : (fun k => if Nat.eqb k 1 then 1 else if Nat.eqb k 2 then 1 else 0) 1%nat <> 0) by (cbn; lra).
  split; [|split].
  - unfold A. rewrite (Q_F _ H). apply (f_equal Fin). cbn. field.
  - unfold A. rewrite (Q_F _ H). apply (f_equal Fin). cbn. field.
  - unfold A, tho_B. cbn [Nat.eqb Nat.sub nsum]. rewrite !(Q_F _ H). cbn -[r_Q]. apply (f_equal Fin). cbn. field.
Qed.
