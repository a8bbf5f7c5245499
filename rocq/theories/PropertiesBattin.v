(** * C41: Battin's continued fraction in battin1984. *)
From Coq Require Import Reals ZArith Bool List Lra Lia Psatz.
From Coquelicot Require Import Coquelicot.
From Verif Require Import Num XReal XRealLemmas LambertZ MBattin.
Local Open Scope R_scope.

(** Equation (53) of Battin and Vaughan (1984), as printed:
<<
                       8 (sqrt (1 + x) + 1)
   xi(x) = ----------------------------------------------
             3 + 1
                 ----------------------------------------
                 5 + eta + (9/7) eta
                           ------------------------------
                           1 + (16/63) eta
                               --------------------------
                               1 + (25/99) eta
                                   ----------------------
                                   1 + ...
>>
    with partial numerators [k^2 / (4 k^2 - 1)], [k = 4, 5, ...].
    [tail n k eta] keeps [n] of the levels from number [k] on. *)
Fixpoint tail (n k : nat) (eta : R) : R :=
  match n with
  | O => 1
  | S n' => 1 / (1 + INR k ^ 2 / (4 * INR k ^ 2 - 1) * eta * tail n' (S k) eta)
  end.
Definition eta_of (x : R) : R := x / (sqrt (1 + x) + 1) ^ 2.
Definition xi_convergent (n : nat) (x : R) : R :=
  8 * (sqrt (1 + x) + 1) / (3 + 1 / (5 + eta_of x + 9 / 7 * eta_of x * tail n 4 (eta_of x))).

Lemma eta_range x : 0 < x -> 0 < eta_of x < 1.
Proof.
  intros H. unfold eta_of. destruct (sqrt_facts (1 + x)) as [S1 S2]; [lra|].
  assert (1 < sqrt (1 + x)) by nra. replace x with ((sqrt (1 + x) - 1) * (sqrt (1 + x) + 1)) at 1 3 by lra.
  set (s := sqrt (1 + x)) in *. replace ((s - 1) * (s + 1) / (s + 1) ^ 2) with ((s - 1) / (s + 1)) by (field; lra).
  split; [apply Rdiv_lt_0_compat; lra|]. apply Rmult_lt_reg_r with (s + 1); [lra|]. unfold Rdiv. rewrite Rmult_assoc, Rinv_l by lra. lra.
Qed.

Lemma gamma_range k : (4 <= k)%nat -> 0 < INR k ^ 2 / (4 * INR k ^ 2 - 1) <= 16 / 63.
Proof.
  intros H. apply le_INR in H. change (INR 4) with (2 * 2 + 0) in H || idtac. assert (4 <= INR k) by (simpl in H; lra).
  set (r := INR k) in *. split; [apply Rdiv_lt_0_compat; nra|].
  apply Rmult_le_reg_r with (4 * r ^ 2 - 1); [nra|]. unfold Rdiv at 1. rewrite Rmult_assoc, Rinv_l by nra. nra.
Qed.

Lemma tail_range n : forall k eta, (4 <= k)%nat -> 0 < eta < 1 -> 63 / 79 < tail n k eta <= 1.
Proof.
  induction n as [|n IH]; intros k eta Hk He; [simpl; lra|]. cbn [tail].
  pose proof (gamma_range k Hk) as G. specialize (IH (S k) eta ltac:(lia) He). set (g := INR k ^ 2 / _) in *. set (t := tail n (S k) eta) in *.
  assert (0 < g * eta * t < 16 / 63).
  { assert (0 < g * eta < 16 / 63) by nra. nra. }
  split.
  - apply Rmult_lt_reg_r with (1 + g * eta * t); [lra|]. unfold Rdiv at 2. rewrite Rmult_1_l, Rinv_l by lra. lra.
  - apply Rmult_le_reg_r with (1 + g * eta * t); [lra|]. unfold Rdiv. rewrite Rmult_1_l, Rinv_l by lra. lra.
Qed.

Lemma tail_step n : forall k eta, (4 <= k)%nat -> 0 < eta < 1 -> Rabs (tail (S n) k eta - tail n k eta) <= (16 / 63) ^ n.
Proof.
  induction n as [|n IH]; intros k eta Hk He.
  - pose proof (tail_range 1 k eta Hk He). cbn [pow]. change (tail 0 k eta) with 1. apply Rabs_le. lra.
  - specialize (IH (S k) eta ltac:(lia) He). pose proof (gamma_range k Hk) as G.
    pose proof (tail_range (S n) (S k) eta ltac:(lia) He) as T1. pose proof (tail_range n (S k) eta ltac:(lia) He) as T2.
    change (tail (S (S n)) k eta) with (1 / (1 + INR k ^ 2 / (4 * INR k ^ 2 - 1) * eta * tail (S n) (S k) eta)).
    change (tail (S n) k eta) with (1 / (1 + INR k ^ 2 / (4 * INR k ^ 2 - 1) * eta * tail n (S k) eta)).
    set (g := INR k ^ 2 / _) in *. set (a := tail (S n) (S k) eta) in *. set (b := tail n (S k) eta) in *.
    assert (H : 0 < g * eta < 16 / 63) by nra. assert (0 < g * eta * a) by nra. assert (0 < g * eta * b) by nra.
    replace (1 / (1 + g * eta * a) - 1 / (1 + g * eta * b)) with ((- (g * eta) / ((1 + g * eta * a) * (1 + g * eta * b))) * (a - b)) by (field; lra).
    rewrite Rabs_mult. cbn [pow]. apply Rmult_le_compat; try apply Rabs_pos; [|exact IH].
    unfold Rdiv. rewrite Rabs_mult, Rabs_Ropp. rewrite (Rabs_pos_eq (g * eta)) by lra.
    rewrite Rabs_pos_eq by (apply Rlt_le, Rinv_0_lt_compat; nra).
    apply Rmult_le_reg_r with ((1 + g * eta * a) * (1 + g * eta * b)); [nra|]. rewrite Rmult_assoc, Rinv_l by nra. nra.
Qed.

(** The continued fraction converges for every [x > 0]. *)
Lemma tail_converges k eta : (4 <= k)%nat -> 0 < eta < 1 -> exists l, is_lim_seq (fun n => tail n k eta) (Finite l).
Proof.
  intros Hk He.
  assert (E : ex_series (fun n => tail (S n) k eta - tail n k eta)).
  { apply (ex_series_le (K := R_AbsRing) (V := R_CompleteNormedModule) _ (fun n => (16 / 63) ^ n)).
    - intros n. apply tail_step; assumption.
    - apply ex_series_geom. rewrite Rabs_pos_eq; lra. }
  destruct E as [l Hl]. exists (l + 1). apply is_lim_seq_incr_1.
  apply is_lim_seq_ext with (fun n => sum_n (fun m => tail (S m) k eta - tail m k eta) n + 1).
  - intros n. induction n as [|n IH].
    + rewrite sum_O. change (tail 0 k eta) with 1. ring.
    + rewrite sum_Sn. unfold plus; simpl plus. rewrite (Rplus_comm (sum_n _ n)), Rplus_assoc.
      change (AbelianGroup.plus _ _) with 0 in IH || idtac. rewrite IH. ring.
  - replace (Finite (l + 1)) with (Rbar_plus (Finite l) (Finite 1)) by reflexivity.
    apply is_lim_seq_plus'; [exact Hl|apply is_lim_seq_const].
Qed.

(** ** C41 *)

(** The value computed by battin1984 keeps none of the levels: the loop starts
    with [delta = 0], so that its first pass adds nothing and it stops. *)
Theorem C41_no_level : forall x, 0 < x -> @bat_xi_at_x XR (Fin x) = Fin (xi_convergent 0 x).
Proof.
  intros x H. unfold bat_xi_at_x, xi_convergent, sq. cbn [tail]. pose proof (eta_range x H) as He. unfold eta_of in *.
  destruct (sqrt_facts (1 + x)) as [S1 S2]; [lra|]. set (s := sqrt (1 + x)) in *.
  xunf. cbn [xmul xadd xsub xlift1 xlift2]. rewrite xsqrt_F by lra. fold s. cbn [xmul xadd xsub xlift1 xlift2]. rewrite xdiv_F by nra.
  replace ((s + 1) * (s + 1)) with ((s + 1) ^ 2) by ring. set (e := x / (s + 1) ^ 2) in *.
  assert (L : @bat_xi_loop XR 125 1 (Fin e) (Fin 0) (Fin 1) (Fin 1) = Fin 1).
  { change 125%nat with (S (S 123)). generalize 123%nat as k. intros k. cbn [bat_xi_loop]. xunf. cbn [xabs xlift1]. rewrite Rabs_R1.
    replace (xltb (Fin (1 / 1000000000000000000)) (Fin 1)) with true by (symmetry; apply xltb_F; lra).
    cbn [xmul xadd xsub xlift1 xlift2]. rewrite xdiv_F by (simpl; lra). cbn [xmul xadd xsub xlift1 xlift2].
    rewrite xdiv_F by lra. cbn [xmul xadd xsub xlift1 xlift2]. rewrite Rmult_0_r, Rplus_0_r. replace (1 * (1 / 1 - 1)) with 0 by field.
    change (xabs (Fin 0)) with (Fin (Rabs 0)). rewrite Rabs_R0. replace (xltb (Fin (1 / 1000000000000000000)) (Fin 0)) with false by (symmetry; apply xltb_Ff; lra).
    rewrite Rplus_0_r. reflexivity. }
  rewrite L. cbn [xmul xadd xsub xlift1 xlift2]. rewrite xdiv_F by lra. cbn [xmul xadd xsub xlift1 xlift2]. rewrite xdiv_F by lra.
  cbn [xmul xadd xsub xlift1 xlift2]. assert (0 < 1 / (5 + e + 9 * e / 7 * 1)) by (apply Rdiv_lt_0_compat; lra). rewrite xdiv_F by lra. apply f_equal.
  replace (9 * e / 7 * 1) with (9 / 7 * e * 1) by field. reflexivity.
Qed.
Print Assumptions C41_no_level.

(** The continued fraction has a value for every [x > 0], and the function does
    not return it. *)
Theorem C41_refuted : forall x, 0 < x ->
  exists xi, is_lim_seq (fun n => xi_convergent n x) (Finite xi) /\ @bat_xi_at_x XR (Fin x) <> Fin xi.
Proof.
  intros x H. pose proof (eta_range x H) as He. destruct (tail_converges 4 (eta_of x) ltac:(lia) He) as [l Hl].
  set (e := eta_of x) in *. destruct (sqrt_facts (1 + x)) as [S1 S2]; [lra|].
  assert (Hlow : 63 / 79 <= l).
  { apply (is_lim_seq_le (fun _ => 63 / 79) (fun n => tail n 4 e) (Finite (63 / 79)) (Finite l)); [|apply is_lim_seq_const|exact Hl].
    intros n. apply Rlt_le, tail_range; [lia|assumption]. }
  assert (Hup : l <= 1 / (1 + 16 / 63 * e * (63 / 79))).
  { apply is_lim_seq_incr_1 in Hl. apply (is_lim_seq_le (fun n => tail (S n) 4 e) (fun _ => 1 / (1 + 16 / 63 * e * (63 / 79))) (Finite l) (Finite (1 / (1 + 16 / 63 * e * (63 / 79))))); [|exact Hl|apply is_lim_seq_const].
    intros n. cbn [tail]. pose proof (tail_range n 5 e ltac:(lia) He) as T. set (t := tail n 5 e) in *.
    replace (INR 4 ^ 2 / (4 * INR 4 ^ 2 - 1)) with (16 / 63) by (simpl; field).
    unfold Rdiv at 1 3. rewrite !Rmult_1_l. apply Rinv_le_contravar; nra. }
  assert (Hl1 : l < 1).
  { apply Rle_lt_trans with (1 := Hup). apply Rmult_lt_reg_r with (1 + 16 / 63 * e * (63 / 79)); [nra|]. unfold Rdiv at 1. rewrite Rmult_1_l, Rinv_l by nra. nra. }
  set (F := fun t => 8 * (sqrt (1 + x) + 1) / (3 + 1 / (5 + e + 9 / 7 * e * t))).
  exists (F l). split.
  - apply (is_lim_seq_continuous F (fun n => tail n 4 e) l); [|exact Hl].
    assert (0 < 5 + e + 9 / 7 * e * l) by nra. assert (0 < 1 / (5 + e + 9 / 7 * e * l)) by (apply Rdiv_lt_0_compat; lra).
    apply derivable_continuous_pt, ex_derive_Reals_0. unfold F. auto_derive. repeat split; lra.
  - rewrite C41_no_level by assumption. unfold xi_convergent. fold e. cbn [tail]. intros E. injection E as E. revert E. unfold F.
    assert (0 < 5 + e + 9 / 7 * e * l) by nra. assert (0 < 1 / (5 + e + 9 / 7 * e * l)) by (apply Rdiv_lt_0_compat; lra).
    assert (0 < 5 + e + 9 / 7 * e * 1) by nra. assert (0 < 1 / (5 + e + 9 / 7 * e * 1)) by (apply Rdiv_lt_0_compat; lra).
    assert (LT : 1 / (5 + e + 9 / 7 * e * 1) < 1 / (5 + e + 9 / 7 * e * l)).
    { unfold Rdiv at 1 3. rewrite !Rmult_1_l. apply Rinv_lt_contravar; nra. }
    intros E. apply (Rlt_irrefl (8 * (sqrt (1 + x) + 1) / (3 + 1 / (5 + e + 9 / 7 * e * 1)))). rewrite E at 1.
    unfold Rdiv at 1 4. apply Rmult_lt_compat_l; [lra|]. apply Rinv_lt_contravar; [apply Rmult_lt_0_compat; lra|lra].
Qed.
Print Assumptions C41_refuted.

(** At [x = 0], the parabola, the truncation is harmless. *)
Example C41_case : forall n, xi_convergent n 0 = 5.
Proof.
  intros n. unfold xi_convergent, eta_of. rewrite Rplus_0_r, sqrt_1. replace (0 / (1 + 1) ^ 2) with 0 by field. field.
Qed.
