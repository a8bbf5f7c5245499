(** * C58: the step of der2011 is Laguerre's. *)
From Coq Require Import String ZArith List Bool Lia Reals Lra Psatz.
From Coquelicot Require Import Coquelicot.
From Verif Require Import RDerive Num XReal XRealLemmas MApi Loops MDer.
Local Open Scope R_scope.

(** A pass with a discriminant that is not negative and a non-zero denominator. *)
Lemma laguerre_pass x f f1 f2 n q c :
  0 <= q -> q * q = IZR ((n - 1) ^ 2) * (f1 * f1) - IZR (n * (n - 1)) * f * f2 ->
  let d := f1 + (if Rlt_dec f1 0 then - q else q) in
  d <> 0 -> c = x - IZR n * f / d -> - IZR (10 ^ 300) < c < IZR (10 ^ 300) ->
  @der_laguerre_body XR (Fin x) (Fin f) (Fin f1) (Fin f2) n tt = Break (Fin c).
Proof.
  intros Q E d Hd Hc. unfold der_laguerre_body. generalize (10 ^ 300)%Z as big. intros big B.
  assert (ED : @nsub XR (@nmul XR (nofZ ((n - 1) ^ 2)) (@sq XR (Fin f1))) (@nmul XR (@nmul XR (nofZ (n * (n - 1))) (Fin f)) (Fin f2)) = Fin (q * q)).
  { unfold sq. xunf. cbn [xmul xsub xlift2]. now rewrite E. }
  rewrite ED. clear ED. cbv zeta.
  replace (@nltb XR (Fin (q * q)) (nofZ 0)) with false by (symmetry; apply xltb_Ff; nra).
  assert (ES : @nsqrt XR (Fin (q * q)) = Fin q) by (xunf; rewrite xsqrt_F by nra; now rewrite sqrt_square).
  rewrite ES. assert (EC : @nadd XR (Fin f1) (@ncopysign XR (Fin q) (Fin f1)) = Fin d).
  { unfold ncopysign, d. xunf. unfold xltb. cbn [xabs xlift1 xopp]. rewrite (Rabs_pos_eq q) by assumption.
    destruct (Rlt_dec f1 0); reflexivity. }
  rewrite EC. replace (@neqb XR (Fin d) (nofZ 0)) with false by (symmetry; apply xeqb_Ff; exact Hd).
  assert (EF : @nsub XR (Fin x) (@ndiv XR (@nmul XR (nofZ n) (Fin f)) (Fin d)) = Fin c).
  { xunf. cbn [xmul xlift2]. rewrite xdiv_F by exact Hd. cbn [xsub xlift2]. now rewrite Hc. }
  rewrite EF. xunf. cbn [xopp xlift1].
  replace (xltb (Fin (- IZR big)) (Fin c)) with true by (symmetry; apply xltb_F; lra).
  replace (xltb (Fin c) (Fin (IZR big))) with true by (symmetry; apply xltb_F; lra). reflexivity.
Qed.

(** A pass with a negative discriminant is skipped. *)
Lemma laguerre_skip x f f1 f2 n :
  IZR ((n - 1) ^ 2) * (f1 * f1) - IZR (n * (n - 1)) * f * f2 < 0 ->
  @der_laguerre_body XR (Fin x) (Fin f) (Fin f1) (Fin f2) n tt = Next tt.
Proof.
  intros H. unfold der_laguerre_body. generalize (10 ^ 300)%Z as big. intros big.
  assert (ED : @nsub XR (@nmul XR (nofZ ((n - 1) ^ 2)) (@sq XR (Fin f1))) (@nmul XR (@nmul XR (nofZ (n * (n - 1))) (Fin f)) (Fin f2))
    = Fin (IZR ((n - 1) ^ 2) * (f1 * f1) - IZR (n * (n - 1)) * f * f2)) by (unfold sq; xunf; reflexivity).
  rewrite ED. replace (@nltb XR (Fin _) (nofZ 0)) with true by (symmetry; apply xltb_F; lra). reflexivity.
Qed.

(** ** Exactness *)

(** The polynomial with a simple zero at [a] and its other [m + 1] zeros at [b]. *)
Definition two_zeros (c a b : R) (m : nat) (x : R) : R := c * (x - a) * (x - b) ^ S m.

Lemma power_derive b n x : is_derive (fun x => (x - b) ^ n) x (INR n * (x - b) ^ Nat.pred n).
Proof.
  eapply rd_eq; [apply (is_derive_pow (fun x => x - b)); rd_step idtac|]. req. ring.
Qed.

Lemma two_zeros_1 c a b m x : Derive (two_zeros c a b m) x = c * (x - b) ^ m * ((x - b) + INR (S m) * (x - a)).
Proof.
  apply is_derive_unique. unfold two_zeros. eapply rd_eq; [rd_step ltac:(idtac; apply power_derive)|]. req.
  change (Nat.pred (S m)) with m. rewrite <- (tech_pow_Rmult (x - b) m). ring.
Qed.

Lemma two_zeros_2 c a b m x :
  (x - b) * Derive (Derive (two_zeros c a b m)) x = c * (x - b) ^ m * (INR (S m) * (2 * (x - b) + INR m * (x - a))).
Proof.
  rewrite (Derive_ext _ (fun x => c * (x - b) ^ m * ((x - b) + INR (S m) * (x - a)))) by (intros; apply two_zeros_1).
  erewrite is_derive_unique; [|rd_step ltac:(idtac; apply power_derive)].
  destruct m as [|m].
  - simpl. ring.
  - change (Nat.pred (S m)) with m. rewrite <- (tech_pow_Rmult (x - b) m), !S_INR. ring.
Qed.

(** Laguerre's method of degree [m + 2] is the one that finds a simple zero [a] at
    once if the other [m + 1] zeros coincide further out on the same side; this
    is what der2011's pass of that degree does, given the values of the function
    and of its first two derivatives. *)
Theorem C58_laguerre_exact : forall (m : nat) (c a b x : R), c <> 0 ->
  (x < a <= b \/ b <= a < x) -> - IZR (10 ^ 300) < a < IZR (10 ^ 300) ->
  let f := two_zeros c a b m in
  @der_laguerre_body XR (Fin x) (Fin (f x)) (Fin (Derive f x)) (Fin (Derive (Derive f) x)) (Z.of_nat (S (S m))) tt = Break (Fin a).
Proof.
  intros m c a b x Hc Hx Ha f. set (u := x - a). set (w := x - b).
  assert (Hw : w <> 0) by (unfold w; lra).
  pose proof (two_zeros_1 c a b m x) as E1. pose proof (two_zeros_2 c a b m x) as E2. fold f u w in E1, E2.
  set (f1 := Derive f x) in *. set (f2 := Derive (Derive f) x) in *. clearbody f1 f2.
  assert (E0 : f x = c * u * (w * w ^ m)) by (unfold f, two_zeros; fold u w; rewrite <- (tech_pow_Rmult w m); ring).
  set (p := w ^ m) in *. assert (Hp : p <> 0) by now apply pow_nonzero. clearbody p.
  set (n := INR m) in *. assert (Hn : 0 <= n) by apply pos_INR. rewrite S_INR in E1, E2. fold n in E1, E2.
  assert (Z1 : IZR ((Z.of_nat (S (S m)) - 1) ^ 2) = (n + 1) * (n + 1)).
  { replace (Z.of_nat (S (S m)) - 1)%Z with (Z.of_nat m + 1)%Z by lia. rewrite Z.pow_2_r, mult_IZR, plus_IZR, <- INR_IZR_INZ. reflexivity. }
  assert (Z2 : IZR (Z.of_nat (S (S m)) * (Z.of_nat (S (S m)) - 1)) = (n + 2) * (n + 1)).
  { replace (Z.of_nat (S (S m)) * (Z.of_nat (S (S m)) - 1))%Z with ((Z.of_nat m + 2) * (Z.of_nat m + 1))%Z by lia. rewrite mult_IZR, !plus_IZR, <- INR_IZR_INZ. reflexivity. }
  assert (Z3 : IZR (Z.of_nat (S (S m))) = n + 2) by (replace (Z.of_nat (S (S m))) with (Z.of_nat m + 2)%Z by lia; rewrite plus_IZR, <- INR_IZR_INZ; reflexivity).
  assert (EP : c * u * (w * p) * f2 = c * u * p * (c * p * ((n + 1) * (2 * w + n * u)))) by (rewrite <- E2; ring).
  assert (S : 0 < w * (w - u) + w * w /\ 0 <= w * (w - u) /\ 0 < w * (w + (n + 1) * u)).
  { assert (0 < u * w) by (unfold u, w; nra). assert (0 <= w * (w - u)) by (unfold u, w; nra). assert (0 <= n * (u * w)) by (apply Rmult_le_pos; lra). split; nra. }
  assert (D : f1 + (if Rlt_dec f1 0 then - Rabs (c * p * (n + 1) * (w - u)) else Rabs (c * p * (n + 1) * (w - u))) = c * p * (n + 2) * w).
  { destruct S as (_ & S1 & S2). assert (W2 : 0 < w * w) by nra. set (g := c * p * w).
    assert (Hg : g <> 0) by (unfold g; repeat apply Rmult_integral_contrapositive_currified; assumption).
    assert (A1 : f1 * (w * w) = g * (w * (w + (n + 1) * u))) by (rewrite E1; unfold g; ring).
    assert (A2 : c * p * (n + 1) * (w - u) * (w * w) = g * ((n + 1) * (w * (w - u)))) by (unfold g; ring).
    assert (S1' : 0 <= (n + 1) * (w * (w - u))) by (apply Rmult_le_pos; lra).
    set (h := c * p * (n + 1) * (w - u)) in *.
    assert (EH : f1 + h = c * p * (n + 2) * w) by (rewrite E1; unfold h; ring).
    rewrite <- EH. f_equal. destruct (Rlt_dec f1 0) as [L|L].
    - assert (g < 0) by (destruct (Rlt_dec g 0) as [|N]; [assumption|exfalso; assert (0 <= g * (w * (w + (n + 1) * u))) by (apply Rmult_le_pos; lra); nra]).
      assert (h <= 0) by (destruct (Rle_dec h 0) as [|N]; [assumption|exfalso; assert (0 < h * (w * w)) by (apply Rmult_lt_0_compat; lra); nra]).
      rewrite Rabs_left1 by assumption. ring.
    - assert (0 < g) by (destruct (Rlt_dec 0 g) as [|N]; [assumption|exfalso; assert (G : g < 0) by lra; assert (g * (w * (w + (n + 1) * u)) < 0) by nra; nra]).
      assert (0 <= h) by (destruct (Rle_dec 0 h) as [|N]; [assumption|exfalso; assert (h * (w * w) < 0) by nra; nra]).
      now rewrite Rabs_pos_eq. }
  assert (ND : c * p * (n + 2) * w <> 0) by (repeat apply Rmult_integral_contrapositive_currified; try assumption; lra).
  apply laguerre_pass with (q := Rabs (c * p * (n + 1) * (w - u))).
  - apply Rabs_pos.
  - rewrite Z1, Z2, E0. rewrite <- Rabs_mult, Rabs_pos_eq by apply Rle_0_sqr.
    transitivity ((n + 1) * (n + 1) * (f1 * f1) - (n + 2) * (n + 1) * (c * u * (w * p) * f2)); [|ring].
    rewrite EP, E1. ring.
  - rewrite D. exact ND.
  - rewrite D, E0, Z3. unfold u. field. repeat split; try assumption; lra.
  - exact Ha.
Qed.
Print Assumptions C58_laguerre_exact.

(** At a zero of the function with non-zero derivative the step stays put. *)
Theorem C58_laguerre_root : forall (x f1 f2 : R), f1 <> 0 -> - IZR (10 ^ 300) < x < IZR (10 ^ 300) ->
  @der_laguerre_step XR (Fin x) (Fin 0) (Fin f1) (Fin f2) = Fin x.
Proof.
  intros x f1 f2 H B. unfold der_laguerre_step. cbn [for_range].
  rewrite (laguerre_pass x 0 f1 f2 2 (Rabs f1) x); [reflexivity|apply Rabs_pos| | | |exact B].
  - rewrite <- Rabs_mult, Rabs_pos_eq by apply Rle_0_sqr. change ((2 - 1) ^ 2)%Z with 1%Z. ring.
  - intros Z. destruct (Rlt_dec f1 0) as [L|L]; [rewrite Rabs_left in Z by assumption|rewrite Rabs_pos_eq in Z by lra]; lra.
  - destruct (Rlt_dec f1 0) as [L|L]; [rewrite Rabs_left by assumption|rewrite Rabs_pos_eq by lra]; field; lra.
Qed.
Print Assumptions C58_laguerre_root.

(** The step takes the smallest usable degree from 2 to 12: a quadratic with real
    zeros on one side of [x] is solved at once. *)
Corollary C58_laguerre_quadratic : forall (c a b x : R), c <> 0 ->
  (x < a <= b \/ b <= a < x) -> - IZR (10 ^ 300) < a < IZR (10 ^ 300) ->
  let f := two_zeros c a b 0 in
  @der_laguerre_step XR (Fin x) (Fin (f x)) (Fin (Derive f x)) (Fin (Derive (Derive f) x)) = Fin a.
Proof.
  intros c a b x Hc Hx Ha f. pose proof (C58_laguerre_exact 0 c a b x Hc Hx Ha) as E. cbv zeta in E. fold f in E.
  unfold der_laguerre_step. cbn [for_range]. change 2%Z with (Z.of_nat 2). now rewrite E.
Qed.
Print Assumptions C58_laguerre_quadratic.

(** If the discriminants of all degrees from 2 to 12 are negative -- the last one
    being so is enough -- the step is the number 2. *)
Theorem C58_laguerre_sentinel : forall (x f f1 f2 : R), 11 * (f1 * f1) < 12 * (f * f2) ->
  @der_laguerre_step XR (Fin x) (Fin f) (Fin f1) (Fin f2) = Fin 2.
Proof.
  intros x f f1 f2 H. unfold der_laguerre_step. cbn [for_range].
  assert (Q : 0 <= f1 * f1) by nra.
  rewrite (laguerre_skip x f f1 f2 2) by (change (IZR ((2 - 1) ^ 2)) with 1; change (IZR (2 * (2 - 1))) with 2; nra).
  change (2 + 1)%Z with 3%Z. rewrite (laguerre_skip x f f1 f2 3) by (change (IZR ((3 - 1) ^ 2)) with 4; change (IZR (3 * (3 - 1))) with 6; nra).
  change (3 + 1)%Z with 4%Z. rewrite (laguerre_skip x f f1 f2 4) by (change (IZR ((4 - 1) ^ 2)) with 9; change (IZR (4 * (4 - 1))) with 12; nra).
  change (4 + 1)%Z with 5%Z. rewrite (laguerre_skip x f f1 f2 5) by (change (IZR ((5 - 1) ^ 2)) with 16; change (IZR (5 * (5 - 1))) with 20; nra).
  change (5 + 1)%Z with 6%Z. rewrite (laguerre_skip x f f1 f2 6) by (change (IZR ((6 - 1) ^ 2)) with 25; change (IZR (6 * (6 - 1))) with 30; nra).
  change (6 + 1)%Z with 7%Z. rewrite (laguerre_skip x f f1 f2 7) by (change (IZR ((7 - 1) ^ 2)) with 36; change (IZR (7 * (7 - 1))) with 42; nra).
  change (7 + 1)%Z with 8%Z. rewrite (laguerre_skip x f f1 f2 8) by (change (IZR ((8 - 1) ^ 2)) with 49; change (IZR (8 * (8 - 1))) with 56; nra).
  change (8 + 1)%Z with 9%Z. rewrite (laguerre_skip x f f1 f2 9) by (change (IZR ((9 - 1) ^ 2)) with 64; change (IZR (9 * (9 - 1))) with 72; nra).
  change (9 + 1)%Z with 10%Z. rewrite (laguerre_skip x f f1 f2 10) by (change (IZR ((10 - 1) ^ 2)) with 81; change (IZR (10 * (10 - 1))) with 90; nra).
  change (10 + 1)%Z with 11%Z. rewrite (laguerre_skip x f f1 f2 11) by (change (IZR ((11 - 1) ^ 2)) with 100; change (IZR (11 * (11 - 1))) with 110; nra).
  change (11 + 1)%Z with 12%Z. rewrite (laguerre_skip x f f1 f2 12) by (change (IZR ((12 - 1) ^ 2)) with 121; change (IZR (12 * (12 - 1))) with 132; nra).
  reflexivity.
Qed.
Print Assumptions C58_laguerre_sentinel.

(** The cubic [(x - 1) (x - 3)^2] seen from 0: the degree-3 pass lands on 1. *)
Example C58_case : @der_laguerre_body XR (Fin 0) (Fin (-9)) (Fin 15) (Fin (-14)) 3 tt = Break (Fin 1).
Proof.
  pose proof (C58_laguerre_exact 1 1 1 3 0 ltac:(lra) ltac:(left; lra)) as E. cbv zeta in E.
  assert (V0 : two_zeros 1 1 3 1 0 = -9) by (unfold two_zeros; simpl; lra).
  assert (V1 : Derive (two_zeros 1 1 3 1) 0 = 15) by (rewrite two_zeros_1; simpl; lra).
  assert (V2 : Derive (Derive (two_zeros 1 1 3 1)) 0 = -14).
  { pose proof (two_zeros_2 1 1 3 1 0) as V. simpl in V. lra. }
  rewrite V0, V1, V2 in E. apply E.
  assert (1 < IZR (10 ^ 300)) by (apply IZR_lt; reflexivity). lra.
Qed.

(** [x^2 + 1] at 0 has no usable degree. *)
Example C58_sentinel_case : @der_laguerre_step XR (Fin 0) (Fin 1) (Fin 0) (Fin 2) = Fin 2.
Proof. apply C58_laguerre_sentinel. lra. Qed.
