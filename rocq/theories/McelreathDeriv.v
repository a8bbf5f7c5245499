(** * The derivatives of mcelreath2025's time equation over the reals. *)
From Coq Require Import Reals ZArith Bool Lra Lia Psatz.
From Coquelicot Require Import Coquelicot.
From Verif Require Import Num XReal XRealLemmas MApi MComplex MMcelreath ComplexXR McelreathXR.
Local Open Scope R_scope.

Ltac cplx_eval := repeat first
  [ rewrite cr_mul | rewrite ci_mul | rewrite cr_ci_mul | rewrite ci_cr_mul | rewrite cr_add | rewrite ci_add | rewrite cr_sub | rewrite ci_sub
  | rewrite cr_opp | rewrite ci_opp | rewrite cr_scale | rewrite ci_scale ].
Ltac step val tac :=
  lazymatch goal with |- (let v := ?e in @?f v) = ?r =>
    let H := fresh in assert (H : e = val) by tac; change (f e = r); rewrite H; clear H; cbv beta end.
Ltac ev := cplx_eval; apply cc_eq; [|reflexivity]; field; repeat split; assumption.

Section Elliptic.
Variables Rs m : R.
Hypothesis Hm : - Rs < 2 * m < Rs.

Let S (x : R) := sin (x / 2).
Let C (x : R) := cos (x / 2).
Let q := mq Rs m.
Definition ea1 (x : R) : R := q x * q x * (2 * C x - m * (q x * q x)) / (2 * S x).
Definition ea2 (x : R) : R := - (1 / 2) * (q x * q x) + (1 / 2 * C x / q x - m * q x) * ea1 x * (q x / S x).
Definition ea3 (x : R) : R :=
  (1 / 4 * m * ((q x / S x) * (q x / S x)) * (m * (q x * q x) - 1 / 2 * C x) - 1 / 2 / q x * (q x / S x) * (1 / 2 * C x / (q x * q x) + m) * ea1 x - 3 / 4) * ea1 x
  + 1 / 2 / q x * (q x / S x) * (C x - 2 * m * (q x * q x)) * ea2 x.
Definition eu3 (x : R) : R := (x - 2 * (S x * C x)) / (q x * q x * q x).
Definition et1 (x : R) : R :=
  ((m * C x + 2 * (S x * S x) / (q x * q x)) * q x - 1 / 2 * (mt Rs m x + 2 * eu3 x) * ea1 x) / (q x * q x).
Definition et2 (x : R) : R :=
  ((- 3 * et1 x + 2 * m * C x / q x) * ea1 x - 3 / 4 * mt Rs m x / (q x * q x) * (ea1 x * ea1 x) + 2 * (S x * C x) / q x
   - 1 / 2 * m * (q x * q x) * (S x / q x) - (1 / 2 * mt Rs m x + eu3 x) * ea2 x) / (q x * q x).
Definition et3 (x : R) : R :=
  ((1 - 2 * (S x * S x)) / q x - 1 / 4 * m * C x * q x
   - ea1 x * (9 / 2 * et2 x + 3 / 2 * m * (S x / q x) + (9 / 4 * et1 x / (q x * q x) - 3 / 8 / (q x * q x * (q x * q x)) * mt Rs m x * ea1 x) * ea1 x)
   + (2 * m * C x / q x - 2 * (S x * S x) / (q x * q x) / q x - 7 / 2 * et1 x + (eu3 x / (q x * q x) - 7 / 4 * mt Rs m x / (q x * q x)) * ea1 x) * ea2 x
   - (1 / 2 * mt Rs m x + eu3 x) * ea3 x) / (q x * q x).

Section At.
Variable x : R.
Hypothesis Hs : sin (x / 2) <> 0.

Lemma my_pos : 0 < my Rs m x.
Proof.
  unfold my. destruct (COS_bound (x / 2)) as [L U]. set (c := cos _) in *. clearbody c.
  destruct (Rle_dec 0 c) as [P|P]; [assert (0 <= (Rs - 2 * m) * c) by (apply Rmult_le_pos; lra)|assert (0 <= (Rs + 2 * m) * - c) by (apply Rmult_le_pos; lra)]; nra.
Qed.

Lemma q_facts : 0 < q x /\ q x * q x = ma Rs m x.
Proof. apply mq_facts; [apply my_pos|assumption]. Qed.

(** [Rs] from the other quantities. *)
Lemma my_q : my Rs m x = 2 * (S x * S x) / (q x * q x).
Proof. destruct q_facts as [_ E]. pose proof my_pos. rewrite E. unfold ma. fold (S x). field. repeat split; (exact Hs || lra). Qed.

Lemma q_deriv : is_derive q x (ea1 x / (2 * q x)).
Proof.
  destruct q_facts as [Q1 Q2]. pose proof my_pos as P. pose proof (ma_pos Rs m x P Hs) as P2.
  unfold q, mq. evar_last.
  - apply (is_derive_comp sqrt (ma Rs m) x); [apply is_derive_Reals, derivable_pt_lim_sqrt; exact P2|].
    unfold ma, my. auto_derive; [|reflexivity]. unfold my in P. intros E0. unfold Rdiv in P. lra.
  - fold (mq Rs m x). fold (q x). unfold scal. cbn. unfold mult. cbn. fold (my Rs m x). unfold ea1, C, S. 
    change (x * / 2) with (x / 2). pose proof my_q as MQ. unfold my in MQ. unfold S in MQ. replace (Rs + - (2 * m * cos (x / 2))) with (Rs - 2 * m * cos (x / 2)) by ring. rewrite MQ.
    set (s := sin (x / 2)) in *. set (c := cos (x / 2)). clearbody s c. field. repeat split; lra || assumption.
Qed.
Lemma q_ex : ex_derive q x. Proof. eexists. exact q_deriv. Qed.
Lemma q_D : Derive q x = ea1 x / (2 * q x). Proof. apply is_derive_unique. exact q_deriv. Qed.
Lemma cs : C x * C x = 1 - S x * S x.
Proof. unfold C, S. pose proof (sin2_cos2 (x / 2)) as E. unfold Rsqr in E. lra. Qed.
End At.

Lemma q_ne x : sin (x / 2) <> 0 -> q x <> 0.
Proof. intros H. destruct (q_facts x H). lra. Qed.

(** Each derivative, with [q] left abstract and [Rs] eliminated. *)
Lemma ea1_deriv x : sin (x / 2) <> 0 -> is_derive ea1 x (ea2 x).
Proof.
  intros H. pose proof (q_ne x H) as Q. pose proof (q_ex x H) as QE. pose proof (q_D x H) as QD. pose proof (cs x) as CS.
  unfold ea1, S, C in *. evar_last.
  - clearbody q. auto_derive; [|reflexivity]. change (x * / 2) with (x / 2). repeat split; try assumption. lra.
  - change (x * / 2) with (x / 2). change (fun x0 : R => q x0) with q. rewrite QD. unfold ea2, ea1, S, C.
    set (s := sin (x / 2)) in *. set (c := cos (x / 2)) in *. set (k := q x) in *. clearbody s c k. clear - H Q CS. field [CS]. split; assumption.
Qed.

Lemma ea2_deriv x : sin (x / 2) <> 0 -> is_derive ea2 x (ea3 x).
Proof.
  intros H. pose proof (q_ne x H) as Q. pose proof (q_ex x H) as QE. pose proof (q_D x H) as QD. pose proof (cs x) as CS.
  pose proof (ea1_deriv x H) as A1. assert (AE : ex_derive ea1 x) by (eexists; exact A1). apply is_derive_unique in A1.
  unfold ea2, S, C in *. evar_last.
  - auto_derive; [|reflexivity]. change (x * / 2) with (x / 2). repeat split; assumption.
  - change (x * / 2) with (x / 2). change (fun x0 : R => q x0) with q. change (fun x0 : R => ea1 x0) with ea1. rewrite QD, A1. unfold ea3, ea2, ea1, S, C.
    set (s := sin (x / 2)) in *. set (c := cos (x / 2)) in *. set (k := q x) in *. clearbody s c k. clear - H Q CS. field [CS]. split; assumption.
Qed.

Lemma mt_S x : mt Rs m x = 2 * m * (S x / q x) + eu3 x.
Proof. unfold mt, eu3, S, C. fold q. now rewrite (sin_half x). Qed.

Lemma eu3_deriv x : sin (x / 2) <> 0 -> is_derive eu3 x ((1 - (C x * C x - S x * S x)) / (q x * q x * q x) - 3 / 2 * eu3 x * ea1 x / (q x * q x)).
Proof.
  intros H. pose proof (q_ne x H) as Q. pose proof (q_ex x H) as QE. pose proof (q_D x H) as QD.
  unfold eu3, S, C in *. evar_last.
  - auto_derive; [|reflexivity]. change (x * / 2) with (x / 2). repeat split; try assumption. repeat apply Rmult_integral_contrapositive_currified; assumption.
  - change (x * / 2) with (x / 2). change (fun x0 : R => q x0) with q. rewrite QD. 
    set (s := sin (x / 2)) in *. set (c := cos (x / 2)) in *. set (k := q x) in *. set (a := ea1 x). clearbody s c k a. field. assumption.
Qed.

Lemma mt_deriv x : sin (x / 2) <> 0 -> is_derive (mt Rs m) x (et1 x).
Proof.
  intros H. pose proof (q_ne x H) as Q. pose proof (q_ex x H) as QE. pose proof (q_D x H) as QD. pose proof (cs x) as CS.
  pose proof (eu3_deriv x H) as A1. assert (AE : ex_derive eu3 x) by (eexists; exact A1). apply is_derive_unique in A1.
  apply (is_derive_ext (fun x => 2 * m * (S x / q x) + eu3 x)); [intros; symmetry; apply mt_S|].
  unfold S in *. evar_last.
  - auto_derive; [|reflexivity]. repeat split; assumption.
  - change (x * / 2) with (x / 2). change (fun x0 : R => q x0) with q. change (fun x0 : R => eu3 x0) with eu3. rewrite QD, A1. unfold et1. rewrite mt_S. unfold C, S in *.
    set (s := sin (x / 2)) in *. set (c := cos (x / 2)) in *. set (k := q x) in *. set (a := ea1 x). set (u := eu3 x). clearbody s c k a u. field [CS]. assumption.
Qed.

Lemma et1_deriv x : sin (x / 2) <> 0 -> is_derive et1 x (et2 x).
Proof.
  intros H. pose proof (q_ne x H) as Q. pose proof (q_ex x H) as QE. pose proof (q_D x H) as QD. pose proof (cs x) as CS.
  pose proof (eu3_deriv x H) as A1. assert (AE : ex_derive eu3 x) by (eexists; exact A1). apply is_derive_unique in A1.
  pose proof (ea1_deriv x H) as A2. assert (AE2 : ex_derive ea1 x) by (eexists; exact A2). apply is_derive_unique in A2.
  pose proof (mt_deriv x H) as A3. assert (AE3 : ex_derive (mt Rs m) x) by (eexists; exact A3). apply is_derive_unique in A3.
  unfold et1, S, C in *. evar_last.
  - auto_derive; [|reflexivity]. repeat split; try assumption; apply Rmult_integral_contrapositive_currified; assumption.
  - change (x * / 2) with (x / 2). change (fun x0 : R => q x0) with q. change (fun x0 : R => eu3 x0) with eu3. change (fun x0 : R => ea1 x0) with ea1. change (fun x0 : R => mt Rs m x0) with (mt Rs m).
    rewrite QD, A1, A2, A3. unfold et2, et1, S, C. rewrite !mt_S. unfold S, C.
    set (s := sin (x / 2)) in *. set (c := cos (x / 2)) in *. set (k := q x) in *. set (a := ea1 x). set (a2 := ea2 x). set (u := eu3 x). clearbody s c k a a2 u. clear - H Q CS. field [CS]. assumption.
Qed.

Lemma et2_deriv x : sin (x / 2) <> 0 -> is_derive et2 x (et3 x).
Proof.
  intros H. pose proof (q_ne x H) as Q. pose proof (q_ex x H) as QE. pose proof (q_D x H) as QD. pose proof (cs x) as CS.
  pose proof (eu3_deriv x H) as A1. assert (AE : ex_derive eu3 x) by (eexists; exact A1). apply is_derive_unique in A1.
  pose proof (ea1_deriv x H) as A2. assert (AE2 : ex_derive ea1 x) by (eexists; exact A2). apply is_derive_unique in A2.
  pose proof (ea2_deriv x H) as A4. assert (AE4 : ex_derive ea2 x) by (eexists; exact A4). apply is_derive_unique in A4.
  pose proof (mt_deriv x H) as A3. assert (AE3 : ex_derive (mt Rs m) x) by (eexists; exact A3). apply is_derive_unique in A3.
  pose proof (et1_deriv x H) as A5. assert (AE5 : ex_derive et1 x) by (eexists; exact A5). apply is_derive_unique in A5.
  unfold et2, S, C in *. evar_last.
  - auto_derive; [|reflexivity]. repeat split; try assumption; apply Rmult_integral_contrapositive_currified; assumption.
  - change (x * / 2) with (x / 2). change (fun x0 : R => q x0) with q. change (fun x0 : R => eu3 x0) with eu3. change (fun x0 : R => ea1 x0) with ea1. change (fun x0 : R => mt Rs m x0) with (mt Rs m).
    change (fun x0 : R => ea2 x0) with ea2. change (fun x0 : R => et1 x0) with et1.
    rewrite QD, A1, A2, A3, A4, A5. unfold et3, et2, et1, S, C. rewrite !mt_S. unfold S, C.
    set (s := sin (x / 2)) in *. set (c := cos (x / 2)) in *. set (k := q x) in *. set (a := ea1 x). set (a2 := ea2 x). set (a3 := ea3 x). set (u := eu3 x). clearbody s c k a a2 a3 u. clear - H Q CS. field [CS]. assumption.
Qed.

(** The code computes these. *)
Lemma mce_full_r x : sin (x / 2) <> 0 ->
  @mce_tof_equation_full XR (cr x) (Fin Rs) (Fin m) = (cr (mt Rs m x), cr (et1 x), cr (et2 x), cr (et3 x)).
Proof.
  intros H. destruct (q_facts x H) as [Q1 Q2]. pose proof (q_ne x H) as Q. pose proof (my_pos x) as P. pose proof (ma_pos Rs m x P H) as P2.
  assert (Hq : ma Rs m x = q x * q x) by now symmetry. pose proof (cs x) as CS.
  assert (L1 : forall n d, @nlit XR n d = Fin (IZR n / IZR (Zpos d))) by reflexivity.
  assert (L2 : forall n, @nofZ XR n = Fin (IZR n)) by reflexivity.
  assert (Lm : forall a b, @nmul XR (Fin a) (Fin b) = Fin (a * b)) by reflexivity.
  assert (Lo : forall a, @nopp XR (Fin a) = Fin (- a)) by reflexivity.
  unfold mce_tof_equation_full. rewrite (mce_alpha_r Rs m x P), mce_half_r, !cr_cos, !cr_sin, Hq. fold (C x) (S x).
  rewrite !L1, !L2, !Lm, !Lo, !creal_F. unfold csq.
  replace (cos x) with (1 - 2 * (S x * S x)) by (unfold S; pose proof (one_minus_cos x); lra). rewrite (sin_half x). fold (C x) (S x).
  unfold S, C in *. set (s := sin (x / 2)) in *. set (c := cos (x / 2)) in *.
  assert (QQ : q x * q x <> 0) by nra. set (k := q x) in *.
  assert (SQ : s * / k <> 0) by (apply Rmult_integral_contrapositive_currified; [assumption|now apply Rinv_neq_0_compat]).
  rewrite !(cr_inv (k * k)) by assumption. rewrite !(cr_sqrt (k * k)) by nra. rewrite !(sqrt_square k) by lra. rewrite !(cr_inv k) by assumption.
  rewrite !(cr_mul s). rewrite !(cr_inv (s * / k)) by assumption.
  assert (X1 : mt Rs m x = 2 * m * (s / k) + eu3 x) by exact (mt_S x).
  assert (X2 : eu3 x = (x - 2 * (s * c)) / (k * k * k)) by reflexivity.
  assert (X3 : @cmul XR (@csub XR (@cmul XR (cr x) (cr (/ k))) (@cmul XR (cr (2 * (s * c))) (cr (/ k)))) (cr (/ (k * k))) = cr (eu3 x)) by (rewrite X2; ev).
  rewrite !X3. rewrite !cr_scale. rewrite !cr_add.
  replace (2 * m * (s * / k) + eu3 x) with (mt Rs m x) by (rewrite X1; field; assumption).
  set (t := mt Rs m x) in *. set (u := eu3 x) in *. clear X2 X3.
  assert (X4 : @cmul XR (@cmul XR (cr (1 / 2 * / (s * / k))) (cr k)) (@csub XR (cr (2 * c)) (cr (m * (k * k)))) = cr (ea1 x))
    by (unfold ea1, S, C; fold s c k; ev).
  rewrite !X4. clear X4.
  assert (X5 : @cadd XR (cr (- (1 / 2) * (k * k))) (@cmul XR (@cmul XR (@csub XR (@cmul XR (cr (1 / 2 * c)) (cr (/ k))) (cr (m * k))) (cr (ea1 x))) (cr (/ (s * / k)))) = cr (ea2 x))
    by (unfold ea2, S, C; fold s c k; ev).
  rewrite !X5. clear X5. cplx_eval.
  apply pair_equal_spec; split; [apply pair_equal_spec; split; [apply pair_equal_spec; split; [reflexivity|]|]|]; apply cc_eq; try reflexivity.
  - unfold et1, S, C. fold s c k t u. field; repeat split; assumption.
  - unfold et2, et1, S, C. fold s c k t u. field; repeat split; assumption.
  - unfold et3, et2, et1, ea3, S, C. fold s c k t u. field; repeat split; assumption.
Qed.
End Elliptic.

(** Along the imaginary axis. *)
Section Hyperbolic.
Variables Rs m : R.

Let S (w : R) := sinh (w / 2).
Let C (w : R) := cosh (w / 2).
Let q := hq Rs m.
Definition ha1 (w : R) : R := q w * q w * (2 * C w + m * (q w * q w)) / (2 * S w).
Definition ha2 (w : R) : R := 1 / 2 * (q w * q w) + (1 / 2 * C w / q w + m * q w) * ha1 w * (q w / S w).
Definition ha3 (w : R) : R :=
  (1 / 4 * m * ((q w / S w) * (q w / S w)) * (m * (q w * q w) + 1 / 2 * C w) + 1 / 2 / S w * ha1 w * (m - 1 / 2 * C w / (q w * q w)) + 3 / 4) * ha1 w
  + 1 / 2 / S w * (C w + 2 * m * (q w * q w)) * ha2 w.
Definition hu3 (w : R) : R := (2 * (S w * C w) - w) / (q w * q w * q w).
Definition ht1 (w : R) : R :=
  ((m * C w + 2 * (S w * S w) / (q w * q w)) * q w - 1 / 2 * (ht Rs m w + 2 * hu3 w) * ha1 w) / (q w * q w).
Definition ht2 (w : R) : R :=
  (- (3 * ht1 w - 2 * m * C w / q w) * ha1 w - 3 / 4 * ht Rs m w / (q w * q w) * (ha1 w * ha1 w) + 2 * (S w * C w) / q w
   + 1 / 2 * m * (q w * q w) * (S w / q w) - (1 / 2 * ht Rs m w + hu3 w) * ha2 w) / (q w * q w).
Definition ht3 (w : R) : R :=
  ((1 + 2 * (S w * S w)) / q w + 1 / 4 * m * C w * q w
   + ha1 w * (- (9 / 2) * ht2 w + 3 / 2 * m * (S w / q w) - (9 / 4 * ht1 w / (q w * q w) - 3 / 8 / (q w * q w * (q w * q w)) * ht Rs m w * ha1 w) * ha1 w)
   - (- 2 * m * C w / q w + 2 * (S w * S w) / (q w * q w) / q w + 7 / 2 * ht1 w + (7 / 4 * ht Rs m w - hu3 w) / (q w * q w) * ha1 w) * ha2 w
   - (1 / 2 * ht Rs m w + hu3 w) * ha3 w) / (q w * q w).

Lemma hcs w : C w * C w = 1 + S w * S w.
Proof.
  unfold C, S, cosh, sinh. assert (E : exp (w / 2) * exp (- (w / 2)) = 1) by (rewrite <- exp_plus, Rplus_opp_r; apply exp_0).
  set (a := exp (w / 2)) in *. set (b := exp (- (w / 2))) in *. clearbody a b. replace 1 with (a * b) at 1. field.
Qed.

Lemma d_sinh w : is_derive S w (C w / 2).
Proof.
  unfold S, C, sinh, cosh. auto_derive; [trivial|]. change (w * / 2) with (w / 2). field.
Qed.
Lemma d_cosh w : is_derive C w (S w / 2).
Proof.
  unfold S, C, sinh, cosh. auto_derive; [trivial|]. change (w * / 2) with (w / 2). field.
Qed.

Section At.
Variable w : R.
Hypothesis Hw : w <> 0.
Hypothesis Hy : 0 < hy Rs m w.

Lemma hs_ne : S w <> 0.
Proof. exact (sinh_nonzero w Hw). Qed.
Lemma hq_f : 0 < q w /\ q w * q w = ha Rs m w.
Proof. now apply hq_facts. Qed.
Lemma hq_ne : q w <> 0.
Proof. destruct hq_f. lra. Qed.
Lemma hy_q : hy Rs m w = 2 * (S w * S w) / (q w * q w).
Proof. destruct hq_f as [_ E]. pose proof hs_ne. rewrite E. unfold ha. fold (S w). field. repeat split; (assumption || lra). Qed.

Lemma hq_deriv : is_derive q w (ha1 w / (2 * q w)).
Proof.
  destruct hq_f as [Q1 Q2]. pose proof (ha_pos Rs m w Hy Hw) as P2. pose proof hs_ne as S0.
  assert (D : is_derive (ha Rs m) w (ha1 w)).
  { apply (is_derive_ext (fun w => 2 * (S w * S w) / (Rs - 2 * m * C w))); [reflexivity|].
    pose proof (d_sinh w) as D1. pose proof (d_cosh w) as D2. assert (X1 : ex_derive S w) by (eexists; exact D1). assert (X2 : ex_derive C w) by (eexists; exact D2).
    apply is_derive_unique in D1, D2. pose proof hy_q as MQ. unfold hy in MQ. fold (C w) in MQ.
    clearbody S C. evar_last.
    - auto_derive; [|reflexivity]. repeat split; try assumption. unfold hy in Hy. change (Rs + - (2 * m * C w)) with (Rs - 2 * m * C w). rewrite MQ. apply Rmult_integral_contrapositive_currified; [nra|]. apply Rinv_neq_0_compat. nra.
    - change (fun x : R => S x) with S. change (fun x : R => C x) with C. rewrite D1, D2. replace (Rs + - (2 * m * C w)) with (Rs - 2 * m * C w) by ring. rewrite MQ. unfold ha1.
      set (s := S w) in *. set (c := C w). set (k := q w) in *. clearbody s c k. field. repeat split; lra || assumption. }
  unfold q, hq. evar_last.
  - apply (is_derive_comp sqrt (ha Rs m) w); [apply is_derive_Reals, derivable_pt_lim_sqrt; exact P2|exact D].
  - fold (hq Rs m w). fold (q w). unfold scal. cbn. unfold mult. cbn. field. lra.
Qed.
End At.

Section Chain.
Variable w : R.
Hypothesis Hw : w <> 0.
Hypothesis Hy : 0 < hy Rs m w.

Ltac known H :=
  let E := fresh "E" in match type of H with is_derive ?f _ _ => assert (E : ex_derive f w) by (eexists; exact H) end; apply is_derive_unique in H.
Ltac etas := repeat match goal with |- context [fun x0 : R => ?f x0] => change (fun x0 : R => f x0) with f end.

Lemma hq_d : is_derive q w (ha1 w / (2 * q w)).
Proof. now apply hq_deriv. Qed.
Lemma hsn : S w <> 0. Proof. now apply hs_ne. Qed.
Lemma hqn : q w <> 0. Proof. now apply hq_ne. Qed.

Lemma ha1_deriv : is_derive ha1 w (ha2 w).
Proof.
  pose proof hq_d as D1. known D1. pose proof (d_sinh w) as D2. known D2. pose proof (d_cosh w) as D3. known D3. pose proof hsn as H. pose proof hqn as Q. pose proof (hcs w) as CS.
  unfold ha1 at 1. evar_last.
  - clearbody S C q. auto_derive; [|reflexivity]. repeat split; try assumption. lra.
  - etas. rewrite D1, D2, D3. unfold ha2, ha1.
    set (s := S w) in *. set (c := C w) in *. set (k := q w) in *. clearbody s c k. clear - H Q CS. field [CS]. split; assumption.
Qed.

Lemma ha2_deriv : is_derive ha2 w (ha3 w).
Proof.
  pose proof hq_d as D1. known D1. pose proof (d_sinh w) as D2. known D2. pose proof (d_cosh w) as D3. known D3. pose proof hsn as H. pose proof hqn as Q. pose proof (hcs w) as CS.
  pose proof ha1_deriv as D4. known D4.
  unfold ha2 at 1. evar_last.
  - auto_derive; [|reflexivity]. repeat split; assumption.
  - etas. rewrite D1, D2, D3, D4. unfold ha3, ha2, ha1.
    set (s := S w) in *. set (c := C w) in *. set (k := q w) in *. clearbody s c k. clear - H Q CS. field [CS]. split; assumption.
Qed.

Lemma ht_S x : ht Rs m x = 2 * m * (S x / q x) + hu3 x.
Proof. unfold ht, hu3, S, C. fold q. now rewrite (sinh_half x). Qed.

Lemma hu3_deriv : is_derive hu3 w ((C w * C w + S w * S w - 1) / (q w * q w * q w) - 3 / 2 * hu3 w * ha1 w / (q w * q w)).
Proof.
  pose proof hq_d as D1. known D1. pose proof (d_sinh w) as D2. known D2. pose proof (d_cosh w) as D3. known D3. pose proof hsn as H. pose proof hqn as Q.
  unfold hu3 at 1. evar_last.
  - auto_derive; [|reflexivity]. repeat split; try assumption. repeat apply Rmult_integral_contrapositive_currified; assumption.
  - etas. rewrite D1, D2, D3. unfold hu3.
    set (s := S w) in *. set (c := C w) in *. set (k := q w) in *. set (a := ha1 w). clearbody s c k a. field. assumption.
Qed.

Lemma ht_deriv : is_derive (ht Rs m) w (ht1 w).
Proof.
  pose proof hq_d as D1. known D1. pose proof (d_sinh w) as D2. known D2. pose proof (d_cosh w) as D3. known D3. pose proof hsn as H. pose proof hqn as Q. pose proof (hcs w) as CS.
  pose proof hu3_deriv as D4. known D4.
  apply (is_derive_ext (fun x => 2 * m * (S x / q x) + hu3 x)); [intros; symmetry; apply ht_S|]. evar_last.
  - auto_derive; [|reflexivity]. repeat split; assumption.
  - etas. rewrite D1, D2, D4. unfold ht1. rewrite ht_S.
    set (s := S w) in *. set (c := C w) in *. set (k := q w) in *. set (a := ha1 w). set (u := hu3 w). clearbody s c k a u. clear - H Q CS. field [CS]. assumption.
Qed.

Lemma ht1_deriv : is_derive ht1 w (ht2 w).
Proof.
  pose proof hq_d as D1. known D1. pose proof (d_sinh w) as D2. known D2. pose proof (d_cosh w) as D3. known D3. pose proof hsn as H. pose proof hqn as Q. pose proof (hcs w) as CS.
  pose proof hu3_deriv as D4. known D4. pose proof ha1_deriv as D5. known D5. pose proof ht_deriv as D6. known D6.
  unfold ht1 at 1. evar_last.
  - auto_derive; [|reflexivity]. repeat split; try assumption; apply Rmult_integral_contrapositive_currified; assumption.
  - etas. rewrite D1, D2, D3, D4, D5, D6. unfold ht2, ht1. rewrite !ht_S.
    set (s := S w) in *. set (c := C w) in *. set (k := q w) in *. set (a := ha1 w). set (a2 := ha2 w). set (u := hu3 w). clearbody s c k a a2 u. clear - H Q CS. field [CS]. assumption.
Qed.

Lemma ht2_deriv : is_derive ht2 w (ht3 w).
Proof.
  pose proof hq_d as D1. known D1. pose proof (d_sinh w) as D2. known D2. pose proof (d_cosh w) as D3. known D3. pose proof hsn as H. pose proof hqn as Q. pose proof (hcs w) as CS.
  pose proof hu3_deriv as D4. known D4. pose proof ha1_deriv as D5. known D5. pose proof ht_deriv as D6. known D6. pose proof ha2_deriv as D7. known D7. pose proof ht1_deriv as D8. known D8.
  unfold ht2 at 1. evar_last.
  - auto_derive; [|reflexivity]. repeat split; try assumption; apply Rmult_integral_contrapositive_currified; assumption.
  - etas. rewrite D1, D2, D3, D4, D5, D6, D7, D8. unfold ht3, ht2, ht1. rewrite !ht_S.
    set (s := S w) in *. set (c := C w) in *. set (k := q w) in *. set (a := ha1 w). set (a2 := ha2 w). set (a3 := ha3 w). set (u := hu3 w). clearbody s c k a a2 a3 u. clear - H Q CS. field [CS]. assumption.
Qed.

(** The code computes these, times the powers of the imaginary unit the chain
    rule asks for: for a function [f] real on the imaginary axis,
    [f'(i w) = - i d/dw f(i w)]. *)
Lemma mce_full_i :
  @mce_tof_equation_full XR (ci w) (Fin Rs) (Fin m) = (cr (ht Rs m w), ci (- ht1 w), cr (- ht2 w), ci (ht3 w)).
Proof.
  pose proof hsn as H. destruct (hq_f w Hw Hy) as [Q1 Q2]. pose proof hqn as Q. pose proof (ha_pos Rs m w Hy Hw) as P2.
  assert (Hq : ha Rs m w = q w * q w) by now symmetry. pose proof (hcs w) as CS.
  assert (L1 : forall n d, @nlit XR n d = Fin (IZR n / IZR (Zpos d))) by reflexivity.
  assert (L2 : forall n, @nofZ XR n = Fin (IZR n)) by reflexivity.
  assert (Lm : forall a b, @nmul XR (Fin a) (Fin b) = Fin (a * b)) by reflexivity.
  assert (Lo : forall a, @nopp XR (Fin a) = Fin (- a)) by reflexivity.
  unfold mce_tof_equation_full. rewrite (mce_alpha_i Rs m w Hy), mce_half_i, !ci_cos, !ci_sin, Hq. fold (C w) (S w).
  rewrite !L1, !L2, !Lm, !Lo, !creal_F. unfold csq.
  replace (cosh w) with (1 + 2 * (S w * S w)) by (unfold S; pose proof (cosh_half w); lra). rewrite (sinh_half w). fold (C w) (S w).
  set (s := S w) in *. set (c := C w) in *.
  assert (QQ : q w * q w <> 0) by nra. set (k := q w) in *. assert (QN : - (k * k) <> 0) by nra.
  rewrite !(cr_inv (- (k * k))) by assumption. rewrite !(cr_sqrt_neg (- (k * k))) by nra. rewrite !Ropp_involutive. rewrite !(sqrt_square k) by lra. rewrite !(ci_inv k) by assumption.
  rewrite !(ci_mul s). replace (- (s * - / k)) with (s * / k) by ring.
  assert (SQ : s * / k <> 0) by (apply Rmult_integral_contrapositive_currified; [assumption|now apply Rinv_neq_0_compat]).
  rewrite !(cr_inv (s * / k)) by assumption.
  assert (X1 : ht Rs m w = 2 * m * (s / k) + hu3 w) by exact (ht_S w).
  assert (X3 : @cmul XR (@csub XR (@cmul XR (ci w) (ci (- / k))) (@cmul XR (ci (2 * (s * c))) (ci (- / k)))) (cr (/ - (k * k))) = cr (hu3 w))
    by (unfold hu3; fold s c k; ev).
  rewrite !X3. rewrite !cr_scale. rewrite !cr_add.
  replace (2 * m * (s * / k) + hu3 w) with (ht Rs m w) by (rewrite X1; field; assumption).
  set (t := ht Rs m w) in *. set (u := hu3 w) in *. clear X3.
  assert (X4 : @cmul XR (@cmul XR (cr (1 / 2 * / (s * / k))) (ci k)) (@csub XR (cr (2 * c)) (cr (m * - (k * k)))) = ci (ha1 w))
    by (unfold ha1; fold s c k; cplx_eval; apply cc_eq; [reflexivity|]; field; repeat split; assumption).
  rewrite !X4. clear X4.
  assert (X5 : @cadd XR (cr (- (1 / 2) * - (k * k))) (@cmul XR (@cmul XR (@csub XR (@cmul XR (cr (1 / 2 * c)) (ci (- / k))) (@cscale XR (Fin m) (ci k))) (ci (ha1 w))) (cr (/ (s * / k)))) = cr (ha2 w))
    by (unfold ha2; fold s c k; ev).
  rewrite !X5. clear X5. cplx_eval.
  apply pair_equal_spec; split; [apply pair_equal_spec; split; [apply pair_equal_spec; split; [reflexivity|]|]|]; apply cc_eq; try reflexivity.
  - unfold ht1. fold s c k t u. field; repeat split; assumption.
  - unfold ht2, ht1. fold s c k t u. field; repeat split; assumption.
  - unfold ht3, ht2, ht1, ha3. fold s c k t u. field; repeat split; assumption.
Qed.
End Chain.
End Hyperbolic.
