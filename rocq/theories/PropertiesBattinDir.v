(** * C12 for battin1984: the requested direction is honoured. *)
From Coq Require Import Reals ZArith String List Bool Lra Lia Psatz.
From Verif Require Import Num XReal XRealLemmas MApi ApiFacts MScipy MLinalg MAssertions MAngles MBattin MInit
  Loops Spec VecFacts VecXR AnglesXR CallXR PropertiesAngles PropertiesMotion
  Godal GodalXR GodalIzzo GodalMore OrbitXR PropertiesOrbit.
Local Open Scope R_scope.

(** ** The continued fraction of battin.py:456-518

    Its coefficients are bounded by [a_n (1 - b_n)] and [b_n (1 - a_(n+1))] for
    the parameters below, so that every convergent is at most 3/2 for
    [0 <= u <= 1]. *)
Definition par_a (n : Z) : R := IZR (6 * n - 1) / IZR (3 * (4 * n - 1)).
Definition par_b (n : Z) : R := IZR (6 * n + 1) / IZR (3 * (4 * n + 1)).

Lemma par_facts n : (1 <= n)%Z -> 0 < par_a n < 1 /\ 0 < par_b n < 1.
Proof.
  intros H. unfold par_a, par_b. apply IZR_le in H. rewrite !mult_IZR, !minus_IZR, !plus_IZR, !mult_IZR. set (x := IZR n) in *. clearbody x.
  assert (G : forall a b, 0 < a < b -> 0 < a / b < 1).
  { intros a b Hab. split; [apply Rdiv_lt_0_compat; lra|]. apply (Rmult_lt_reg_r b); [lra|]. replace (a / b * b) with a by (field; lra). lra. }
  split; apply G; lra.
Qed.

Lemma par_1 : 4 / 27 = 1 / 3 * (1 - par_a 1).
Proof. unfold par_a. simpl. field. Qed.

Lemma par_gamma1 n : (1 <= n)%Z ->
  IZR (2 * (3 * n + 1) * (6 * n - 1)) / IZR (9 * (4 * n - 1) * (4 * n + 1)) = par_a n * (1 - par_b n).
Proof.
  intros H. unfold par_a, par_b. apply IZR_le in H. repeat rewrite ?mult_IZR, ?minus_IZR, ?plus_IZR. field. lra.
Qed.
Lemma par_gamma2 n : (1 <= n)%Z ->
  IZR (2 * (3 * n + 2) * (6 * n + 1)) / IZR (9 * (4 * n + 1) * (4 * n + 3)) = par_b n * (1 - par_a (n + 1)).
Proof.
  intros H. unfold par_a, par_b. apply IZR_le in H. repeat rewrite ?mult_IZR, ?minus_IZR, ?plus_IZR. field. lra.
Qed.

(** [sigma] plus what the remaining passes can still add is at most 3/2. *)
Definition K_inv (t d u0 s : R) : Prop :=
  0 < d /\ 0 <= u0 /\ 0 <= s /\ d * t < 1 /\ s + u0 * (d * t / (1 - d * t)) <= 3 / 2.

Lemma K_step_inv t t' g u d u0 s : 0 <= u <= 1 -> 0 < g -> 0 < t -> 0 < t' < 1 -> g = t * (1 - t') -> K_inv t d u0 s ->
  exists d' u0' s', @bat_K_step XR (Fin g) (Fin u) (Fin d, Fin u0, Fin s) = (Fin d', Fin u0', Fin s') /\ K_inv t' d' u0' s'.
Proof.
  intros Hu Hg Ht Ht' -> (Hd & H0 & Hs & Hdt & HS). unfold bat_K_step. xunf. cbn [xmul xadd xsub xlift1 xlift2].
  set (g := t * (1 - t')) in *. set (k := g * u * d).
  assert (K0 : 0 <= k) by (unfold k; apply Rmult_le_pos; [apply Rmult_le_pos; lra|lra]).
  assert (K1 : k <= d * t * (1 - t')).
  { unfold k, g. replace (t * (1 - t') * u * d) with (d * t * (1 - t') * u) by ring.
    assert (0 < d * t * (1 - t')) by (apply Rmult_lt_0_compat; [apply Rmult_lt_0_compat|]; lra). nra. }
  assert (T0 : 0 < d * t) by now apply Rmult_lt_0_compat.
  assert (K2 : k + t' < 1) by (assert (d * t * (1 - t') < 1 * (1 - t')) by (apply Rmult_lt_compat_r; lra); lra).
  assert (NZ : 1 - k <> 0) by lra. rewrite xdiv_F by exact NZ. cbn [xmul xadd xsub xlift1 xlift2]. fold k.
  eexists _, _, _. split; [reflexivity|]. clearbody k.
  assert (D1 : 1 / (1 - k) - 1 = k / (1 - k)) by (field; lra). rewrite D1.
  assert (Q : 0 <= k / (1 - k)) by (unfold Rdiv; apply Rmult_le_pos; [lra|apply Rlt_le, Rinv_0_lt_compat; lra]).
  assert (P : 0 < 1 / (1 - k)) by (apply Rdiv_lt_0_compat; lra).
  repeat split.
  - exact P.
  - apply Rmult_le_pos; assumption.
  - assert (0 <= u0 * (k / (1 - k))) by (apply Rmult_le_pos; assumption). lra.
  - apply (Rmult_lt_reg_r (1 - k)); [lra|]. replace (1 / (1 - k) * t' * (1 - k)) with t' by (field; lra). lra.
  - apply Rle_trans with (s + u0 * (d * t / (1 - d * t))); [|exact HS].
    replace (s + u0 * (k / (1 - k)) + u0 * (k / (1 - k)) * (1 / (1 - k) * t' / (1 - 1 / (1 - k) * t'))) with (s + u0 * (k / (1 - k - t'))) by (field; repeat split; lra).
    apply Rplus_le_compat_l, Rmult_le_compat_l; [exact H0|].
    apply (Rmult_le_reg_r ((1 - k - t') * (1 - d * t))); [apply Rmult_lt_0_compat; lra|].
    replace (k / (1 - k - t') * ((1 - k - t') * (1 - d * t))) with (k * (1 - d * t)) by (field; lra).
    replace (d * t / (1 - d * t) * ((1 - k - t') * (1 - d * t))) with (d * t * (1 - k - t')) by (field; lra). lra.
Qed.

Lemma K_loop_inv u k : 0 <= u <= 1 -> forall n d u0 s,
  (n = 0%Z /\ K_inv (1 / 3) d u0 s \/ (1 <= n)%Z /\ K_inv (par_a n) d u0 s) ->
  exists r, @bat_K_loop XR k n (Fin u) (Fin d, Fin u0, Fin s) = Fin r /\ 0 <= r <= 3 / 2.
Proof.
  intros Hu. assert (EN : forall t d u0 s, 0 < t -> K_inv t d u0 s -> 0 <= s <= 3 / 2).
  { intros t d u0 s Ht (A & B & C & D & E). split; [lra|].
    assert (0 <= u0 * (d * t / (1 - d * t))); [|lra]. apply Rmult_le_pos; [exact B|]. unfold Rdiv.
    apply Rmult_le_pos; [apply Rlt_le, Rmult_lt_0_compat; assumption|apply Rlt_le, Rinv_0_lt_compat; lra]. }
  induction k as [|k IH]; intros n d u0 s H.
  - exists s. split; [reflexivity|]. destruct H as [[_ H]|[L H]]; [apply (EN (1 / 3) d u0 s); [lra|exact H]|].
    apply (EN (par_a n) d u0 s); [apply (par_facts n L)|exact H].
  - cbn [bat_K_loop]. destruct (nltb _ _).
    + destruct H as [[-> H]|[L H]].
      * cbn [Z.eqb]. replace (@ndiv XR (nofZ 4) (nofZ 27)) with (Fin (4 / 27)) by (symmetry; apply xdiv_F; lra).
        destruct (par_facts 1 ltac:(lia)) as [A1 _].
        destruct (K_step_inv (1 / 3) (par_a 1) (4 / 27) u d u0 s Hu ltac:(lra) ltac:(lra) A1 par_1 H) as (d' & u' & s' & -> & H').
        apply IH. right. split; [lia|exact H'].
      * destruct (Z.eqb_spec n 0) as [Z|_]; [lia|].
        destruct (par_facts n L) as [A B]. destruct (par_facts (n + 1) ltac:(lia)) as [A' _].
        assert (G1 : @ndiv XR (nofZ (2 * (3 * n + 1) * (6 * n - 1))) (nofZ (9 * (4 * n - 1) * (4 * n + 1))) = Fin (par_a n * (1 - par_b n))).
        { rewrite <- (par_gamma1 n L). apply xdiv_F. apply not_0_IZR. nia. }
        assert (G2 : @ndiv XR (nofZ (2 * (3 * n + 2) * (6 * n + 1))) (nofZ (9 * (4 * n + 1) * (4 * n + 3))) = Fin (par_b n * (1 - par_a (n + 1)))).
        { rewrite <- (par_gamma2 n L). apply xdiv_F. apply not_0_IZR. nia. }
        rewrite G1, G2.
        destruct (K_step_inv (par_a n) (par_b n) (par_a n * (1 - par_b n)) u d u0 s Hu ltac:(apply Rmult_lt_0_compat; lra) ltac:(lra) B eq_refl H) as (d1 & u1 & s1 & -> & H1).
        destruct (K_step_inv (par_b n) (par_a (n + 1)) (par_b n * (1 - par_a (n + 1))) u d1 u1 s1 Hu ltac:(apply Rmult_lt_0_compat; lra) ltac:(lra) A' eq_refl H1) as (d2 & u2 & s2 & -> & H2).
        apply IH. right. split; [lia|exact H2].
    + exists s. split; [reflexivity|]. destruct H as [[_ H]|[L H]]; [apply (EN (1 / 3) d u0 s); [lra|exact H]|].
      apply (EN (par_a n) d u0 s); [apply (par_facts n L)|exact H].
Qed.

(** [1 - 2 u K(u)] is positive for every [u <= 1]. *)
Lemma K_bound u k : u <= 1 -> @bat_K_at_u XR (Fin u) = Fin k -> 1 / 2 <= 1 - 2 * u * k.
Proof.
  intros Hu. unfold bat_K_at_u. generalize 1001%nat as n. intros n H.
  assert (E : exists r, @bat_K_loop XR n 0 (Fin u) (Fin 1, Fin 1, Fin 1) = Fin r /\ k = r / 3 * (r / 3)).
  { match type of H with context [@bat_K_loop XR ?a ?b ?c ?d] => destruct (@bat_K_loop XR a b c d) as [r|] eqn:E end; [|discriminate H].
    exists r. split; [exact E|]. clear E. unfold sq in H. xunf. rewrite xdiv_F in H by lra. cbn [xmul xlift2] in H. injection H as <-. reflexivity. }
  destruct E as (r & E & ->). clear H. destruct (Rle_dec 0 u) as [U|U].
  - destruct (K_loop_inv u n (conj U Hu) 0 1 1 1) as (r' & E' & Hr).
    { left. split; [reflexivity|]. unfold K_inv. repeat split; lra. }
    rewrite E' in E. injection E as ->.
    assert (0 <= r / 3 <= 1 / 2) by lra. assert (r / 3 * (r / 3) <= 1 / 4) by nra. nra.
  - assert (0 <= r / 3 * (r / 3)) by nra. nra.
Qed.

(** ** One pass *)
Definition xi_val (s : R) : R := (s + 1) * (51 * s + 19) / (4 * (5 * s + 2)).

Lemma xi_F x : -1 < x -> @bat_xi_at_x XR (Fin x) = Fin (xi_val (sqrt (1 + x))).
Proof.
  intros H. unfold bat_xi_at_x, sq. assert (X : 0 < 1 + x) by lra. pose proof (sqrt_lt_R0 _ X) as S1. pose proof (sqrt_sqrt _ (Rlt_le _ _ X)) as S2. 
  xunf. cbn [xmul xadd xsub xlift1 xlift2]. rewrite xsqrt_F by lra. set (s := sqrt (1 + x)) in *. cbn [xmul xadd xsub xlift1 xlift2]. rewrite xdiv_F by nra.
  assert (EE : x / ((s + 1) * (s + 1)) = (s - 1) / (s + 1)) by (replace x with (s * s - 1) by lra; field; lra). rewrite EE. set (e := (s - 1) / (s + 1)).
  assert (L : @bat_xi_loop XR 125 1 (Fin e) (Fin 0) (Fin 1) (Fin 1) = Fin 1).
  { change 125%nat with (S (S 123)). generalize 123%nat as k. intros k. cbn [bat_xi_loop]. xunf. cbn [xabs xlift1]. rewrite Rabs_R1.
    replace (xltb (Fin (1 / 1000000000000000000)) (Fin 1)) with true by (symmetry; apply xltb_F; lra).
    cbn [xmul xadd xsub xlift1 xlift2]. rewrite xdiv_F by (simpl; lra). cbn [xmul xadd xsub xlift1 xlift2].
    rewrite xdiv_F by lra. cbn [xmul xadd xsub xlift1 xlift2]. rewrite Rmult_0_r, Rplus_0_r. replace (1 * (1 / 1 - 1)) with 0 by field.
    change (xabs (Fin 0)) with (Fin (Rabs 0)). rewrite Rabs_R0. replace (xltb (Fin (1 / 1000000000000000000)) (Fin 0)) with false by (symmetry; apply xltb_Ff; lra).
    rewrite Rplus_0_r. reflexivity. }
  rewrite L. cbn [xmul xadd xsub xlift1 xlift2]. rewrite xdiv_F by lra. cbn [xmul xadd xsub xlift1 xlift2].
  assert (E1 : 5 + e + 9 * e / 7 * 1 = (51 * s + 19) / (7 * (s + 1))) by (unfold e; field; lra). rewrite E1.
  assert (E0 : 0 < (51 * s + 19) / (7 * (s + 1))) by (apply Rdiv_lt_0_compat; lra).
  rewrite xdiv_F by lra. cbn [xmul xadd xsub xlift1 xlift2].
  assert (E2 : 3 + 1 / ((51 * s + 19) / (7 * (s + 1))) = 32 * (5 * s + 2) / (51 * s + 19)) by (field; lra). rewrite E2.
  assert (0 < 32 * (5 * s + 2) / (51 * s + 19)) by (apply Rdiv_lt_0_compat; lra).
  rewrite xdiv_F by lra. f_equal. unfold xi_val. field. lra.
Qed.

Lemma h_F x ll m : -1 < x -> 0 < 1 + 2 * x + ll -> exists h1 h2, @bat_h_coefficients XR (Fin x) (Fin ll) (Fin m) = (Fin h1, Fin h2) /\ 0 <= h1.
Proof.
  intros Hx Hl. assert (X : 0 < 1 + x) by lra. pose proof (sqrt_lt_R0 _ X) as S1. pose proof (sqrt_sqrt _ (Rlt_le _ _ X)) as S2.
  unfold bat_h_coefficients, sq. rewrite xi_F by exact Hx. set (s := sqrt (1 + x)) in *. set (xi := xi_val s).
  assert (D : 0 < 4 * (5 * s + 2)) by lra.
  assert (XV : xi * (4 * (5 * s + 2)) = (s + 1) * (51 * s + 19)) by (unfold xi, xi_val; field; lra).
  assert (Q1 : 0 < 4 * x + xi * (3 + x)).
  { replace x with (s * s - 1) by lra. apply (Rmult_lt_reg_r (4 * (5 * s + 2))); [exact D|]. rewrite Rmult_0_l.
    replace ((4 * (s * s - 1) + xi * (3 + (s * s - 1))) * (4 * (5 * s + 2))) with (4 * (s * s - 1) * (4 * (5 * s + 2)) + xi * (4 * (5 * s + 2)) * (2 + s * s)) by ring.
    rewrite XV. replace (4 * (s * s - 1) * (4 * (5 * s + 2)) + (s + 1) * (51 * s + 19) * (2 + s * s)) with (6 + 60 * s + 153 * (s * s) + 150 * (s * (s * s)) + 51 * (s * s * (s * s))) by ring.
    assert (0 < s * s) by now apply Rmult_lt_0_compat. assert (0 < s * (s * s)) by now apply Rmult_lt_0_compat. assert (0 < s * s * (s * s)) by now apply Rmult_lt_0_compat. lra. }
  assert (Q2 : 0 < 1 + 3 * x + xi).
  { replace x with (s * s - 1) by lra. apply (Rmult_lt_reg_r (4 * (5 * s + 2))); [exact D|]. rewrite Rmult_0_l.
    replace ((1 + 3 * (s * s - 1) + xi) * (4 * (5 * s + 2))) with ((3 * (s * s) - 2) * (4 * (5 * s + 2)) + xi * (4 * (5 * s + 2))) by ring. rewrite XV.
    replace ((3 * (s * s) - 2) * (4 * (5 * s + 2)) + (s + 1) * (51 * s + 19)) with (3 + 30 * s + 75 * (s * s) + 60 * (s * (s * s))) by ring.
    assert (0 < s * s) by now apply Rmult_lt_0_compat. assert (0 < s * (s * s)) by now apply Rmult_lt_0_compat. lra. }
  clearbody xi. xunf. cbn [xmul xadd xsub xlift1 xlift2].
  assert (HD : 0 < (1 + 2 * x + ll) * (4 * x + xi * (3 + x))) by now apply Rmult_lt_0_compat.
  rewrite !xdiv_F by lra. eexists _, _. split; [reflexivity|]. unfold Rdiv. apply Rmult_le_pos; [|apply Rlt_le, Rinv_0_lt_compat; exact HD].
  apply Rmult_le_pos; [apply Rle_0_sqr|lra].
Qed.

(** [y] is positive. *)
Lemma second_pos h1 h2 y : 0 <= h1 ->
  @battin_second_equation XR (@bat_u_at_h XR (Fin h1) (Fin h2)) (Fin h1) (Fin h2) = Fin y -> 0 < y.
Proof.
  intros H1 H. unfold battin_second_equation in H. unfold bat_u_at_h, bat_u_at_B in H.
  assert (EB : exists B, @bat_B_at_h XR (Fin h1) (Fin h2) = Fin B).
  { unfold bat_B_at_h, cube. xunf. cbn [xmul xadd xlift2]. rewrite xdiv_F; [eexists; reflexivity|].
    assert (0 < (1 + h1) * (1 + h1) * (1 + h1)) by (repeat apply Rmult_lt_0_compat; lra). lra. }
  destruct EB as (B & EB). rewrite EB in H. xunf. cbn [xmul xadd xsub xopp xlift1 xlift2] in H.
  destruct (Rle_dec 0 (B + 1)) as [LB|LB].
  2:{ exfalso. revert H. replace (xsqrt (Fin (B + 1))) with NaN.
      - assert (N0 : forall d, xdiv NaN d = NaN) by (intros []; reflexivity). assert (N1 : forall d, xmul d NaN = NaN) by (intros []; reflexivity).
        rewrite N0, N1. discriminate.
      - symmetry. unfold xsqrt, xpart1. destruct (Rle_dec 0 (B + 1)); [contradiction|reflexivity]. }
  rewrite (xsqrt_F (1 + B)), (xsqrt_F (B + 1)) in H by lra. rewrite (Rplus_comm 1 B) in H.
  pose proof (sqrt_pos (B + 1)) as W0. pose proof (sqrt_sqrt _ LB) as W2. set (w := sqrt (B + 1)) in *. clearbody w.
  cbn [xmul xadd xsub xopp xlift1 xlift2] in H. rewrite (xdiv_F (- B)) in H by lra. set (u := - B / (2 * w + 1)) in H.
  assert (U : u <= 1).
  { unfold u. apply (Rmult_le_reg_r (2 * w + 1)); [lra|]. replace (- B / (2 * w + 1) * (2 * w + 1)) with (- B) by (field; lra). lra. }
  clearbody u. destruct (@bat_K_at_u XR (Fin u)) as [k|] eqn:EK.
  2:{ exfalso. revert H. cbn [xmul xsub xlift2].
      assert (N0 : forall d, xdiv d NaN = NaN) by (intros []; reflexivity). assert (N1 : forall d, xmul d NaN = NaN) by (intros []; reflexivity).
      rewrite N0. cbn [xadd xlift2]. rewrite N1. discriminate. }
  pose proof (K_bound u k U EK) as KB. cbn [xmul xadd xsub xlift2] in H. rewrite (xdiv_F (1 + h1)) in H by lra. rewrite xdiv_F in H by lra.
  cbn [xmul xadd xsub xlift2] in H. injection H as <-.
  assert (0 <= w / (1 - 2 * u * k)) by (unfold Rdiv; apply Rmult_le_pos; [lra|apply Rlt_le, Rinv_0_lt_compat; lra]).
  apply Rmult_lt_0_compat; lra.
Qed.

(** The new [x] stays in the domain. *)
Lemma first_domain y ll m x : 0 < m -> @battin_first_equation XR y (Fin ll) (Fin m) = Fin x ->
  (exists yr, y = Fin yr) /\ -1 < x /\ 0 < 1 + 2 * x + ll.
Proof.
  intros Hm H. destruct y as [yr|].
  2:{ exfalso. revert H. unfold battin_first_equation, sq. xunf. cbn [xmul xsub xlift2]. rewrite (xdiv_F (1 - ll)) by lra. discriminate. }
  split; [eexists; reflexivity|].
  unfold battin_first_equation, sq in H. xunf. cbn [xmul xadd xsub xlift2] in H. rewrite (xdiv_F (1 - ll)), (xdiv_F (1 + ll)) in H by lra.
  cbn [xmul xlift2] in H. destruct (Req_EM_T (yr * yr) 0) as [Z|Z].
  { exfalso. revert H. unfold xdiv at 1. destruct (Req_EM_T (yr * yr) 0); [discriminate|contradiction]. }
  assert (Y : 0 < yr * yr) by (pose proof (Rle_0_sqr yr) as Q; unfold Rsqr in Q; lra).
  assert (MY : 0 < m / (yr * yr)) by now apply Rdiv_lt_0_compat. rewrite xdiv_F in H by lra. cbn [xmul xadd xsub xlift2] in H.
  set (h := (1 - ll) / 2) in *. assert (HH : 0 <= h * h) by apply Rle_0_sqr. assert (HP : 0 < h * h + m / (yr * yr)) by lra. rewrite xsqrt_F in H by lra. cbn [xsub xlift2] in H.
  assert (L : Rabs h < sqrt (h * h + m / (yr * yr))) by (rewrite <- sqrt_Rsqr_abs; change (Rsqr h) with (h * h); apply sqrt_lt_1; [exact HH|apply Rlt_le, HP|lra]).
  pose proof (Rle_abs (- h)) as L'. rewrite Rabs_Ropp in L'. pose proof (sqrt_lt_R0 _ HP). set (w := sqrt (h * h + m / (yr * yr))) in *. clearbody w.
  injection H as <-. unfold h in *. split; lra.
Qed.

(** ** C12 *)
Local Opaque bat_K_at_u bat_xi_at_x battin_second_equation battin_first_equation bat_h_coefficients.

Lemma battin_returns_godal mu p r1 r2 tof M l mi at_ rt f o v1 v2 clock : non_collinear r1 r2 -> delivers o v1 v2 ->
  @battin1984 XR clock (call mu r1 r2 tof M p l mi at_ rt f) = Ok o -> godal mu p r1 r2 v1 v2.
Proof.
  intros Hn D H. unfold battin1984 in H. enter H. rewrite semiper_F in H.
  destruct (transfer_angle r1 r2 p Hn) as (th & ET & F). rewrite ET in H.
  destruct (bat_lambda_F p r1 r2 th Hn F) as (lm & EL & LF & Lr).
  unfold chord in EL. rewrite EL in H.
  destruct (semiper_pos r1 r2 Hn) as [Hs _].
  rewrite bat_m_F in H by (try assumption; apply Lr).
  set (m := 8 * mu * (tof * tof) / (semiper r1 r2 * semiper r1 r2 * semiper r1 r2 * (1 + lm) ^ 6)) in *.
  assert (Hm : 0 < m).
  { unfold m. apply Rdiv_lt_0_compat.
    - apply Rmult_lt_0_compat; [lra|]. now apply Rmult_lt_0_compat.
    - apply Rmult_lt_0_compat; [exact (Rmult_lt_0_compat _ _ (Rmult_lt_0_compat _ _ Hs Hs) Hs)|]. apply pow_lt. lra. }
  assert (ELL : exists ll, @bat_ll XR (Fin lm) = Fin ll /\ 0 < ll).
  { unfold bat_ll, sq. xunf. cbn [xsub xadd xlift2]. rewrite xdiv_F by lra. cbn [xmul xlift2]. eexists. split; [reflexivity|].
    assert (0 < (1 - lm) / (1 + lm)) by (apply Rdiv_lt_0_compat; lra). nra. }
  destruct ELL as (ll & ELL & Hll). rewrite ELL in H.
  destruct (for_range _ _ _ _) as [[[it x] y]|st|e] eqn:EF; try discriminate.
  assert (KEY : exists xr yr, x = Fin xr /\ y = Fin yr /\ -1 < xr /\ 0 < yr).
  { apply (for_range_inv _ (fun _ s => s = NaN \/ exists x0, s = Fin x0 /\ -1 < x0 /\ 0 < 1 + 2 * x0 + ll)) in EF.
    - destruct EF as (j & t & _ & [->|(x0 & -> & X1 & X2)] & EB).
      + exfalso. revert EB. unfold bat_body. destruct (bat_h_coefficients _ _ _) as [h1 h2].
        set (y' := battin_second_equation _ _ _). set (x' := battin_first_equation _ _ _).
        replace (@nsub XR x' NaN) with NaN by (destruct x'; reflexivity). discriminate.
      + unfold bat_body in EB. destruct (h_F x0 ll m X1 X2) as (h1 & h2 & EH & H1h). rewrite EH in EB.
        cbv zeta in EB.
        remember (@battin_second_equation XR (@bat_u_at_h XR (Fin h1) (Fin h2)) (Fin h1) (Fin h2)) as y' eqn:EY'.
        remember (@battin_first_equation XR y' (Fin ll) (Fin m)) as x' eqn:EX'.
        destruct (@nleb XR _ _) eqn:LE; [|discriminate]. injection EB as _ <- <-.
        destruct x' as [xr|].
        2:{ exfalso. discriminate LE. }
        symmetry in EX'. destruct (first_domain _ _ _ _ Hm EX') as ((yr & ->) & A & B). symmetry in EY'.
        exists xr, yr. repeat split; try assumption. apply (second_pos h1 h2 yr H1h EY').
    - destruct (nltb _ _); right; eexists; (split; [reflexivity|]); lra.
    - intros j t t' _ _ EB. unfold bat_body in EB. destruct (@bat_h_coefficients XR t (Fin ll) (Fin m)) as [h1 h2]. cbv zeta in EB.
      remember (@battin_second_equation XR (@bat_u_at_h XR h1 h2) h1 h2) as y' eqn:EY'.
      remember (@battin_first_equation XR y' (Fin ll) (Fin m)) as x' eqn:EX'.
      destruct (@nleb XR _ _); [discriminate|].
      injection EB as <-. destruct x' as [xr|]; [right|left; reflexivity]. symmetry in EX'.
      destruct (first_domain _ _ _ _ Hm EX') as (_ & A & B). exists xr. auto. }
  destruct KEY as (xr & yr & -> & -> & X & Y).
  finish H D.
  destruct (battin_velocities_form mu p r1 r2 tof lm (Fin xr) (Fin yr) v1 v2 Hn Hmu Ht LF Lr EV)
    as (a & b & xr' & yr' & EX & EY & E1 & E2 & E3 & E4). injection EX as <-. injection EY as <-.
  exists a, b. split; [exact E1|]. split; [exact E2|]. split; [exact E3|]. intros Hz.
  rewrite <- (lf_dir _ _ _ _ LF Hz). rewrite E4.
  assert (K : 0 < (1 + lm) * (1 + lm) * (yr * (1 + xr)) / (4 * tof)).
  { apply Rdiv_lt_0_compat; [|lra]. repeat apply Rmult_lt_0_compat; lra. }
  pose proof (lf_nz _ _ _ _ LF) as L0.
  replace ((1 + lm) * (1 + lm) / (4 * tof * lm) * (yr * (1 + xr))) with ((1 + lm) * (1 + lm) * (yr * (1 + xr)) / (4 * tof) * / lm) by (field; split; [exact L0|lra]).
  set (k := (1 + lm) * (1 + lm) * (yr * (1 + xr)) / (4 * tof)) in *. clearbody k. split; intros Q.
  - destruct (Rlt_dec 0 lm) as [G|G]; [exact G|exfalso]. assert (/ lm < 0) by (apply Rinv_lt_0_compat; lra). nra.
  - apply Rmult_lt_0_compat; [exact K|]. now apply Rinv_0_lt_compat.
Qed.

Theorem C12_battin : forall ev mu r1 r2 tof M prograde low_path maxiter atol rtol full_output o v1 v2,
  vz (vcross r1 r2) <> 0 ->
  @run XR Battin ev (call mu r1 r2 tof M prograde low_path maxiter atol rtol full_output) = Ok o ->
  delivers o v1 v2 ->
  direction_honoured prograde r1 r2 v1.
Proof.
  intros ev mu r1 r2 tof M p l mi a r f o v1 v2 Hz H D. pose proof (vz_non_collinear _ _ Hz) as Hn. cbn [run] in H.
  assert (Hmu : 0 < mu) by (unfold battin1984 in H; enter H; exact Hmu).
  apply (godal_honoured mu p r1 r2 v1 v2); try assumption. eapply battin_returns_godal; eassumption.
Qed.
Print Assumptions C12_battin.

(** ** A run that returns *)
Lemma K_loop_neg u k : u <= 0 -> forall n d u0 s, (0 <= n)%Z -> 0 < d ->
  exists r, @bat_K_loop XR k n (Fin u) (Fin d, Fin u0, Fin s) = Fin r.
Proof.
  intros Hu.
  assert (ST : forall g d u0 s, 0 < g -> 0 < d -> exists d' u0' s', @bat_K_step XR (Fin g) (Fin u) (Fin d, Fin u0, Fin s) = (Fin d', Fin u0', Fin s') /\ 0 < d').
  { intros g d u0 s Hg Hd. unfold bat_K_step. xunf. cbn [xmul xadd xsub xlift1 xlift2].
    assert (P : 0 < 1 - g * u * d) by (assert (0 < g * d) by (now apply Rmult_lt_0_compat); nra).
    rewrite xdiv_F by lra. cbn [xmul xadd xsub xlift1 xlift2]. eexists _, _, _. split; [reflexivity|]. apply Rdiv_lt_0_compat; lra. }
  induction k as [|k IH]; intros n d u0 s Hn Hd; [exists s; reflexivity|].
  cbn [bat_K_loop]. destruct (nltb _ _); [|exists s; reflexivity].
  destruct (Z.eqb_spec n 0) as [->|Z].
  - replace (@ndiv XR (nofZ 4) (nofZ 27)) with (Fin (4 / 27)) by (symmetry; apply xdiv_F; lra).
    destruct (ST (4 / 27) d u0 s) as (d' & u' & s' & -> & H'); [lra|exact Hd|]. apply IH; [lia|exact H'].
  - assert (L : (1 <= n)%Z) by lia.
    destruct (par_facts n L) as [A B]. destruct (par_facts (n + 1) ltac:(lia)) as [A' _].
    assert (G1 : @ndiv XR (nofZ (2 * (3 * n + 1) * (6 * n - 1))) (nofZ (9 * (4 * n - 1) * (4 * n + 1))) = Fin (par_a n * (1 - par_b n))).
    { rewrite <- (par_gamma1 n L). apply xdiv_F. apply not_0_IZR. nia. }
    assert (G2 : @ndiv XR (nofZ (2 * (3 * n + 2) * (6 * n + 1))) (nofZ (9 * (4 * n + 1) * (4 * n + 3))) = Fin (par_b n * (1 - par_a (n + 1)))).
    { rewrite <- (par_gamma2 n L). apply xdiv_F. apply not_0_IZR. nia. }
    rewrite G1, G2.
    destruct (ST (par_a n * (1 - par_b n)) d u0 s) as (d1 & u1 & s1 & -> & H1); [apply Rmult_lt_0_compat; lra|exact Hd|].
    destruct (ST (par_b n * (1 - par_a (n + 1))) d1 u1 s1) as (d2 & u2 & s2 & -> & H2); [apply Rmult_lt_0_compat; lra|exact H1|].
    apply IH; [lia|exact H2].
Qed.

Local Transparent bat_K_at_u bat_xi_at_x battin_second_equation battin_first_equation bat_h_coefficients.

Lemma K_neg u : u <= 0 -> exists k, @bat_K_at_u XR (Fin u) = Fin k.
Proof.
  intros Hu. unfold bat_K_at_u. generalize 1001%nat as n. intros n.
  destruct (K_loop_neg u n Hu 0 1 1 1) as (r & E); [lia|lra|].
  match goal with |- context [@bat_K_loop XR ?a ?b ?c ?d] => assert (E' : @bat_K_loop XR a b c d = Fin r) by exact E; rewrite E' end.
  unfold sq. xunf. rewrite xdiv_F by lra. eexists. reflexivity.
Qed.

(** With [h2 >= 0] the pass has a value. *)
Lemma second_F h1 h2 : 0 <= h1 -> 0 <= h2 -> exists y,
  @battin_second_equation XR (@bat_u_at_h XR (Fin h1) (Fin h2)) (Fin h1) (Fin h2) = Fin y.
Proof.
  intros H1 H2. unfold battin_second_equation, bat_u_at_h, bat_u_at_B.
  assert (P3 : 0 < (1 + h1) * (1 + h1) * (1 + h1)) by (repeat apply Rmult_lt_0_compat; lra).
  assert (EB : exists B, @bat_B_at_h XR (Fin h1) (Fin h2) = Fin B /\ 0 <= B).
  { unfold bat_B_at_h, cube. xunf. cbn [xmul xadd xlift2]. rewrite xdiv_F by lra. eexists. split; [reflexivity|].
    unfold Rdiv. apply Rmult_le_pos; [lra|]. apply Rlt_le, Rinv_0_lt_compat. lra. }
  destruct EB as (B & EB & HB). rewrite EB. xunf. cbn [xmul xadd xsub xopp xlift1 xlift2].
  rewrite (xsqrt_F (1 + B)), (xsqrt_F (B + 1)) by lra. pose proof (sqrt_pos (1 + B)) as W. cbn [xmul xadd xsub xopp xlift1 xlift2].
  rewrite (xdiv_F (- B)) by lra. set (u := - B / (2 * sqrt (1 + B) + 1)).
  assert (U : u <= 0). { unfold u. apply (Rmult_le_reg_r (2 * sqrt (1 + B) + 1)); [lra|]. replace (- B / (2 * sqrt (1 + B) + 1) * (2 * sqrt (1 + B) + 1)) with (- B) by (field; lra). lra. }
  clearbody u. destruct (K_neg u U) as (k & EK). rewrite EK. pose proof (K_bound u k ltac:(lra) EK) as KB.
  cbn [xmul xadd xsub xlift2]. rewrite !xdiv_F by lra. eexists. reflexivity.
Qed.

Lemma h_F_pos x ll m : 0 <= x -> 0 < ll < 5 -> x = 0 \/ x = ll -> 0 < m -> exists h1 h2, @bat_h_coefficients XR (Fin x) (Fin ll) (Fin m) = (Fin h1, Fin h2) /\ 0 <= h1 /\ 0 <= h2.
Proof.
  intros Hx Hl HX Hm. destruct (h_F x ll m ltac:(lra) ltac:(lra)) as (h1 & h2 & E & H1). exists h1, h2. split; [exact E|]. split; [exact H1|].
  revert E. assert (X : 0 < 1 + x) by lra. pose proof (sqrt_lt_R0 _ X) as S1. pose proof (sqrt_sqrt _ (Rlt_le _ _ X)) as S2.
  unfold bat_h_coefficients, sq. rewrite xi_F by lra. 
  assert (XI : 0 < xi_val (sqrt (1 + x)) /\ 0 <= x - ll + xi_val (sqrt (1 + x))).
  { assert (P : 0 < xi_val (sqrt (1 + x))) by (unfold xi_val; apply Rdiv_lt_0_compat; [apply Rmult_lt_0_compat|]; lra). split; [exact P|].
    destruct HX as [->| ->]; [|lra]. unfold xi_val. rewrite Rplus_0_r, sqrt_1. lra. }
  set (xi := xi_val _) in *. clearbody xi. xunf. cbn [xmul xadd xsub xlift1 xlift2].
  assert (HD : 0 < (1 + 2 * x + ll) * (4 * x + xi * (3 + x))) by (apply Rmult_lt_0_compat; [lra|]; assert (0 < xi * (3 + x)) by (apply Rmult_lt_0_compat; lra); lra).
  rewrite !xdiv_F by lra. intros E. apply pair_equal_spec in E. destruct E as [_ E]. injection E as <-.
  unfold Rdiv. apply Rmult_le_pos; [apply Rmult_le_pos; lra|apply Rlt_le, Rinv_0_lt_compat; exact HD].
Qed.

Lemma first_F y ll m : 0 < y -> 0 < m -> exists x, @battin_first_equation XR (Fin y) (Fin ll) (Fin m) = Fin x.
Proof.
  intros Hy Hm. unfold battin_first_equation, sq. xunf. cbn [xmul xadd xsub xlift2]. assert (0 < y * y) by now apply Rmult_lt_0_compat.
  rewrite !xdiv_F by lra. cbn [xmul xadd xsub xlift2]. rewrite xsqrt_F.
  - eexists. reflexivity.
  - assert (0 < m / (y * y)) by now apply Rdiv_lt_0_compat. pose proof (Rle_0_sqr ((1 - ll) / 2)) as Q. unfold Rsqr in Q. lra.
Qed.

Local Opaque bat_K_at_u bat_xi_at_x battin_second_equation battin_first_equation bat_h_coefficients.

(** On the short way one pass is enough for a loose enough tolerance. *)
Lemma battin_one_pass ev mu r1 r2 tof p l : 0 < mu -> 0 < tof -> vz (vcross r1 r2) <> 0 -> short_way p r1 r2 ->
  exists atol v1 v2, 0 < atol /\ @run XR Battin ev (call mu r1 r2 tof 0 p l 1 atol atol false) = Ok (Pair (vfin v1) (vfin v2)).
Proof.
  intros Hmu Ht Hz Hs. pose proof (vz_non_collinear _ _ Hz) as Hn.
  assert (HV : valid_input mu r1 r2 tof 0).
  { unfold valid_input. repeat split; try lra; try lia.
    - intros ->. apply Hz. unfold vcross, vzero. cbn [vx vy vz]. ring.
    - intros ->. apply Hz. unfold vcross. cbn [vx vy vz]. ring. }
  cbn [run]. unfold battin1984. 
  destruct (transfer_angle r1 r2 p Hn) as (th & ET & F).
  destruct (bat_lambda_F p r1 r2 th Hn F) as (lm & EL & LF & Lr).
  destruct (semiper_pos r1 r2 Hn) as [Hsp _].
  assert (L0 : 0 < lm) by (apply (lf_dir _ _ _ _ LF Hz); exact Hs).
  set (m := 8 * mu * (tof * tof) / (semiper r1 r2 * semiper r1 r2 * semiper r1 r2 * (1 + lm) ^ 6)) in *.
  assert (Hm : 0 < m).
  { unfold m. apply Rdiv_lt_0_compat.
    - apply Rmult_lt_0_compat; [lra|]. now apply Rmult_lt_0_compat.
    - apply Rmult_lt_0_compat; [exact (Rmult_lt_0_compat _ _ (Rmult_lt_0_compat _ _ Hsp Hsp) Hsp)|]. apply pow_lt. lra. }
  assert (ELL : exists ll, @bat_ll XR (Fin lm) = Fin ll /\ 0 < ll < 5).
  { unfold bat_ll, sq. xunf. cbn [xsub xadd xlift2]. rewrite xdiv_F by lra. cbn [xmul xlift2]. eexists. split; [reflexivity|].
    assert (0 < (1 - lm) / (1 + lm)) by (apply Rdiv_lt_0_compat; lra).
    assert ((1 - lm) / (1 + lm) < 1). { apply (Rmult_lt_reg_r (1 + lm)); [lra|]. replace ((1 - lm) / (1 + lm) * (1 + lm)) with (1 - lm) by (field; lra). lra. }
    split; nra. }
  destruct ELL as (ll & ELL & Hll).
  assert (PASS : forall x0, x0 = 0 \/ x0 = ll -> exists x y, 0 < y /\ -1 < x /\ forall a, Rabs (x - x0) <= a -> @bat_body XR (Fin ll) (Fin m) (Fin a) 1 (Fin x0) = Break (1%Z, Fin x, Fin y)).
  { intros x0 HX. destruct (h_F_pos x0 ll m ltac:(lra) Hll HX Hm) as (h1 & h2 & EH & H1 & H2).
    destruct (second_F h1 h2 H1 H2) as (y & EY). pose proof (second_pos h1 h2 y H1 EY) as Y0. destruct (first_F y ll m Y0 Hm) as (x & EX).
    exists x, y. split; [exact Y0|]. split; [apply (first_domain _ _ _ _ Hm EX)|]. intros a Ha. unfold bat_body. rewrite EH. rewrite EY, EX.
    replace (@nleb XR (@nabs XR (@nsub XR (Fin x) (Fin x0))) (Fin a)) with true by (symmetry; apply xleb_F; exact Ha). reflexivity. }
  destruct (PASS 0 (or_introl eq_refl)) as (xa & ya & Ya & Xa & Pa). destruct (PASS ll (or_intror eq_refl)) as (xb & yb & Yb & Xb & Pb).
  set (atol := Rabs (xa - 0) + Rabs (xb - ll) + 1). exists atol.
  pose proof (Rabs_pos (xa - 0)). pose proof (Rabs_pos (xb - ll)). specialize (Pa atol ltac:(unfold atol; lra)). specialize (Pb atol ltac:(unfold atol; lra)).
  assert (A0 : 0 < atol) by (unfold atol; lra). clearbody atol.
  assert (VEL : forall x y, 0 < y -> -1 < x -> exists v1 v2, @bat_velocities XR (Fin tof) (vfin r1) (vfin r2) (Fin (vnorm r1)) (Fin (vnorm r2))
    (Fin (semiper r1 r2)) (Fin lm) (Fin m) (Fin x) (Fin y) = (vfin v1, vfin v2)).
  { intros x y Hy Hx. destruct (norms_pos _ _ Hn) as [N1 N2]. unfold bat_velocities, sq. xunf. cbn [xadd xmul xlift2].
    assert (0 < 4 * tof * lm) by (apply Rmult_lt_0_compat; lra). assert (0 < y * (1 + x)) by (apply Rmult_lt_0_compat; lra).
    rewrite !xdiv_F by lra. cbn [xopp xlift1]. rewrite !vsub_F, !vscale_F, !vdivs_F by lra. rewrite vsub_F, vadd_F, !vscale_F. eexists _, _. reflexivity. }
  rewrite validated_call_ok by exact HV. cbn [call a_is_prograde a_mu a_tof a_maxiter a_atol a_rtol a_full_output].
  rewrite vsub_F, !norm_F, semiper_F, ET. unfold chord in EL. rewrite EL, ELL. rewrite bat_m_F by (try assumption; apply Lr). fold m.
  change (Z.to_nat 1) with 1%nat. cbn [for_range].
  destruct (nltb _ _).
  - rewrite Pb. destruct (VEL xb yb Yb Xb) as (v1 & v2 & EV). exists v1, v2. split; [exact A0|]. unfold time_per_iteration. cbn [bind]. rewrite EV. reflexivity.
  - change (@nofZ XR 0) with (Fin 0). rewrite Pa. destruct (VEL xa ya Ya Xa) as (v1 & v2 & EV). exists v1, v2. split; [exact A0|]. unfold time_per_iteration. cbn [bind]. rewrite EV. reflexivity.
Qed.

Example C12_battin_case : forall ev, exists atol o v1 v2, vz (vcross ex_r1 ex_r2) <> 0 /\ 0 < atol /\
  @run XR Battin ev (call 1 ex_r1 ex_r2 1 0 true true 1 atol atol false) = Ok o /\ delivers o v1 v2 /\ direction_honoured true ex_r1 ex_r2 v1.
Proof.
  intros ev. assert (Hz : vz (vcross ex_r1 ex_r2) <> 0) by (unfold ex_r1, ex_r2, vcross; cbn [vx vy vz]; lra).
  assert (Hs : short_way true ex_r1 ex_r2) by (unfold short_way, ex_r1, ex_r2, vcross; cbn [vx vy vz]; lra).
  destruct (battin_one_pass ev 1 ex_r1 ex_r2 1 true true ltac:(lra) ltac:(lra) Hz Hs) as (atol & v1 & v2 & A & H).
  exists atol, (@Pair XR (vfin v1) (vfin v2)), v1, v2. split; [exact Hz|]. split; [exact A|]. split; [exact H|].
  assert (D : delivers (@Pair XR (vfin v1) (vfin v2)) v1 v2) by (split; reflexivity). split; [exact D|].
  exact (C12_battin ev 1 ex_r1 ex_r2 1 0 true true 1 atol atol false _ v1 v2 Hz H D).
Qed.
