(** * The iteration budget of pan2016, thorne2004 and der2011 (C18, C20).

    These three hand the search to [scipy.optimize.brentq].  Everything holds in
    every number system; the counterexample is a run in binary64. *)
From Coq Require Import String ZArith List Bool Lia.
Import ListNotations.
From Verif Require Import Num FloatNum FloatExec MApi ApiFacts MLinalg MScipy MAssertions MAngles MVallado
  MPan MDer MThorne MInit Loops PropertiesFlags PropertiesBudget PropertiesBudgetF64.

(** ** Reported counts *)

(** [brentq] reports at most the iterations it was given. *)
Definition brentq_counts {N : Num} (ev : env) : Prop :=
  forall f lo hi xtol rtol n x k, e_brentq ev f lo hi xtol rtol n = Ok (x, k) -> (0 <= k <= n)%Z.

Lemma cnt_thorne {N : Num} ev a : brentq_counts ev ->
  counts (fun n => n = 1 \/ 0 <= n <= a_maxiter a)%Z (thorne2004 ev a).
Proof.
  intros HB. unfold thorne2004. apply counts_bind. intros _ _. apply counts_validated. intros r1 r2. cbv zeta.
  apply counts_bind. intros [[sma b] n] E.
  assert (H : (n = 1 \/ 0 <= n <= a_maxiter a)%Z).
  { revert E. unfold tho_semimajor_axis. cbv zeta. destruct (np_isclose _ _ _ _).
    - intros E. apply ok_inj in E. inversion E. left. reflexivity.
    - intros E. apply bind_ok in E. destruct E as ([[b' lo] up] & _ & E). apply bind_ok in E. destruct E as ([x k] & E & E').
      apply ok_inj in E'. inversion E'; subst. right. exact (HB _ _ _ _ _ _ _ _ E). }
  apply counts_bind. intros t _. destruct (tho_reconstruct _ _ _ _ _ _ _ _). apply counts_out. exact H.
Qed.

Lemma pan_bez_counted {N : Num} f atol rtol n r s :
  for_range (pan_bezier_body f atol rtol) n 1 s = Break r -> (1 <= snd r < 1 + Z.of_nat n)%Z.
Proof.
  intros H. destruct (for_range_inv _ (fun _ _ => True) _ _ _ _ I (fun _ _ _ _ _ _ => I) H) as (j & t & Hj & _ & E).
  destruct t as [[[[pv lo] up] fl] fu]. unfold pan_bezier_body in E. cbv zeta in E.
  destruct (f _) as [v|e]; [|discriminate]. destruct (_ || _); [inversion E; subst r; cbn [snd]; lia|].
  destruct (nleb _ _); discriminate.
Qed.

Lemma pan_find_within {N : Num} ev mu g tof m atol rtol r :
  pan_find_omega ev mu g tof m atol rtol = Ok r -> (snd r = m \/ 1 <= snd r <= m)%Z.
Proof.
  unfold pan_find_omega. destruct (pan_first_bracket _ _ _) as [[lo up]|]; [|discriminate].
  unfold pan_bezier_root. intros H. apply bind_ok in H. destruct H as (fl & _ & H). apply bind_ok in H. destruct H as (fu & _ & H).
  destruct (for_range _ _ _ _) as [r'|t|e] eqn:E; try discriminate.
  - apply ok_inj in H. subst r'. apply pan_bez_counted in E. right. lia.
  - destruct t as [[[[pv lo'] up'] fl'] fu']. apply bind_ok in H. destruct H as ([x k] & _ & H). apply ok_inj in H. subst r.
    left. reflexivity.
Qed.

Lemma cnt_pan {N : Num} ev a : counts (fun n => n = a_maxiter a \/ 1 <= n <= a_maxiter a)%Z (pan2016 ev a).
Proof.
  assert (V : counts (fun n => n = a_maxiter a \/ 1 <= n <= a_maxiter a)%Z (vallado2013 (e_clock ev) (e_fuel ev) a)).
  { apply (counts_weaken (within 1 (a_maxiter a))); [intros n H; right; exact H|apply cnt_vallado]. }
  unfold pan2016. apply counts_bind. intros _ _. apply counts_validated. intros r1 r2. cbv zeta.
  apply counts_bind. intros _ _. apply counts_bind. intros _ _. destruct (np_isclose _ _ _ _); [exact V|].
  destruct (pan_find_omega _ _ _ _ _ _ _) as [[om n]|e] eqn:E.
  - apply pan_find_within in E. cbn [snd] in E. apply counts_bind. intros t _. apply counts_bind. intros el _.
    apply counts_bind. intros [v1 v2] _. apply counts_out. exact E.
  - destruct e; try apply counts_err. exact V.
Qed.

(** The count reported by pan2016 never exceeds the budget, for every [brentq]; it
    can be less than one only if the budget is. *)
Theorem C18_pan_count {N : Num} (ev : env) (a : args) v1 v2 n t :
  run Pan ev a = Ok (Full v1 v2 n t) -> (Z.min 1 (a_maxiter a) <= n <= a_maxiter a)%Z.
Proof. cbn [run]. intros H. pose proof (cnt_pan _ _ _ _ _ _ H) as E. cbn beta in E. lia. Qed.
Print Assumptions C18_pan_count.

(** thorne2004 reports what [brentq] reports, or one on a parabola. *)
Theorem C18_thorne_count {N : Num} (ev : env) (a : args) v1 v2 n t :
  brentq_counts ev ->
  run Thorne ev a = Ok (Full v1 v2 n t) -> (0 <= n <= Z.max 1 (a_maxiter a))%Z.
Proof. cbn [run]. intros HB H. pose proof (cnt_thorne _ _ HB _ _ _ _ H) as E. cbn beta in E. lia. Qed.
Print Assumptions C18_thorne_count.

(** ** Larger budgets *)

(** A refusal of [brentq] does not depend on the budget: scipy raises [ValueError]
    for the bracket and the tolerances, [RuntimeError] for the budget. *)
Definition brentq_refusals_fixed {N : Num} (ev : env) : Prop :=
  forall f lo hi xtol rtol n n' s, (n <= n')%Z ->
    e_brentq ev f lo hi xtol rtol n = Err (ValueError s) ->
    e_brentq ev f lo hi xtol rtol n' = Err (ValueError s).

Section More.
Context {N : Num}.
Variables (ev : env) (m0 m : Z) (atol rtol : num).
Hypothesis Hm : (m0 <= m)%Z.

Lemma grows_der_minimum sigma M : brentq_monotone ev -> brentq_refusals_fixed ev ->
  grows (der_minimum_time ev sigma M m0 atol rtol) (der_minimum_time ev sigma M m atol rtol).
Proof.
  intros B1 B2. unfold der_minimum_time.
  destruct (e_brentq ev _ _ _ _ _ m0) as [[x k]|e] eqn:E.
  - rewrite (B1 _ _ _ _ _ _ _ _ Hm E). apply grows_refl.
  - destruct e; try apply grows_err. rewrite (B2 _ _ _ _ _ _ _ _ Hm E).
    apply (grows_loop _ _ _ _ _ (fun t => Ok t) (fun _ => Err _) _ (fun e => Err e)); [lia|discriminate].
Qed.

Lemma der_elliptic_same sigma tau M x0 r :
  der_solve_elliptic ev sigma tau M x0 m0 atol rtol = Ok r -> (snd r < m0)%Z ->
  der_solve_elliptic ev sigma tau M x0 m atol rtol = Ok r.
Proof.
  assert (EB : der_solve_elliptic_bracketed ev sigma tau M x0 m0 atol rtol = Ok r -> snd r = m0).
  { unfold der_solve_elliptic_bracketed. destruct (if nltb x0 _ then _ else _) as [lo hi].
    intros H. apply bind_ok in H. destruct H as ([x k] & _ & H). apply ok_inj in H. subst r. reflexivity. }
  unfold der_solve_elliptic at 1. destruct (for_range _ _ _ _) as [[r'|]|t|e] eqn:E.
  - intros H Hl. apply ok_inj in H. subst r'. unfold der_solve_elliptic.
    rewrite (for_range_break_mono _ _ (Z.to_nat m) _ _ _ E) by lia. reflexivity.
  - intros H Hl. apply EB in H. lia.
  - intros H Hl. apply EB in H. lia.
  - intros H Hl. apply EB in H. lia.
Qed.

Lemma der_hyperbolic_same sigma tau x0 r :
  der_solve_hyperbolic ev sigma tau x0 m0 atol rtol = Ok r -> (snd r < m0)%Z ->
  der_solve_hyperbolic ev sigma tau x0 m atol rtol = Ok r.
Proof.
  assert (EB : der_solve_hyperbolic_bracketed ev sigma tau m0 atol rtol = Ok r -> snd r = m0).
  { unfold der_solve_hyperbolic_bracketed. cbv zeta. destruct (while_true _ _ _); try discriminate.
    intros H. apply bind_ok in H. destruct H as ([x k] & _ & H). apply ok_inj in H. subst r. reflexivity. }
  unfold der_solve_hyperbolic at 1. destruct (for_range _ _ _ _) as [[r'|]|t|e] eqn:E.
  - intros H Hl. apply ok_inj in H. subst r'. unfold der_solve_hyperbolic.
    rewrite (for_range_break_mono _ _ (Z.to_nat m) _ _ _ E) by lia. reflexivity.
  - intros H Hl. apply EB in H. lia.
  - intros H Hl. apply EB in H. lia.
  - intros H Hl. apply EB in H. lia.
Qed.

Lemma der_find_same sigma tau tau_p M lp r :
  der_find_path_parameter ev sigma tau tau_p M lp m0 atol rtol = Ok r -> (snd r < m0)%Z ->
  der_find_path_parameter ev sigma tau tau_p M lp m atol rtol = Ok r.
Proof.
  unfold der_find_path_parameter. destruct (_ && _); [auto|]. cbv zeta.
  match goal with |- (if ?b then _ else _) = _ -> _ => destruct b end.
  - apply der_elliptic_same.
  - apply der_hyperbolic_same.
Qed.

Lemma pan_find_same mu g tof r :
  pan_find_omega ev mu g tof m0 atol rtol = Ok r -> (snd r < m0)%Z ->
  pan_find_omega ev mu g tof m atol rtol = Ok r.
Proof.
  unfold pan_find_omega. destruct (pan_first_bracket _ _ _) as [[lo up]|]; [|discriminate].
  unfold pan_bezier_root. intros H Hl. apply bind_ok in H. destruct H as (fl & E1 & H). apply bind_ok in H. destruct H as (fu & E2 & H).
  rewrite E1, E2. cbn [bind]. destruct (for_range _ (Z.to_nat m0) _ _) as [r'|t|e] eqn:E; try discriminate.
  - rewrite (for_range_break_mono _ _ (Z.to_nat m) _ _ _ E) by lia. exact H.
  - destruct t as [[[[pv lo'] up'] fl'] fu']. apply bind_ok in H. destruct H as ([x k] & _ & H). apply ok_inj in H. subst r.
    cbn [snd] in Hl. lia.
Qed.
End More.

Lemma full_inj {N : Num} b (v1 v2 : vec num) n t w1 w2 k u :
  Ok (mk_out b v1 v2 n t) = Ok (Full w1 w2 k u) -> n = k.
Proof. destruct b; cbn; intros H; inversion H; reflexivity. Qed.

(** der2011 answers the same with every larger budget when it did not use the
    whole budget, that is, unless it fell back to [brentq]. *)
Theorem C20_der_partial {N : Num} (ev : env) (a : args) (m : Z) v1 v2 n t :
  brentq_monotone ev -> brentq_refusals_fixed ev ->
  (a_maxiter a <= m)%Z -> (n < a_maxiter a)%Z ->
  run Der ev a = Ok (Full v1 v2 n t) -> run Der ev (with_maxiter m a) = Ok (Full v1 v2 n t).
Proof.
  intros B1 B2 Hm Hl. cbn [run]. unfold der2011, validated.
  cbn [with_maxiter a_mu a_r1 a_r2 a_tof a_M a_is_prograde a_is_low_path a_maxiter a_atol a_rtol a_full_output].
  intros H. apply bind_ok in H. destruct H as ([] & E & H). rewrite E. cbn [bind]. clear E.
  apply bind_ok in H. destruct H as (r1 & E & H). rewrite E. cbn [bind]. clear E.
  apply bind_ok in H. destruct H as (r2 & E & H). rewrite E. cbn [bind]. clear E. cbv zeta in H |- *.
  apply bind_ok in H. destruct H as ([] & E & H). rewrite E. cbn [bind]. clear E.
  apply bind_ok in H. destruct H as ([] & E & H). rewrite E. cbn [bind]. clear E.
  apply bind_ok in H. destruct H as ([] & E & H). rewrite E. cbn [bind]. clear E.
  apply bind_ok in H. destruct H as ([] & E & H).
  match goal with |- bind ?x _ = _ => assert (E' : x = Ok tt) end.
  { revert E. destruct (0 <? a_M a)%Z; [|auto]. intros E. apply bind_ok in E. destruct E as (tm & E & E2).
    rewrite (grows_der_minimum ev _ _ _ _ Hm _ _ B1 B2 _ E). exact E2. }
  rewrite E'. cbn [bind]. clear E E'.
  apply bind_ok in H. destruct H as ([[x y] k] & E & H).
  assert (K : k = n).
  { clear E. apply bind_ok in H. destruct H as (tp & _ & H). destruct (der_velocities _ _ _ _ _ _ _ _ _ _). exact (full_inj _ _ _ _ _ _ _ _ _ H). }
  rewrite (der_find_same ev _ _ _ _ Hm _ _ _ _ _ _ E) by (cbn [snd]; lia). cbn [bind]. exact H.
Qed.
Print Assumptions C20_der_partial.

(** When it does fall back, it reports the budget as its count: it answers with
    one and with two iterations, differently.  [test_env]'s [brentq] is bisection,
    whose answer does not depend on the budget. *)
Lemma test_env_monotone : @brentq_monotone F64 test_env.
Proof. intros f lo hi xtol rtol n n' r _ H. exact H. Qed.
Theorem C20_der_refuted : @brentq_monotone F64 test_env /\
  exists v1 v2 t w1 w2 u,
    b_call Der 1 true = Ok (Full v1 v2 1 t) /\ b_call Der 2 true = Ok (Full w1 w2 2 u).
Proof.
  split; [exact test_env_monotone|].
  assert (E1 : count (b_call Der 1 true) = Some 1%Z) by (vm_compute; reflexivity).
  assert (E2 : count (b_call Der 2 true) = Some 2%Z) by (vm_compute; reflexivity).
  apply count_some in E1. apply count_some in E2. destruct E1 as (v1 & v2 & t & E1), E2 as (w1 & w2 & u & E2).
  exists v1, v2, t, w1, w2, u. split; assumption.
Qed.
Print Assumptions C20_der_refuted.

(** A case of [C20_der_partial]: the same problem needs three of thirty-five
    iterations. *)
Example C20_der_case : exists v1 v2 t,
  b_call Der 35 true = Ok (Full v1 v2 3 t) /\ b_call Der 100 true = Ok (Full v1 v2 3 t).
Proof.
  assert (E : count (b_call Der 35 true) = Some 3%Z) by (vm_compute; reflexivity).
  apply count_some in E. destruct E as (v1 & v2 & t & E). exists v1, v2, t. split; [exact E|].
  unfold b_call in E |- *.
  exact (C20_der_partial test_env (Args _ _ _ _ _ _ _ 35 _ _ _) 100 v1 v2 3 t test_env_monotone
           (fun f lo hi x r n n' s _ H => H) ltac:(discriminate) eq_refl E).
Qed.

(** pan2016 answers the same with every larger budget when it hands the problem to
    vallado2013 because the distances are close, or found its own answer without
    using the whole budget. *)
Theorem C20_pan_partial {N : Num} (ev : env) (a : args) (m : Z) v1 v2 n t :
  (a_maxiter a <= m)%Z -> (n < a_maxiter a)%Z ->
  run Pan ev a = Ok (Full v1 v2 n t) ->
  run Vallado ev a <> Ok (Full v1 v2 n t)
  \/ (exists r1 r2, as_vec (a_r1 a) = Ok r1 /\ as_vec (a_r2 a) = Ok r2
      /\ np_isclose (norm r1) (norm r2) (nlit 1 100000000) (a_atol a) = true) ->
  run Pan ev (with_maxiter m a) = Ok (Full v1 v2 n t).
Proof.
  intros Hm Hl. cbn [run]. unfold pan2016, validated.
  cbn [with_maxiter a_mu a_r1 a_r2 a_tof a_M a_is_prograde a_is_low_path a_maxiter a_atol a_rtol a_full_output].
  intros H D. apply bind_ok in H. destruct H as ([] & E & H). rewrite E. cbn [bind]. clear E.
  apply bind_ok in H. destruct H as ([] & E & H). rewrite E. cbn [bind]. clear E.
  apply bind_ok in H. destruct H as (r1 & E1 & H). rewrite E1. cbn [bind].
  apply bind_ok in H. destruct H as (r2 & E2 & H). rewrite E2. cbn [bind]. cbv zeta in H |- *.
  apply bind_ok in H. destruct H as ([] & E & H). rewrite E. cbn [bind]. clear E.
  apply bind_ok in H. destruct H as ([] & E & H). rewrite E. cbn [bind]. clear E.
  destruct (np_isclose _ _ _ _) eqn:EC.
  - exact (grows_vallado a m Hm _ _ _ H).
  - destruct D as [D|(q1 & q2 & F1 & F2 & F3)].
    + destruct (pan_find_omega ev _ _ _ (a_maxiter a) _ _) as [[om k]|e] eqn:E.
      * assert (K : k = n).
        { clear E. apply bind_ok in H. destruct H as (tp & _ & H). apply bind_ok in H. destruct H as (el & _ & H).
          apply bind_ok in H. destruct H as ([w1 w2] & _ & H). exact (full_inj _ _ _ _ _ _ _ _ _ H). }
        rewrite (pan_find_same ev _ _ _ _ Hm _ _ _ _ E) by (cbn [snd]; lia). exact H.
      * destruct e; try discriminate. elim D. exact H.
    + rewrite E1 in F1. rewrite E2 in F2. apply ok_inj in F1. apply ok_inj in F2. subst q1 q2. rewrite EC in F3. discriminate.
Qed.
Print Assumptions C20_pan_partial.

(** Concrete cases of the counts: bisection that needs ten iterations. *)
Definition ten_env : @env F64 :=
  @Env F64 (e_clock test_env) (e_fuel test_env)
    (fun f lo hi xtol rtol n =>
       if (n <? 10)%Z then Err (RuntimeError "Failed to converge")
       else match test_brentq f lo hi xtol rtol n with Ok (x, _) => Ok (x, 10%Z) | Err e => Err e end)
    (e_minimize test_env).
Lemma ten_env_counts : brentq_counts ten_env.
Proof.
  intros f lo hi xtol rtol n x k. cbn [e_brentq ten_env]. destruct (n <? 10)%Z eqn:E; [discriminate|].
  destruct (test_brentq f lo hi xtol rtol n) as [[y j]|e]; [|discriminate].
  intros H. injection H as _ <-. apply Z.ltb_ge in E. split; [discriminate|exact E].
Qed.
Definition q_call (s : solver) (ev : @env F64) (maxiter : Z) : res (@out F64) :=
  @run F64 s ev
    (@Args F64 (fofZ 1) f1 (dec3 0 0 1 0) (fofZ 2) 0 true true maxiter (default_atol s) (default_rtol s) true).
Example C18_thorne_case : brentq_counts ten_env /\ count (q_call Thorne ten_env 60) = Some 10%Z.
Proof. split; [exact ten_env_counts|]. vm_compute. reflexivity. Qed.

(** Between equal distances pan2016 is vallado2013. *)
Example C20_pan_case : exists v1 v2 n t, (1 <= n < 100)%Z /\
  q_call Pan test_env 100 = Ok (Full v1 v2 n t) /\ q_call Pan test_env 500 = Ok (Full v1 v2 n t).
Proof.
  assert (E : exists n, count (q_call Pan test_env 100) = Some n /\ (1 <= n < 100)%Z).
  { eexists. split; [vm_compute; reflexivity|]. split; [discriminate|reflexivity]. }
  destruct E as (n & E & Hn). apply count_some in E. destruct E as (v1 & v2 & t & E). exists v1, v2, n, t.
  split; [exact Hn|]. split; [exact E|]. unfold q_call in E |- *.
  refine (C20_pan_partial test_env (Args _ _ _ _ _ _ _ 100 _ _ _) 500 v1 v2 n t ltac:(discriminate) (proj2 Hn) E _).
  right. exists (V3 (fofZ 1) (fofZ 0) (fofZ 0)), (V3 (fofZ 0) (fofZ 1) (fofZ 0)).
  split; [vm_compute; reflexivity|]. split; [vm_compute; reflexivity|]. vm_compute. reflexivity.
Qed.
