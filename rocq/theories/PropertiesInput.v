(** * Argument validation and registries: C01, C02, C04, C05.

    Everything here holds in every number system [N] (so also for IEEE doubles
    and whatever its comparisons do with NaN) and for every environment. *)
From Coq Require Import String ZArith List Bool Lia.
Import ListNotations.
From Verif Require Import Num MApi ApiFacts MScipy MAssertions MVallado MGauss MIzzo MBattin
  MArora MDelatorre MGooding MJiang MPan MDer MThorne MAvanzini MMcelreath MNegrete MInit.

(** The call ended with [raise ValueError(...)]. *)
Definition raises_ValueError {A} (r : res A) : Prop := exists msg, r = Err (ValueError msg).

Section Input.
Context {N : Num}.
Local Open Scope num_scope.

(** mu <= 0, r1 not a 3-vector or null, r1 equal to r2, tof <= 0 or M < 0. *)
Definition non_physical (a : args) : Prop :=
  (a_mu a <=? #0) = true \/
  length (a_r1 a) <> 3%nat \/
  Forall (fun x => (x =? #0) = true) (a_r1 a) \/
  Forall2 (fun x y => (x =? y) = true) (a_r1 a) (a_r2 a) \/
  (a_tof a <=? #0) = true \/
  (a_M a < 0)%Z.

Lemma forallb_Forall {A} (p : A -> bool) l :
  forallb p l = true <-> Forall (fun x => p x = true) l.
Proof. rewrite forallb_forall, Forall_forall. reflexivity. Qed.

Lemma Forall2_len {A B} (R : A -> B -> Prop) l m : Forall2 R l m -> length l = length m.
Proof. induction 1; simpl; congruence. Qed.

Lemma forallb_combine {A B} (p : A * B -> bool) l m :
  length l = length m ->
  (forallb p (combine l m) = true <-> Forall2 (fun x y => p (x, y) = true) l m).
Proof.
  revert m. induction l as [|x l IH]; intros [|y m]; simpl; try discriminate.
  - split; auto.
  - intros H. rewrite andb_true_iff, IH by lia. split.
    + intros [? ?]; constructor; auto.
    + intros K; inversion K; auto.
Qed.

Lemma non_physical_rejected a :
  non_physical a ->
  raises_ValueError
    (assert_parameters_are_valid (a_mu a) (a_r1 a) (a_r2 a) (a_tof a) (a_M a)).
Proof.
  unfold non_physical, assert_parameters_are_valid, raises_ValueError. intros H.
  unfold assert_gravitational_parameter_is_positive.
  destruct (a_mu a <=? #0); [eexists; reflexivity|]. cbn [bind].
  unfold assert_position_vectors_are_valid, assert_position_vector_is_valid.
  destruct (Nat.eqb_spec (length (a_r1 a)) 3) as [L|L]; [|eexists; reflexivity].
  cbn [negb raise_if bind].
  destruct (forallb (fun a0 => a0 =? #0) (a_r1 a)) eqn:E0; [eexists; reflexivity|].
  cbn [raise_if bind].
  destruct H as [H|[H|[H|[H|H]]]]; [discriminate|contradiction|..].
  { apply forallb_Forall in H. congruence. }
  { unfold all_equal. pose proof (Forall2_len _ _ _ H) as L2.
    rewrite (proj2 (Nat.eqb_eq _ _) L2).
    rewrite (proj2 (forallb_combine (fun ab => fst ab =? snd ab) (a_r1 a) (a_r2 a) L2) H).
    eexists; reflexivity. }
  destruct (all_equal (a_r1 a) (a_r2 a)) as [b|e] eqn:Ea; cbn [bind].
  - destruct b; [eexists; reflexivity|]. cbn [bind].
    unfold assert_time_of_flight_is_positive.
    destruct (a_tof a <=? #0) eqn:Et; [eexists; reflexivity|]. cbn [bind].
    destruct H as [H|H]; [discriminate|].
    unfold assert_number_of_revolutions_not_negative.
    rewrite (proj2 (Z.ltb_lt _ _) H). eexists; reflexivity.
  - unfold all_equal in Ea. destruct (Nat.eqb _ _); [discriminate|].
    destruct (a_r1 a) as [|x [|y l]], (a_r2 a) as [|x' [|y' l']]; inversion Ea; eexists; reflexivity.
Qed.

Lemma validated_rejects {A} a (k : vec num -> vec num -> res A) :
  raises_ValueError
    (assert_parameters_are_valid (a_mu a) (a_r1 a) (a_r2 a) (a_tof a) (a_M a)) ->
  raises_ValueError (validated a k).
Proof. intros [m H]. unfold validated. rewrite H. exists m. reflexivity. Qed.

Lemma raise_if_rejects {A} b m (k : res A) :
  raises_ValueError k -> raises_ValueError (check raise_if b (ValueError m) in k).
Proof. intros H. destruct b; [eexists; reflexivity|exact H]. Qed.

(** Every entry point but izzo2015 is [validated], possibly after the check on
    the number of revolutions. *)
Lemma run_validated s ev a :
  s <> Izzo ->
  (forall k : vec num -> vec num -> res out, raises_ValueError (validated a k)) ->
  raises_ValueError (run s ev a).
Proof.
  intros Hs H.
  destruct s; try congruence; cbn [run];
    unfold gauss1809, battin1984, jiang2016, pan2016, gooding1990, der2011, thorne2004,
      avanzini2008, arora2013, vallado2013, negrete2024, mcelreath2025, delatorre2018;
    try (apply raise_if_rejects); apply H.
Qed.

(** ** C01 *)

Theorem C01_non_physical_arguments_rejected : forall s ev a,
  s <> Izzo -> non_physical a -> raises_ValueError (run s ev a).
Proof.
  intros s ev a Hs H. apply run_validated; [assumption|].
  intros k. apply validated_rejects. now apply non_physical_rejected.
Qed.

(** The validation refuses nothing else: all other argument lists whose [r2]
    is a 3-vector pass it. *)
Theorem C01_physical_arguments_pass : forall a,
  ~ non_physical a -> length (a_r2 a) = 3%nat ->
  assert_parameters_are_valid (a_mu a) (a_r1 a) (a_r2 a) (a_tof a) (a_M a) = Ok tt.
Proof.
  intros a H L2. unfold non_physical in H.
  unfold assert_parameters_are_valid, assert_gravitational_parameter_is_positive.
  destruct (a_mu a <=? #0); [tauto|]. cbn [bind].
  unfold assert_position_vectors_are_valid, assert_position_vector_is_valid.
  destruct (Nat.eqb_spec (length (a_r1 a)) 3) as [L|L]; [|tauto].
  cbn [negb raise_if bind].
  destruct (forallb (fun a0 => a0 =? #0) (a_r1 a)) eqn:E0;
    [apply forallb_Forall in E0; tauto|].
  cbn [raise_if bind]. unfold all_equal. rewrite (proj2 (Nat.eqb_eq _ _)) by congruence.
  destruct (forallb (fun ab => fst ab =? snd ab) (combine (a_r1 a) (a_r2 a))) eqn:E1.
  { apply forallb_combine in E1; [|congruence]. tauto. }
  cbn [bind]. unfold assert_time_of_flight_is_positive.
  destruct (a_tof a <=? #0); [tauto|]. cbn [bind].
  unfold assert_number_of_revolutions_not_negative.
  destruct (Z.ltb_spec (a_M a) 0); [tauto|]. reflexivity.
Qed.

(** ** C02 *)

(** An arrival position that is not a 3-vector is refused by every solver (for
    izzo2015: when called without the keyword it does not have).  The property
    also asks for the rejection of a null [r2], see below and
    [PropertiesDegenerate]. *)
Theorem C02_badly_shaped_arrival_rejected : forall s ev a,
  (s = Izzo -> a_full_output a = false) ->
  length (a_r2 a) <> 3%nat -> raises_ValueError (run s ev a).
Proof.
  intros s ev a Hs L.
  assert (V : raises_ValueError (as_vec (a_r2 a))).
  { unfold as_vec. destruct (a_r2 a) as [|? [|? [|? [|]]]]; try (eexists; reflexivity).
    exfalso; now apply L. }
  assert (K : forall (k : vec num -> vec num -> res out),
    raises_ValueError (bind (as_vec (a_r1 a)) (fun r1 => bind (as_vec (a_r2 a)) (k r1)))).
  { intros k. destruct V as [m ->]. unfold as_vec.
    destruct (a_r1 a) as [|? [|? [|? [|]]]]; cbn [bind]; eexists; reflexivity. }
  destruct s; try (apply run_validated; [congruence|]; intros k; unfold validated;
    destruct (assert_parameters_are_valid _ _ _ _ _) as [[]|e] eqn:E; [exact (K k)|];
    cbn [bind]).
  all: try (revert E; clear; unfold assert_parameters_are_valid,
    assert_gravitational_parameter_is_positive, assert_position_vectors_are_valid,
    assert_position_vector_is_valid, assert_time_of_flight_is_positive,
    assert_number_of_revolutions_not_negative, all_equal, raise_if;
    repeat (match goal with |- context [if ?b then _ else _] => destruct b
                       | |- context [match ?l with nil => _ | _ :: _ => _ end] => destruct l
            end; cbn [bind]);
    intros E; inversion E; eexists; reflexivity).
  cbn [run]. unfold izzo2015. rewrite (Hs eq_refl). cbn [raise_if bind].
  apply (K (fun r1 r2 => _)).
Qed.

(** ** C04 *)

(** The four solvers that refuse. *)
Theorem C04_multi_revolution_refused_partial : forall s ev a,
  In s [Jiang; Pan; Thorne; Avanzini] -> (0 < a_M a)%Z -> raises_ValueError (run s ev a).
Proof.
  intros s ev a Hs HM. apply Z.ltb_lt in HM.
  destruct Hs as [<-|[<-|[<-|[<-|[]]]]]; cbn [run];
    unfold jiang2016, pan2016, thorne2004, avanzini2008; rewrite HM; eexists; reflexivity.
Qed.

(** The same call with another number of revolutions. *)
Definition with_M (M : Z) (a : args) : args :=
  Args (a_mu a) (a_r1 a) (a_r2 a) (a_tof a) M (a_is_prograde a) (a_is_low_path a)
    (a_maxiter a) (a_atol a) (a_rtol a) (a_full_output a).

Lemma validated_M {A} a M (k : vec num -> vec num -> res A) :
  (0 <= a_M a)%Z -> (0 <= M)%Z -> validated a k = validated (with_M M a) k.
Proof.
  intros H1 H2. unfold validated, with_M, assert_parameters_are_valid. cbn [a_mu a_r1 a_r2 a_tof a_M].
  unfold assert_number_of_revolutions_not_negative.
  rewrite (proj2 (Z.ltb_ge _ _) H1), (proj2 (Z.ltb_ge _ _) H2). reflexivity.
Qed.

(** The other three zero-revolution solvers ignore [M]: whatever they do for a
    zero-revolution request, they do for every [M > 0]. *)
Theorem C04_multi_revolution_ignored_refuted : forall s ev a M,
  In s [Gauss; Battin; Vallado] -> a_M a = 0%Z -> (0 < M)%Z ->
  run s ev (with_M M a) = run s ev a.
Proof.
  intros s ev a M Hs H0 HM.
  destruct Hs as [<-|[<-|[<-|[]]]]; cbn [run]; symmetry;
    unfold gauss1809, battin1984, vallado2013;
    rewrite (validated_M a M) by lia; reflexivity.
Qed.

End Input.
Print Assumptions C01_non_physical_arguments_rejected.
Print Assumptions C01_physical_arguments_pass.
Print Assumptions C02_badly_shaped_arrival_rejected.
Print Assumptions C04_multi_revolution_refused_partial.
Print Assumptions C04_multi_revolution_ignored_refuted.

(** ** C05 *)

(** Every registry is a duplicate-free list of known solvers, the full registry
    misses none, and no solver is both robust and non-robust. *)
Theorem C05_registries :
  NoDup ALL_SOLVERS /\ (forall s, In s ALL_SOLVERS) /\
  NoDup ZERO_REV_SOLVERS /\ NoDup MULTI_REV_SOLVERS /\
  NoDup NON_ROBUST_SOLVERS /\ NoDup ROBUST_SOLVERS /\
  (forall s, In s ROBUST_SOLVERS -> ~ In s NON_ROBUST_SOLVERS).
Proof.
  assert (D : forall x y : solver, {x = y} + {x <> y}) by decide equality.
  assert (ND : forall l : list solver, nodup D l = l -> NoDup l).
  { intros l H. rewrite <- H. apply NoDup_nodup. }
  split; [repeat constructor; simpl; intuition congruence|].
  split; [intros []; simpl; tauto|].
  repeat (split; [repeat constructor; simpl; intuition congruence|]).
  intros s H K. simpl in H, K. intuition congruence.
Qed.
Print Assumptions C05_registries.
