(** * Facts about the loop combinators. *)
From Coq Require Import ZArith Lia Bool.
From Verif Require Import Num.

Section Loops.
Context {A S : Type}.

Lemma for_range_inv (body : Z -> S -> flow A S) (P : Z -> S -> Prop) n i s a :
  P i s ->
  (forall j t t', (i <= j < i + Z.of_nat n)%Z -> P j t -> body j t = Next t' -> P (j + 1)%Z t') ->
  for_range body n i s = Break a ->
  exists j t, (i <= j < i + Z.of_nat n)%Z /\ P j t /\ body j t = Break a.
Proof.
  revert i s. induction n as [|n IH]; intros i s H0 Hs; simpl; [discriminate|].
  destruct (body i s) as [b|t|e] eqn:E; intros H.
  - inversion H; subst. exists i, s. repeat split; auto; lia.
  - destruct (IH (i + 1)%Z t) as (j & u & Hj & Pj & Ej).
    + apply (Hs i s); auto; lia.
    + intros k u u' Hk. apply Hs. lia.
    + exact H.
    + exists j, u. repeat split; auto; lia.
  - discriminate.
Qed.

Lemma for_range_next_inv (body : Z -> S -> flow A S) (P : Z -> S -> Prop) n i s s' :
  P i s ->
  (forall j t t', (i <= j < i + Z.of_nat n)%Z -> P j t -> body j t = Next t' -> P (j + 1)%Z t') ->
  for_range body n i s = Next s' -> P (i + Z.of_nat n)%Z s'.
Proof.
  revert i s. induction n as [|n IH]; intros i s H0 Hs; simpl.
  - intros H; inversion H; subst. now replace (i + 0)%Z with i by lia.
  - destruct (body i s) as [b|t|e] eqn:E; intros H; try discriminate.
    replace (i + Z.pos (Pos.of_succ_nat n))%Z with ((i + 1) + Z.of_nat n)%Z by lia.
    apply (IH (i + 1)%Z t); auto.
    + apply (Hs i s); auto; lia.
    + intros k u u' Hk. apply Hs. lia.
Qed.

Lemma for_range_break_mono (body : Z -> S -> flow A S) n m i s a :
  for_range body n i s = Break a -> (n <= m)%nat -> for_range body m i s = Break a.
Proof.
  revert m i s. induction n as [|n IH]; intros m i s; simpl; [discriminate|].
  intros H Hm. destruct m as [|m]; [lia|]. simpl.
  destruct (body i s); auto. apply IH; auto; lia.
Qed.
Lemma for_range_raise_mono (body : Z -> S -> flow A S) n m i s e :
  for_range body n i s = Raise e -> (n <= m)%nat -> for_range body m i s = Raise e.
Proof.
  revert m i s. induction n as [|n IH]; intros m i s; simpl; [discriminate|].
  intros H Hm. destruct m as [|m]; [lia|]. simpl.
  destruct (body i s); auto. apply IH; auto; lia.
Qed.

Lemma for_range_ext (body body' : Z -> S -> flow A S) n i s :
  (forall j t, body j t = body' j t) -> for_range body n i s = for_range body' n i s.
Proof.
  intros H. revert i s. induction n as [|n IH]; intros i s; simpl; [reflexivity|].
  rewrite H. destruct (body' i s); auto.
Qed.

Lemma while_true_inv (body : S -> flow A S) (P : S -> Prop) fuel s a :
  P s -> (forall t t', P t -> body t = Next t' -> P t') ->
  while_true body fuel s = Break a -> exists t, P t /\ body t = Break a.
Proof.
  intros H0 Hs. revert s H0. induction fuel as [|n IH]; intros s H0; simpl; [discriminate|].
  destruct (body s) as [b|t|e] eqn:E; intros H.
  - inversion H; subst. eauto.
  - apply (IH t); eauto.
  - discriminate.
Qed.
Lemma while_true_not_next (body : S -> flow A S) fuel s t :
  while_true body fuel s <> Next t.
Proof.
  revert s. induction fuel as [|n IH]; intros s; simpl; [discriminate|].
  destruct (body s); auto; discriminate.
Qed.
Lemma while_true_mono (body : S -> flow A S) n m s r :
  while_true body n s = r -> r <> Raise OutOfFuel -> (n <= m)%nat -> while_true body m s = r.
Proof.
  revert m s. induction n as [|n IH]; intros m s; simpl; [congruence|].
  intros H Hr Hm. destruct m as [|m]; [lia|]. simpl.
  destruct (body s); auto. apply IH; auto; lia.
Qed.
(** A loop whose state never leaves an invariant on which the body continues
    runs out of every fuel. *)
Lemma while_true_diverges (body : S -> flow A S) (P : S -> Prop) fuel s :
  P s -> (forall t, P t -> exists t', body t = Next t' /\ P t') ->
  while_true body fuel s = Raise OutOfFuel.
Proof.
  intros H0 Hs. revert s H0. induction fuel as [|n IH]; intros s H0; simpl; [reflexivity|].
  destruct (Hs s H0) as (t & -> & Ht). auto.
Qed.
End Loops.
