(** * Facts about the calling convention and the result monad. *)
From Coq Require Import ZArith List Bool Lia.
From Verif Require Import Num MApi.

Section Facts.
Context {N : Num}.

Lemma bind_ok {A B} (m : res A) (k : A -> res B) b :
  bind m k = Ok b -> exists a, m = Ok a /\ k a = Ok b.
Proof. destruct m; simpl; [eauto|discriminate]. Qed.

Lemma bind_err {A B} (m : res A) (k : A -> res B) e :
  bind m k = Err e -> m = Err e \/ exists a, m = Ok a /\ k a = Err e.
Proof. destruct m; simpl; [eauto|]. intros H; inversion H; auto. Qed.

Lemma tpi_inv {A} clock full n (k : num -> res A) o :
  bind (time_per_iteration clock full n) k = Ok o ->
  exists t, k t = Ok o /\ (full = true -> n <> 0%Z).
Proof.
  unfold time_per_iteration. destruct full; [|intros H; exists (nofZ 0); split; [exact H|discriminate]].
  destruct (n =? 0)%Z eqn:E; [discriminate|]. apply Z.eqb_neq in E. intros H. eauto.
Qed.

Lemma tpi_ok clock full n : n <> 0%Z -> exists t, time_per_iteration clock full n = Ok t.
Proof.
  intros H. unfold time_per_iteration. destruct full; [|eauto].
  rewrite (proj2 (Z.eqb_neq _ _)) by assumption. eauto.
Qed.

Lemma mk_out_inv full v1 v2 n t o :
  Ok (mk_out full v1 v2 n t) = Ok o -> out_v1 o = v1 /\ out_v2 o = v2.
Proof. intros H; inversion H. destruct full; auto. Qed.

End Facts.
