(** * Derivation rules on the reals, in a form convenient for [eapply]. *)
From Coq Require Import Reals Lra.
From Coquelicot Require Import Coquelicot.
Local Open Scope R_scope.

Lemma rd_eq (f : R -> R) x d d' : is_derive f x d -> d = d' -> is_derive f x d'.
Proof. now intros H <-. Qed.
Lemma rd_ext (f g : R -> R) x d : (forall y, f y = g y) -> is_derive f x d -> is_derive g x d.
Proof. intros E H. eapply is_derive_ext; eassumption. Qed.
Lemma rd_id (x : R) : is_derive (fun y : R => y) x 1.
Proof. apply (is_derive_id (K := R_AbsRing)). Qed.
Lemma rd_const (a x : R) : is_derive (fun _ : R => a) x 0.
Proof. apply (is_derive_const (K := R_AbsRing) (V := R_NormedModule)). Qed.
Lemma rd_plus (f g : R -> R) x df dg :
  is_derive f x df -> is_derive g x dg -> is_derive (fun y => f y + g y) x (df + dg).
Proof. apply (is_derive_plus (K := R_AbsRing) (V := R_NormedModule)). Qed.
Lemma rd_minus (f g : R -> R) x df dg :
  is_derive f x df -> is_derive g x dg -> is_derive (fun y => f y - g y) x (df - dg).
Proof. apply (is_derive_minus (K := R_AbsRing) (V := R_NormedModule)). Qed.
Lemma rd_opp (f : R -> R) x df : is_derive f x df -> is_derive (fun y => - f y) x (- df).
Proof. apply (is_derive_opp (K := R_AbsRing) (V := R_NormedModule)). Qed.
Lemma rd_mult (f g : R -> R) x df dg :
  is_derive f x df -> is_derive g x dg -> is_derive (fun y => f y * g y) x (df * g x + f x * dg).
Proof. intros. apply (is_derive_mult f g x df dg); auto. intros; apply Rmult_comm. Qed.
Lemma rd_div (f g : R -> R) x df dg :
  is_derive f x df -> is_derive g x dg -> g x <> 0 ->
  is_derive (fun y => f y / g y) x ((df * g x - f x * dg) / (g x * g x)).
Proof.
  intros Hf Hg H. eapply rd_eq; [apply (is_derive_div f g x df dg); auto|]. unfold Rdiv. simpl. now rewrite Rmult_1_r.
Qed.
Lemma rd_inv (g : R -> R) x dg :
  is_derive g x dg -> g x <> 0 -> is_derive (fun y => / g y) x (- dg / (g x * g x)).
Proof.
  intros Hg H. eapply rd_eq; [apply (is_derive_inv g x dg); auto|]. unfold Rdiv. simpl. now rewrite Rmult_1_r.
Qed.
Lemma rd_comp (f g : R -> R) x df dg :
  is_derive f (g x) df -> is_derive g x dg -> is_derive (fun y => f (g y)) x (dg * df).
Proof. intros. apply (is_derive_comp f g x df dg); auto. Qed.
Lemma rd_sqrt (g : R -> R) x dg :
  is_derive g x dg -> 0 < g x -> is_derive (fun y => sqrt (g y)) x (dg / (2 * sqrt (g x))).
Proof.
  intros Hg H. apply (rd_eq _ _ (dg * / (2 * sqrt (g x)))); [|reflexivity].
  apply (rd_comp sqrt g); [|exact Hg]. apply is_derive_Reals, derivable_pt_lim_sqrt, H.
Qed.
Lemma rd_continuous (f : R -> R) x d : is_derive f x d -> continuity_pt f x.
Proof. intros H. apply continuity_pt_filterlim. apply (ex_derive_continuous f). eexists. exact H. Qed.

Ltac rd_step tac :=
  lazymatch goal with
  | |- is_derive (fun _ => ?a) _ _ => apply (rd_const a)
  | |- is_derive (fun y => y) _ _ => apply rd_id
  | |- is_derive (fun y => @?f y + @?g y) _ _ => eapply (rd_plus f g); [rd_step tac|rd_step tac]
  | |- is_derive (fun y => @?f y - @?g y) _ _ => eapply (rd_minus f g); [rd_step tac|rd_step tac]
  | |- is_derive (fun y => @?f y * @?g y) _ _ => eapply (rd_mult f g); [rd_step tac|rd_step tac]
  | |- is_derive (fun y => @?f y / @?g y) _ _ => eapply (rd_div f g); [rd_step tac|rd_step tac|]
  | |- is_derive (fun y => - @?f y) _ _ => eapply (rd_opp f); rd_step tac
  | |- is_derive (fun y => / @?f y) _ _ => eapply (rd_inv f); [rd_step tac|]
  | |- is_derive (fun y => sqrt (@?f y)) _ _ => eapply (rd_sqrt f); [rd_step tac|]
  | _ => tac
  end.
(** Read an equation in one of Coquelicot's structures as one in [R]. *)
Ltac req := match goal with |- @eq _ ?a ?b => change (@eq R a b) end.
(** Derive and leave the equation between derivatives (and side conditions). *)
Ltac rd tac := eapply rd_eq; [rd_step tac|]; cbv beta;
  try req.
