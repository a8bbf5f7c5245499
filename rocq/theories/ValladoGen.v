(** * vallado2013 over any arithmetic. *)
From Coq Require Import ZArith Bool Lia.
From Verif Require Import Num MApi MStumpff MVallado Loops.

Section Gen.
Context {N : Num}.

(** What a pass of the bisection loop that stops has established. *)
Lemma val_readjust_y (n1 n2 A : num) fuel psi_low psi st :
  val_readjust n1 n2 A fuel psi_low psi (val_y_at_psi psi n1 n2 A) = Break st ->
  let '(_, psi', y') := st in y' = val_y_at_psi psi' n1 n2 A.
Proof.
  intros H. unfold val_readjust in H.
  apply (while_true_inv _ (fun st => let '(_, psi', y') := st in y' = val_y_at_psi psi' n1 n2 A))
    in H.
  - destruct H as ([[l q] y] & Hy & Hb). destruct (nltb y _); [discriminate|].
    inversion Hb; subst st. exact Hy.
  - reflexivity.
  - intros [[l q] y] [[l' q'] y'] _ Hb. destruct (nltb y _); [|discriminate].
    inversion Hb. reflexivity.
Qed.

Lemma val_loop_break mu tof rtol (n1 n2 A : num) fuel n st0 it psi y :
  for_range (val_body mu tof rtol n1 n2 A fuel) n 1 st0 = Break (it, psi, y) ->
  (1 <= it <= Z.of_nat n)%Z /\
  y = val_y_at_psi psi n1 n2 A /\
  nltb (nabs (ndiv (nsub (val_tof mu psi (val_X_at_psi psi y) A y) tof) tof)) rtol = true.
Proof.
  intros H.
  destruct (for_range_inv _ (fun _ _ => True) _ _ _ _ I (fun _ _ _ _ _ _ => I) H)
    as (j & [[ps pl] pu] & Hj & _ & Hb).
  unfold val_body in Hb.
  assert (K : exists pl' psi' y', y' = val_y_at_psi psi' n1 n2 A /\
    (let X := val_X_at_psi psi' y' in
      let tof_new := val_tof mu psi' X A y' in
      if nltb (nabs (ndiv (nsub tof_new tof) tof)) rtol then Break (j, psi', y')
      else
        let condition := nleb tof_new tof in
        let one_if (b : bool) := if b then nofZ 1 else nofZ 0 in
        let psi_low := nadd pl' (nmul (nsub psi' pl') (one_if condition)) in
        let psi_up := nadd pu (nmul (nsub psi' pu) (one_if (negb condition))) in
        Next (ndiv (nadd psi_up psi_low) (nofZ 2), psi_low, psi_up)) = Break (it, psi, y)).
  { destruct (nltb (nofZ 0) A).
    - destruct (val_readjust _ _ _ _ _ _ _) as [[[pl' psi'] y']|st|e] eqn:E; try discriminate.
      apply val_readjust_y in E. exists pl', psi', y'. split; [exact E|exact Hb].
    - exists pl, ps, (val_y_at_psi ps n1 n2 A). split; [reflexivity|exact Hb]. }
  destruct K as (pl' & psi' & y' & Ey & Hk). cbv zeta in Hk.
  destruct (nltb _ rtol) eqn:Et in Hk; [|discriminate].
  injection Hk as <- <- <-. split; [lia|]. split; assumption.
Qed.

End Gen.
