(** * C35: arora2013 answers a problem that has no solution.

    Two runs of the model in binary64: the quarter turn of the unit circle in
    half a unit of time, with one complete revolution and with none.  Over the
    reals the first has no transfer ([quarter_infeasible]); arora2013 answers it
    with the velocities of the second. *)
From Coq Require Import ZArith Bool String List Reals.
From Coq Require Import Floats.SpecFloat.
Import ListNotations.
From Verif Require Import Num FloatNum MApi MInit FloatExec Spec SpecLambert PropertiesAngles PropertiesDerMin PropertiesPaths.

Definition q_call (s : solver) (M : Z) : res (@out F64) :=
  call_default s (fofZ 1) (dec3 0 1 0 0) (dec3 0 0 1 0) (dec 5 1) M true true.

Definition v1_of (r : res (@out F64)) : option (f64 * f64 * f64) :=
  match r with Ok o => Some (vx (out_v1 o), vy (out_v1 o), vz (out_v1 o)) | _ => None end.
Definition equal (a b : option (f64 * f64 * f64)) : bool :=
  match a, b with
  | Some (x, y, z), Some (x', y', z') => SFeqb x x' && SFeqb y y' && SFeqb z z'
  | _, _ => false
  end.
Lemma equal_some a b : equal (v1_of a) (v1_of b) = true -> exists o o', a = Ok o /\ b = Ok o' /\
  SFeqb (vx (out_v1 o)) (vx (out_v1 o')) = true /\ SFeqb (vy (out_v1 o)) (vy (out_v1 o')) = true /\ SFeqb (vz (out_v1 o)) (vz (out_v1 o')) = true.
Proof.
  destruct a as [o|], b as [o'|]; cbn [v1_of equal]; try discriminate. intros H.
  apply andb_true_iff in H. destruct H as [H H3]. apply andb_true_iff in H. destruct H as [H1 H2].
  exists o, o'. repeat split; assumption.
Qed.

Theorem C35_arora_refuted :
  ~ feasible 1%R ex_r1 ex_r2 true 1 (1 / 2)%R /\
  exists o o', q_call Arora 1 = Ok o /\ q_call Arora 0 = Ok o' /\
    SFeqb (vx (out_v1 o)) (vx (out_v1 o')) = true /\ SFeqb (vy (out_v1 o)) (vy (out_v1 o')) = true /\
    SFeqb (vz (out_v1 o)) (vz (out_v1 o')) = true.
Proof.
  split; [exact quarter_infeasible|]. apply equal_some. vm_compute. reflexivity.
Qed.
Print Assumptions C35_arora_refuted.
