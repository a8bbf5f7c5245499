(** * Multi-revolution test cases of the repository, run on the model. *)
From Coq Require Import ZArith Bool List.
Import ListNotations.
From Verif Require Import Num FloatNum MApi MScipy MInit FloatExec.

(** All of MULTI_REV_SOLVERS except [negrete2024], which is slow here. *)
Definition quick_multi_solvers : list solver :=
  [Gooding; Der; Arora; Izzo; McElreath; Delatorre].

Definition multi_failures (test : solver -> bool) : list solver :=
  filter (fun s => negb (test s)) quick_multi_solvers.

Definition run_multi :=
  Eval vm_compute in
  map multi_failures
    [multi_prograde_high; multi_prograde_low; multi_retrograde_high;
     multi_retrograde_low; infeasible; hard_0_high; hard_1_high; hard_1_low;
     hard_2_high; hard_2_low].

Example multi_rev_runs : run_multi = [[]; []; []; []; []; []; []; []; []; []].
Proof. reflexivity. Qed.

(** [negrete2024] on one multi-revolution case. *)
Definition run_negrete := Eval vm_compute in multi_prograde_high Negrete.
Example negrete_run : run_negrete = true.
Proof. reflexivity. Qed.
