(** * Zero-revolution test cases of the repository, run on the model.

    Each table is evaluated when this file is compiled; the Examples record that
    every listed solver passes.  Left out for running time only: [pan2016] and
    [gooding1990] on the cases where they need more than 15 seconds here. *)
From Coq Require Import ZArith Bool List.
Import ListNotations.
From Verif Require Import Num FloatNum MApi MScipy MInit FloatExec.

Definition quick_solvers : list solver :=
  [Battin; Jiang; Der; Thorne; Avanzini; Arora; Vallado; Izzo; McElreath; Delatorre].

Definition failures (test : solver -> bool) (l : list solver) : list solver :=
  filter (fun s => negb (test s)) l.

Definition run_vallado_book :=
  Eval vm_compute in failures vallado_book (Gauss :: Pan :: Gooding :: quick_solvers).
Definition run_curtis_book :=
  Eval vm_compute in failures curtis_book (Pan :: Gooding :: quick_solvers).
Definition run_battin_book :=
  Eval vm_compute in failures battin_book (Gauss :: quick_solvers).
Definition run_gmat_prograde :=
  Eval vm_compute in failures gmat_prograde (Gooding :: quick_solvers).
Definition run_gmat_retrograde :=
  Eval vm_compute in failures gmat_retrograde (Pan :: Gooding :: quick_solvers).
Definition run_der_I_prograde :=
  Eval vm_compute in failures der_I_prograde (quick_solvers).
Definition run_der_I_retrograde :=
  Eval vm_compute in failures der_I_retrograde (quick_solvers).
Definition run_der_II_prograde :=
  Eval vm_compute in failures der_II_prograde (Pan :: Gooding :: quick_solvers).
Definition run_der_II_retrograde :=
  Eval vm_compute in failures der_II_retrograde (Pan :: Gooding :: quick_solvers).

Example zero_rev_runs :
  [run_vallado_book; run_curtis_book; run_battin_book; run_gmat_prograde;
   run_gmat_retrograde; run_der_I_prograde; run_der_I_retrograde;
   run_der_II_prograde; run_der_II_retrograde]
  = [[]; []; []; []; []; []; []; []; []].
Proof. reflexivity. Qed.
