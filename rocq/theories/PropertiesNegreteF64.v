(** * Binary64 run in which negrete2024 misses the requested time: C50. *)
From Coq Require Import ZArith Bool List String.
From Coq Require Import Floats.SpecFloat.
Import ListNotations.
From Verif Require Import Num FloatNum MApi MScipy MLinalg MAngles MComplex MNegrete MInit FloatExec.

Definition neg_r1 : vec f64 := @V3 f64 (fofZ 1) (fofZ 0) (fofZ 0).
Definition neg_r2 : vec f64 := @V3 f64 (fofZ 0) (fofZ 1) (fofZ 0).
(** A quarter turn around a unit mass in two units of time, with four samples
    and the default tolerances. *)
Definition neg_run : res (@out F64) :=
  @run F64 Negrete test_env
    (@Args F64 (fofZ 1) [fofZ 1; fofZ 0; fofZ 0] [fofZ 0; fofZ 1; fofZ 0] (fofZ 2) 0 true true 4 (default_atol Negrete) (default_rtol Negrete) false).
Definition neg_root : res f64 :=
  let n1 := @norm F64 neg_r1 in
  let n2 := @norm F64 neg_r2 in
  let A := @neg_A F64 n1 n2 (@get_transfer_angle F64 neg_r1 neg_r2 true) in
  @neg_find_z F64 (fofZ 1) n1 n2 A (fofZ 2) 0 true 4 (default_atol Negrete) (default_rtol Negrete).
(** The time of flight of the model at a root. *)
Definition neg_time (z : f64) : f64 :=
  let n1 := @norm F64 neg_r1 in
  let n2 := @norm F64 neg_r2 in
  let A := @neg_A F64 n1 n2 (@get_transfer_angle F64 neg_r1 neg_r2 true) in
  @neg_tof_at_z F64 z (fofZ 1) n1 n2 A.

(** The time of flight at [z] differs from the requested one by more than [1e-4]. *)
Definition missed (z : f64) : bool := @nltb F64 (dec 1 4) (@nabs F64 (@nsub F64 (neg_time z) (fofZ 2))).

Lemma both_ok {A B} (r : res A) (z : res B) (P : B -> bool) :
  (match r, z with Ok _, Ok x => P x | _, _ => false end) = true -> exists o x, r = Ok o /\ z = Ok x /\ P x = true.
Proof. destruct r as [o|], z as [x|]; try discriminate. intros H. exists o, x. auto. Qed.

(** The solver answers although, by its own time of flight function, the root
    it found belongs to a flight time that is off by more than [1e-4]: the root
    is never checked against the time of flight. *)
Theorem C50_negrete_unchecked_refuted : exists o z,
  neg_run = Ok o /\ neg_root = Ok z /\ missed z = true.
Proof. apply both_ok. vm_compute. reflexivity. Qed.
Print Assumptions C50_negrete_unchecked_refuted.
