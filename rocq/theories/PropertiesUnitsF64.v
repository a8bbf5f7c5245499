(** * Change of units in double precision: C30 refuted for six solvers.

    The scale factors are powers of two, so that converting the inputs and the
    answers rounds nothing. *)
From Coq Require Import ZArith String List Bool Floats.SpecFloat.
Import ListNotations.
From Verif Require Import Num MApi MInit FloatNum FloatExec PropertiesBudgetF64.
Local Open Scope Z_scope.

(** The transfer from (1,0,0) to (0,2,0) with mu = 1, lengths multiplied by
    [2^l] and times by [2^k]. *)
Definition in_units (s : solver) (l k : Z) (tof rtol : f64) : res (@out F64) :=
  @run F64 s test_env
    (@Args F64 (fldexp (fofZ 1) (3 * l - 2 * k)) [fldexp (fofZ 1) l; fofZ 0; fofZ 0] [fofZ 0; fldexp (fofZ 2) l; fofZ 0]
       (fldexp tof k) 0 true true 100 (flit 1 100000) rtol true).

(** Both runs answer, and the second one converted back is another velocity. *)
Definition unit_dependent (a b : res (@out F64)) (e : Z) : Prop :=
  exists o p, a = Ok o /\ b = Ok p /\ SFeqb (vx (out_v1 o)) (fldexp (vx (out_v1 p)) e) = false.
Definition unit_dependent_b (a b : res (@out F64)) (e : Z) : bool :=
  match a, b with Ok o, Ok p => negb (SFeqb (vx (out_v1 o)) (fldexp (vx (out_v1 p)) e)) | _, _ => false end.
Lemma unit_dependent_of a b e : unit_dependent_b a b e = true -> unit_dependent a b e.
Proof.
  unfold unit_dependent_b. destruct a as [o|], b as [p|]; try discriminate. intros H.
  exists o, p. split; [reflexivity|]. split; [reflexivity|]. now apply negb_true_iff.
Qed.

(** Absolute tolerances: with lengths and times in units a million times
    larger, mu is small, and these solvers answer with another velocity. *)
Theorem C30_jiang_refuted : unit_dependent (in_units Jiang 0 0 (fofZ 2) (flit 1 10000000)) (in_units Jiang (-20) (-20) (fofZ 2) (flit 1 10000000)) 0.
Proof. apply unit_dependent_of. vm_compute. reflexivity. Qed.
Print Assumptions C30_jiang_refuted.
Theorem C30_delatorre_refuted : unit_dependent (in_units Delatorre 0 0 (fofZ 2) (flit 1 10000000)) (in_units Delatorre (-20) (-20) (fofZ 2) (flit 1 10000000)) 0.
Proof. apply unit_dependent_of. vm_compute. reflexivity. Qed.
Print Assumptions C30_delatorre_refuted.
Theorem C30_pan_refuted : unit_dependent (in_units Pan 0 0 (fofZ 2) (flit 1 10000000)) (in_units Pan (-20) (-20) (fofZ 2) (flit 1 10000000)) 0.
Proof. apply unit_dependent_of. vm_compute. reflexivity. Qed.
Print Assumptions C30_pan_refuted.
Theorem C30_thorne_refuted : unit_dependent (in_units Thorne 0 0 (fofZ 2) (flit 1 10000000)) (in_units Thorne (-20) (-20) (fofZ 2) (flit 1 10000000)) 0.
Proof. apply unit_dependent_of. vm_compute. reflexivity. Qed.
Print Assumptions C30_thorne_refuted.
Theorem C30_mcelreath_refuted : unit_dependent (in_units McElreath 0 0 (fofZ 2) (flit 1 10000000)) (in_units McElreath (-20) (-20) (fofZ 2) (flit 1 10000000)) 0.
Proof. apply unit_dependent_of. vm_compute. reflexivity. Qed.
Print Assumptions C30_mcelreath_refuted.

(** vallado2013 subtracts a length from one (vallado.py:116, a product of the
    radii over [A]) when it looks for a positive [y]: with lengths halved it stops after twelve iterations in place of eight. *)
Theorem C30_vallado_refuted :
  (exists v1 v2 t, in_units Vallado 0 0 (flit 1 2) (flit 1 10) = Ok (Full v1 v2 8 t)) /\
  (exists v1 v2 t, in_units Vallado (-1) 0 (flit 1 2) (flit 1 10) = Ok (Full v1 v2 12 t)).
Proof. split; apply count_some; vm_compute; reflexivity. Qed.
Print Assumptions C30_vallado_refuted.

(** ** C28: the hyperbolic bracket of jiang2016

    Its upper end [-eps max(s, c, 1)] is never checked, so that it holds no root
    when the time of flight is short; the search then returns the same motion
    for two times of flight one of which is ten times the other. *)
Definition same_start (a b : res (@out F64)) : Prop :=
  exists o p, a = Ok o /\ b = Ok p /\ SFeqb (vx (out_v1 o)) (vx (out_v1 p)) = true /\
    SFeqb (vy (out_v1 o)) (vy (out_v1 p)) = true /\ SFeqb (vz (out_v1 o)) (vz (out_v1 p)) = true.
Definition same_start_b (a b : res (@out F64)) : bool :=
  match a, b with
  | Ok o, Ok p => SFeqb (vx (out_v1 o)) (vx (out_v1 p)) && SFeqb (vy (out_v1 o)) (vy (out_v1 p)) && SFeqb (vz (out_v1 o)) (vz (out_v1 p))
  | _, _ => false
  end.
Lemma same_start_of a b : same_start_b a b = true -> same_start a b.
Proof.
  unfold same_start_b. destruct a as [o|], b as [p|]; try discriminate. intros H.
  apply andb_prop in H. destruct H as [H H3]. apply andb_prop in H. destruct H as [H1 H2]. exists o, p. auto.
Qed.
Theorem C28_jiang_hyperbolic_refuted :
  same_start (in_units Jiang 0 0 (flit 1 10000) (flit 1 10000000)) (in_units Jiang 0 0 (flit 1 1000) (flit 1 10000000)).
Proof. apply same_start_of. vm_compute. reflexivity. Qed.
Print Assumptions C28_jiang_hyperbolic_refuted.
