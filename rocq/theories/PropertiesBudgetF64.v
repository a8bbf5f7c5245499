(** * Binary64 runs that contradict C18, C19 and C20.

    Each is one run of the model in binary64 on an ordinary problem: one radian
    and more on a circle of radius about one. *)
From Coq Require Import ZArith Bool List String Lia.
From Coq Require Import Floats.SpecFloat.
Import ListNotations.
From Verif Require Import Num FloatNum MApi MScipy MInit FloatExec PropertiesFlags PropertiesBudget.

Definition f1 : list f64 := dec3 0 1 0 0.
Definition f2 : list f64 := dec3 1 0 12 3.
Definition b_call (s : solver) (maxiter : Z) (full : bool) : res (@out F64) :=
  @run F64 s test_env
    (@Args F64 (fofZ 1) f1 f2 (fofZ 2) 0 true true maxiter (default_atol s) (default_rtol s) full).
Definition count (r : res (@out F64)) : option Z :=
  match r with Ok (Full _ _ n _) => Some n | _ => None end.
Definition speed (r : res (@out F64)) : option f64 :=
  match r with Ok o => Some (vx (out_v1 o)) | _ => None end.
Definition differ (a b : option f64) : bool :=
  match a, b with Some x, Some y => negb (SFeqb x y) | _, _ => false end.

Lemma count_some r n : count r = Some n -> exists v1 v2 t, r = Ok (Full v1 v2 n t).
Proof.
  destruct r as [[v1 v2|v1 v2 m t]|e]; cbn [count]; try discriminate.
  intros H. injection H as ->. exists v1, v2, t. reflexivity.
Qed.
Lemma differ_some r1 r2 : differ (speed r1) (speed r2) = true ->
  exists o1 o2, r1 = Ok o1 /\ r2 = Ok o2 /\ SFeqb (vx (out_v1 o1)) (vx (out_v1 o2)) = false.
Proof.
  destruct r1 as [o1|e1], r2 as [o2|e2]; cbn [speed differ]; try discriminate.
  intros H. exists o1, o2. split; [reflexivity|]. split; [reflexivity|]. now apply negb_true_iff.
Qed.

(** C18: with [maxiter = 1], negrete2024 reports four iterations. *)
Theorem C18_negrete_refuted : exists v1 v2 t,
  b_call Negrete 1 true = Ok (Full v1 v2 4 t).
Proof. apply count_some. vm_compute. reflexivity. Qed.
Print Assumptions C18_negrete_refuted.

(** C18: with [maxiter = -3], gooding1990 reports minus three iterations. *)
Theorem C18_gooding_refuted : exists v1 v2 t,
  b_call Gooding (-3) true = Ok (Full v1 v2 (-3) t).
Proof. apply count_some. vm_compute. reflexivity. Qed.
Print Assumptions C18_gooding_refuted.

(** C20: gooding1990 answers with one and with two iterations, differently. *)
Theorem C20_gooding_refuted : exists o1 o2,
  b_call Gooding 1 false = Ok o1 /\ b_call Gooding 2 false = Ok o2
  /\ SFeqb (vx (out_v1 o1)) (vx (out_v1 o2)) = false.
Proof. apply differ_some. vm_compute. reflexivity. Qed.
Print Assumptions C20_gooding_refuted.

(** C20: negrete2024 reports a different count for every budget above four. *)
Theorem C20_negrete_refuted : forall {N : Num} (ev : env) (a : args) (m : Z) v1 v2 n t w1 w2 k u,
  (4 <= a_maxiter a < m)%Z ->
  run Negrete ev a = Ok (Full v1 v2 n t) ->
  run Negrete ev (with_maxiter m a) = Ok (Full w1 w2 k u) -> (n < k)%Z.
Proof.
  intros N ev a m v1 v2 n t w1 w2 k u Hm H1 H2.
  pose proof (C18_count Negrete ev a v1 v2 n t H1) as E1.
  pose proof (C18_count Negrete ev _ w1 w2 k u H2) as E2. cbn in E1, E2. lia.
Qed.
Print Assumptions C20_negrete_refuted.

(** Concrete cases for the theorems of [PropertiesBudget]: jiang2016 reports six
    iterations, and the same answer with a larger budget. *)
Example C18_case : count (b_call Jiang 35 true) = Some 6%Z.
Proof. vm_compute. reflexivity. Qed.
Lemma speed_some r x : speed r = Some x -> exists o, r = Ok o.
Proof. destruct r as [o|e]; [eauto|discriminate]. Qed.
Lemma jiang_grows {N : Num} (ev : env) mu r1 r2 tof M p l mi mj at_ rt fo o : (mi <= mj)%Z ->
  run Jiang ev (Args mu r1 r2 tof M p l mi at_ rt fo) = Ok o ->
  run Jiang ev (Args mu r1 r2 tof M p l mj at_ rt fo) = Ok o.
Proof.
  intros Hm H. refine (C20_larger_budget Jiang ev (Args mu r1 r2 tof M p l mi at_ rt fo) mj o _ Hm H). cbn; tauto.
Qed.
Example C20_case : exists o, b_call Jiang 6 false = Ok o /\ b_call Jiang 35 false = Ok o.
Proof.
  assert (E : exists o, b_call Jiang 6 false = Ok o).
  { eapply speed_some. vm_compute. reflexivity. }
  destruct E as (o & R). exists o. split; [exact R|]. unfold b_call in R |- *. revert R. apply jiang_grows. lia.
Qed.

(** C21: a call that answers with and without [full_output]. *)
Lemma full_plain {N : Num} s (ev : env) mu r1 r2 tof M p l mi at_ rt o : s <> Izzo ->
  run s ev (Args mu r1 r2 tof M p l mi at_ rt true) = Ok o ->
  run s ev (Args mu r1 r2 tof M p l mi at_ rt false) = Ok (Pair (out_v1 o) (out_v2 o)).
Proof.
  destruct ev as [c f b m]. intros Hs H.
  exact (C21_full_output s (Env c f b m) c (Args mu r1 r2 tof M p l mi at_ rt true) o Hs H).
Qed.
Example C21_case : exists o,
  b_call Gooding 35 true = Ok o /\ b_call Gooding 35 false = Ok (Pair (out_v1 o) (out_v2 o)).
Proof.
  assert (E : exists o, b_call Gooding 35 true = Ok o).
  { eapply speed_some. vm_compute. reflexivity. }
  destruct E as (o & R). exists o. split; [exact R|]. unfold b_call in R |- *. revert R. apply full_plain. discriminate.
Qed.
