(** * MULTI_REV_SOLVERS agrees with what the solvers do: C05. *)
From Coq Require Import ZArith Bool List String Lia.
From Coq Require Import Floats.SpecFloat.
Import ListNotations.
From Verif Require Import Num FloatNum MApi MScipy MInit PropertiesInput.

(** In binary64 arithmetic and some environment, the solver answers some request
    for [M > 0] revolutions, and does not answer it like the request for none. *)
Definition answers_multi_revolution (s : solver) : Prop :=
  exists ev (a : @args F64) o,
    (0 < a_M a)%Z /\ @run F64 s ev a = Ok o /\ @run F64 s ev (with_M 0 a) <> Ok o.

(** A quarter turn from radius 1 to radius 2 in 30 time units, mu = 1, with
    coarse tolerances. *)
Definition reg_env : @env F64 :=
  @Env F64 (fun _ => fofZ 0) 3 (fun _ _ hi _ _ _ => Ok (hi, 1%Z))
    (fun _ _ _ _ => Ok (true, fofZ 0, fofZ 0)).
Definition reg_args (M : Z) : @args F64 :=
  @Args F64 (fofZ 1) [fofZ 1; fofZ 0; fofZ 0] [fofZ 0; fofZ 2; fofZ 0] (fofZ 30) M
    true false 4 (fofZ 100) (fofZ 1) false.

Lemma f64_eq_dec (x y : f64) : {x = y} + {x <> y}.
Proof.
  decide equality; try apply Bool.bool_dec; first [apply Z.eq_dec | apply Pos.eq_dec].
Defined.

Definition reg_vx (r : res (@out F64)) : option f64 :=
  match r with Ok o => Some (vx (out_v1 o)) | Err _ => None end.

(** The first velocity components for one and for no revolution differ. *)
Definition reg_check (s : solver) : bool :=
  match reg_vx (@run F64 s reg_env (reg_args 1)), reg_vx (@run F64 s reg_env (reg_args 0)) with
  | Some x, Some y => if f64_eq_dec x y then false else true
  | Some _, None => true
  | None, _ => false
  end.

Lemma reg_check_answers s : reg_check s = true -> answers_multi_revolution s.
Proof.
  unfold reg_check. intros H. exists reg_env, (reg_args 1).
  destruct (@run F64 s reg_env (reg_args 1)) as [o|e] eqn:E; cbn [reg_vx] in H; [|discriminate].
  exists o. split; [reflexivity|]. split; [reflexivity|].
  change (with_M 0 (reg_args 1)) with (reg_args 0). intros K. rewrite K in H. cbn [reg_vx] in H.
  destruct (f64_eq_dec _ _); congruence.
Qed.

Lemma reg_checks : forallb reg_check MULTI_REV_SOLVERS = true.
Proof. vm_compute. reflexivity. Qed.

(** MULTI_REV_SOLVERS lists exactly the solvers that neither refuse nor ignore a
    request for more than zero revolutions. *)
Theorem C05_multi_rev_registry : forall s,
  In s MULTI_REV_SOLVERS <-> answers_multi_revolution s.
Proof.
  intros s. split.
  - intros H. apply reg_check_answers.
    exact (proj1 (forallb_forall reg_check MULTI_REV_SOLVERS) reg_checks s H).
  - intros (ev & a & o & HM & H1 & H0).
    assert (R : In s [Jiang; Pan; Thorne; Avanzini] -> False).
    { intros K. destruct (C04_multi_revolution_refused_partial s ev a K HM) as [m E].
      rewrite E in H1. discriminate. }
    assert (I : In s [Gauss; Battin; Vallado] -> False).
    { intros K. apply H0.
      rewrite <- (C04_multi_revolution_ignored_refuted s ev (with_M 0 a) (a_M a) K eq_refl HM).
      destruct a; exact H1. }
    clear - R I. destruct s; simpl in R, I; simpl; tauto.
Qed.
Print Assumptions C05_multi_rev_registry.
