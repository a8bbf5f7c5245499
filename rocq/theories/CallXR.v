(** * Solver calls with finite real arguments. *)
From Coq Require Import Reals ZArith String List Bool Lra Lia.
Import ListNotations.
From Verif Require Import Num XReal XRealLemmas MApi MAssertions Spec VecFacts VecXR.
Local Open Scope R_scope.

(** A call [solver(mu, r1, r2, tof, M, is_prograde, is_low_path, maxiter, atol,
    rtol, full_output)] whose arguments are real numbers and real 3-vectors. *)
Definition call (mu : R) (r1 r2 : rvec) (tof : R) (M : Z) (prograde low_path : bool)
  (maxiter : Z) (atol rtol : R) (full_output : bool) : @args XR :=
  @Args XR (Fin mu) (of_vec (vfin r1)) (of_vec (vfin r2)) (Fin tof) M prograde low_path
       maxiter (Fin atol) (Fin rtol) full_output.

(** The physical arguments the validation is meant to accept. *)
Definition valid_input (mu : R) (r1 r2 : rvec) (tof : R) (M : Z) : Prop :=
  0 < mu /\ r1 <> vzero /\ r1 <> r2 /\ 0 < tof /\ (0 <= M)%Z.

Lemma as_vec_of_vec v : @as_vec XR (of_vec v) = Ok v.
Proof. now destruct v. Qed.

Lemma validated_call {A} mu r1 r2 tof M p l mi at_ rt fo (k : vec xr -> vec xr -> res A) o :
  @validated XR A (call mu r1 r2 tof M p l mi at_ rt fo) k = Ok o ->
  valid_input mu r1 r2 tof M /\ k (vfin r1) (vfin r2) = Ok o.
Proof.
  unfold validated, call. cbn [a_mu a_r1 a_r2 a_tof a_M].
  rewrite !as_vec_of_vec. unfold assert_parameters_are_valid.
  unfold assert_gravitational_parameter_is_positive. xunf.
  destruct (xleb (Fin mu) (Fin 0)) eqn:Emu; [discriminate|]. apply xleb_Ff in Emu.
  cbn [bind]. unfold assert_position_vectors_are_valid, assert_position_vector_is_valid.
  cbn [length of_vec Nat.eqb negb raise_if bind].
  destruct (forallb _ _) eqn:E1; [discriminate|]. cbn [raise_if bind].
  unfold all_equal. cbn [length of_vec Nat.eqb].
  destruct (forallb _ (combine _ _)) eqn:E2; [discriminate|]. cbn [bind].
  unfold assert_time_of_flight_is_positive. xunf.
  destruct (xleb (Fin tof) (Fin 0)) eqn:Et; [discriminate|]. apply xleb_Ff in Et.
  cbn [bind]. unfold assert_number_of_revolutions_not_negative.
  destruct (M <? 0)%Z eqn:EM; [discriminate|]. apply Z.ltb_ge in EM. cbn [bind].
  intros H. split; [|exact H]. unfold valid_input. repeat split; auto.
  - intros ->. cbn in E1. destruct (Req_EM_T 0 0); [discriminate|lra].
  - intros ->. destruct r2 as [a b c]. cbn in E2.
    destruct (Req_EM_T a a), (Req_EM_T b b), (Req_EM_T c c); first [discriminate | contradiction].
Qed.

Lemma validated_call_ok {A} mu r1 r2 tof M p l mi at_ rt fo (k : vec xr -> vec xr -> res A) :
  valid_input mu r1 r2 tof M ->
  @validated XR A (call mu r1 r2 tof M p l mi at_ rt fo) k = k (vfin r1) (vfin r2).
Proof.
  intros (Hmu & H1 & H12 & Ht & HM).
  unfold validated, call. cbn [a_mu a_r1 a_r2 a_tof a_M].
  rewrite !as_vec_of_vec. unfold assert_parameters_are_valid.
  unfold assert_gravitational_parameter_is_positive. xunf.
  replace (xleb (Fin mu) (Fin 0)) with false by (symmetry; apply xleb_Ff; lra).
  cbn [bind]. unfold assert_position_vectors_are_valid, assert_position_vector_is_valid.
  cbn [length of_vec Nat.eqb negb raise_if bind].
  destruct (forallb _ _) eqn:E1.
  { exfalso. apply H1. destruct r1 as [a b c]. cbn in E1.
    destruct (Req_EM_T a 0), (Req_EM_T b 0), (Req_EM_T c 0); try discriminate. subst. reflexivity. }
  cbn [raise_if bind].
  unfold all_equal. cbn [length of_vec Nat.eqb].
  destruct (forallb _ (combine _ _)) eqn:E2.
  { exfalso. apply H12. destruct r1 as [a b c], r2 as [a' b' c']. cbn in E2.
    destruct (Req_EM_T a a'), (Req_EM_T b b'), (Req_EM_T c c'); try discriminate. subst. reflexivity. }
  cbn [bind].
  unfold assert_time_of_flight_is_positive. xunf.
  replace (xleb (Fin tof) (Fin 0)) with false by (symmetry; apply xleb_Ff; lra).
  cbn [bind]. unfold assert_number_of_revolutions_not_negative.
  replace (M <? 0)%Z with false by (symmetry; apply Z.ltb_ge; assumption). cbn [bind].
  reflexivity.
Qed.
