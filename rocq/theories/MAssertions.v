(** * Model of /repo/src/lamberthub/utils/assertions.py *)
From Coq Require Import ZArith String List Bool.
Import ListNotations.
From Verif Require Import Num MApi.

Section Assertions.
Context {N : Num}.
Local Open Scope num_scope.

(** assertions.py:31-48 [assert_gravitational_parameter_is_positive] *)
Definition assert_gravitational_parameter_is_positive (mu : num) : res unit :=
  if mu <=? #0 then Err (ValueError "Gravitational parameter must be positive!")
  else Ok tt.

(** assertions.py:51-70 [assert_position_vector_is_valid] *)
Definition assert_position_vector_is_valid (r : list num) : res unit :=
  check raise_if (negb (Nat.eqb (length r) 3))
                 (ValueError "Vector must be three-dimensional!") in
  check raise_if (forallb (fun a => a =? #0) r)
                 (ValueError "Position vector cannot be the null vector [0,0,0]!") in
  Ok tt.

(** [np.all(np.equal(r1, r2))] with numpy broadcasting of one-dimensional
    arrays; incompatible lengths raise ValueError. *)
Definition all_equal (r1 r2 : list num) : res bool :=
  if Nat.eqb (length r1) (length r2) then
    Ok (forallb (fun ab => fst ab =? snd ab) (combine r1 r2))
  else match r1, r2 with
       | [a], _ => Ok (forallb (fun b => a =? b) r2)
       | _, [b] => Ok (forallb (fun a => a =? b) r1)
       | _, _ => Err (ValueError "operands could not be broadcast together")
       end.

(** assertions.py:73-96 [assert_position_vectors_are_valid].  Lines 89-90 loop
    over [r in [r1, r2]] but pass [r1] to the check both times. *)
Definition assert_position_vectors_are_valid (r1 r2 : list num) : res unit :=
  check assert_position_vector_is_valid r1 in
  check assert_position_vector_is_valid r1 in
  let* eq := all_equal r1 r2 in
  if eq then Err (ValueError "Initial and final position vectors cannot be equal!")
  else Ok tt.

(** assertions.py:99-115 [assert_time_of_flight_is_positive] *)
Definition assert_time_of_flight_is_positive (tof : num) : res unit :=
  if tof <=? #0 then Err (ValueError "Time of flight must be positive!") else Ok tt.

(** assertions.py:118-134 [assert_number_of_revolutions_not_negative] *)
Definition assert_number_of_revolutions_not_negative (M : Z) : res unit :=
  if (M <? 0)%Z
  then Err (ValueError "Number of revolutions must be equal or greater than zero!")
  else Ok tt.

(** assertions.py:6-29 [assert_parameters_are_valid] *)
Definition assert_parameters_are_valid (mu : num) (r1 r2 : list num) (tof : num)
  (M : Z) : res unit :=
  check assert_gravitational_parameter_is_positive mu in
  check assert_position_vectors_are_valid r1 r2 in
  check assert_time_of_flight_is_positive tof in
  check assert_number_of_revolutions_not_negative M in
  Ok tt.

(** assertions.py:137-153 [assert_transfer_angle_not_zero] *)
Definition assert_transfer_angle_not_zero (dtheta : num) : res unit :=
  if dtheta =? #0 then Err (ValueError "Transfer angle was found to be zero!")
  else Ok tt.

(** assertions.py:156-172 [assert_transfer_angle_not_pi] *)
Definition assert_transfer_angle_not_pi (dtheta : num) : res unit :=
  if dtheta =? npi then Err (ValueError "Transfer angle was found to be 180 degrees!")
  else Ok tt.

(** The validated arguments as used by every solver after its first line:
    validation, then the position vectors as 3-vectors. *)
Definition validated {A} (a : args) (k : vec num -> vec num -> res A) : res A :=
  check assert_parameters_are_valid (a_mu a) (a_r1 a) (a_r2 a) (a_tof a) (a_M a) in
  let* r1 := as_vec (a_r1 a) in
  let* r2 := as_vec (a_r2 a) in
  k r1 r2.

End Assertions.
