(** * Specification vocabulary: solutions of Lambert's problem with a number of
    complete revolutions.

    Nothing in this file refers to the model of the code. *)
From Coq Require Import Reals ZArith.
From Verif Require Import Num Spec.
Local Open Scope R_scope.

(** Semi-major axis and period of the orbit through the state [(r, v)], for
    negative energy. *)
Definition semimajor (mu : R) (r v : rvec) : R := - mu / (2 * energy mu r v).
Definition period (mu : R) (r v : rvec) : R := 2 * PI * sqrt (semimajor mu r v ^ 3 / mu).

(** During the time [T] the body completes exactly [M] revolutions. *)
Definition completes (mu : R) (r v : rvec) (T : R) (M : Z) : Prop :=
  (energy mu r v < 0 -> IZR M * period mu r v < T < (IZR M + 1) * period mu r v) /\
  (M <> 0%Z -> energy mu r v < 0).

(** [v1] and [v2] solve Lambert's problem from [r1] to [r2] in the time [T]
    with [M] complete revolutions. *)
Definition lambert_solution (mu : R) (r1 v1 r2 v2 : rvec) (T : R) (M : Z) : Prop :=
  transfer mu r1 v1 r2 v2 T /\ completes mu r1 v1 T M.
