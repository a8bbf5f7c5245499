(** * The common calling convention of all solvers.

    Models the argument list shared by the entry points, e.g.
    /repo/src/lamberthub/p_solvers/gauss.py:17-29 and
    /repo/src/lamberthub/universal_solvers/vallado.py:13-25, and their return
    statement, e.g. vallado.py:145. *)
From Coq Require Import ZArith String List Bool.
Import ListNotations.
From Verif Require Import Num.

Section Api.
Context {N : Num}.
Local Open Scope num_scope.

(** Arguments of a solver call.  Position vectors are one-dimensional numpy
    arrays of any length (lists).  Simplifications: arrays of higher dimension
    and non-boolean flags are not modelled. *)
Record args : Type := Args {
  a_mu : num;
  a_r1 : list num;
  a_r2 : list num;
  a_tof : num;
  a_M : Z;
  a_is_prograde : bool;
  a_is_low_path : bool;
  a_maxiter : Z;
  a_atol : num;
  a_rtol : num;
  a_full_output : bool
}.

(** [return (v1, v2, numiter, tpi) if full_output is True else (v1, v2)]. *)
Inductive out : Type :=
| Pair (v1 v2 : vec num)
| Full (v1 v2 : vec num) (numiter : Z) (tpi : num).

Definition out_v1 (o : out) : vec num := match o with Pair v _ => v | Full v _ _ _ => v end.
Definition out_v2 (o : out) : vec num := match o with Pair _ v => v | Full _ v _ _ => v end.

Definition mk_out (full : bool) (v1 v2 : vec num) (numiter : Z) (tpi : num) : out :=
  if full then Full v1 v2 numiter tpi else Pair v1 v2.

(** [tic = time.perf_counter() if full_output else 0.0] ...
    [tpi = (time.perf_counter() - tic) / numiter if full_output else 0.0]
    (vallado.py:104, 125).  [clock k] is the k-th reading of the clock; dividing
    by the integer 0 raises ZeroDivisionError. *)
Definition time_per_iteration (clock : nat -> num) (full : bool) (numiter : Z) : res num :=
  if full then
    if (numiter =? 0)%Z then Err ZeroDivisionError
    else Ok ((clock 1%nat - clock 0%nat) / nofZ numiter)
  else Ok #0.

(** numpy code below the validation indexes the first three entries; a vector
    of another length makes [np.cross] (numba) raise ValueError. *)
Definition as_vec (r : list num) : res (vec num) :=
  match r with
  | [a; b; c] => Ok (V3 a b c)
  | _ => Err (ValueError "Incompatible dimensions for cross product")
  end.

Definition of_vec (v : vec num) : list num := [vx v; vy v; vz v].

End Api.
