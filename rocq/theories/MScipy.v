(** * The environment of a solver call: clock, loop fuel and scipy routines.

    Two scipy routines are used by the sources, [scipy.optimize.brentq] and
    [scipy.optimize.minimize_scalar(method="bounded")].  They are not modelled:
    the solvers take them as parameters, and no theorem assumes anything about
    them unless it says so in its hypotheses. *)
From Coq Require Import ZArith.
From Verif Require Import Num.

Record env {N : Num} : Type := Env {
  (** k-th reading of [time.perf_counter()] *)
  e_clock : nat -> num;
  (** bound on the number of passes of each unbounded [while] loop *)
  e_fuel : nat;
  (** [brentq f a b xtol rtol maxiter] = [(root, iterations)] *)
  e_brentq : (num -> res num) -> num -> num -> num -> num -> Z -> res (num * Z);
  (** [minimize_scalar f bounds=(a, b) method="bounded" options={"xatol": t}]
      = [(success, x, fun)] *)
  e_minimize : (num -> res num) -> num -> num -> num -> res (bool * num * num)
}.
Arguments Env {N}.
