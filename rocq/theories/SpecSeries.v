(** * Formal power series with real coefficients: [f n] is the coefficient of [t^n]. *)
From Coq Require Import Reals.
Local Open Scope R_scope.

(** The product. *)
Definition ps_mul (f g : nat -> R) (n : nat) : R := sum_f_R0 (fun k => f k * g (n - k)%nat) n.
(** The constant 1 and the variable [t]. *)
Definition ps_one (n : nat) : R := if Nat.eqb n 0 then 1 else 0.
Definition ps_t (n : nat) : R := if Nat.eqb n 1 then 1 else 0.
(** Powers. *)
Fixpoint ps_pow (f : nat -> R) (j : nat) : nat -> R :=
  match j with O => ps_one | S j => ps_mul (ps_pow f j) f end.
(** [a o x] for [x 0 = 0]: higher powers do not reach [t^n]. *)
Definition ps_compose (a x : nat -> R) (n : nat) : R := sum_f_R0 (fun j => a j * ps_pow x j n) n.
