(** * Model of /repo/src/lamberthub/utils/stumpff.py *)
From Coq Require Import ZArith Bool.
From Verif Require Import Num.

Section Stumpff.
Context {N : Num}.
Local Open Scope num_scope.

(** [gamma(2 * k + a + 1)], the factorial of [2 * k + a] (exact in binary64 for
    the terms that are reached). *)
Fixpoint zfact (n : nat) : Z :=
  match n with O => 1%Z | S k => (Z.of_nat n * zfact k)%Z end.

(** [delta] of the k-th pass of the loops at stumpff.py:31-36 and 61-66:
    [(-psi) ** k / gamma(2 * k + a + 1)], with [a] = 2 or 3. *)
Definition stumpff_delta (a : nat) (psi : num) (k : nat) : num :=
  npown (- psi) k / nofZ (zfact (2 * k + a)).

(** [res] after [n] passes of the loop. *)
Fixpoint stumpff_partial (a : nat) (res0 psi : num) (n : nat) : num :=
  match n with
  | O => res0
  | S n' => stumpff_partial a res0 psi n' + stumpff_delta a psi (S n')
  end.

(** stumpff.py:14-38 [c2] *)
Definition c2 (psi : num) : num :=
  let eps := #1 in
  if psi >? eps then (#1 - ncos (nsqrt psi)) / psi
  else if psi <? - eps then (ncosh (nsqrt (- psi)) - #1) / (- psi)
  else nuntil_stable (stumpff_partial 2 (#1 / #2) psi).

(** stumpff.py:42-68 [c3] *)
Definition c3 (psi : num) : num :=
  let eps := #1 in
  if psi >? eps then
    let sqrt_psi := nsqrt psi in
    (sqrt_psi - nsin sqrt_psi) / (psi * sqrt_psi)
  else if psi <? - eps then
    let sqrt_neg_psi := nsqrt (- psi) in
    (nsinh sqrt_neg_psi - sqrt_neg_psi) / (- psi * sqrt_neg_psi)
  else nuntil_stable (stumpff_partial 3 (#1 / #6) psi).

End Stumpff.
