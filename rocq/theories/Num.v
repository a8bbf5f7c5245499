(** * Abstract arithmetic, exceptions, loops and vectors used by the model.

    The Python sources compute with numpy/numba doubles.  The model is written
    once over the record [Num] below, which lists the operations the sources
    use and states no law about them.  A theorem quantified over [N : Num] thus
    holds for any rounding, for NaN and for fastmath arithmetic. *)
From Coq Require Import ZArith String List Bool.
Import ListNotations.

Class Num := {
  num : Type;
  nofZ : Z -> num;                 (* integer literal *)
  nlit : Z -> positive -> num;     (* decimal literal: numerator, denominator *)
  nadd : num -> num -> num;
  nsub : num -> num -> num;
  nmul : num -> num -> num;
  ndiv : num -> num -> num;
  nopp : num -> num;
  nabs : num -> num;
  neqb : num -> num -> bool;
  nltb : num -> num -> bool;
  nleb : num -> num -> bool;
  nisfinite : num -> bool;
  npi : num;
  nsqrt : num -> num;
  npow : num -> num -> num;        (* [x ** y] with a non-integer exponent *)
  nexp : num -> num;
  nln : num -> num;
  ncos : num -> num;
  nsin : num -> num;
  ntan : num -> num;
  nacos : num -> num;
  nasin : num -> num;
  natan : num -> num;
  natan2 : num -> num -> num;      (* [np.arctan2 y x] *)
  ncosh : num -> num;
  nsinh : num -> num;
  ntanh : num -> num;
  nacosh : num -> num;
  nasinh : num -> num;
  natanh : num -> num;
  nfloor : num -> num;
  nmod : num -> num -> num;        (* Python [%] *)
  (* Value of a sequence of successive loop values at the first index where the
     value no longer changes (doubles); limit of the sequence (reals). *)
  nuntil_stable : (nat -> num) -> num
}.

Declare Scope num_scope.
Delimit Scope num_scope with num.
Bind Scope num_scope with num.

Notation "# z" := (nofZ z%Z) (at level 1, z at level 0, format "# z") : num_scope.
Notation "x + y" := (nadd x y) : num_scope.
Notation "x - y" := (nsub x y) : num_scope.
Notation "x * y" := (nmul x y) : num_scope.
Notation "x / y" := (ndiv x y) : num_scope.
Notation "- x" := (nopp x) : num_scope.
Notation "x =? y" := (neqb x y) (at level 70) : num_scope.
Notation "x <? y" := (nltb x y) (at level 70) : num_scope.
Notation "x <=? y" := (nleb x y) (at level 70) : num_scope.
Notation "x >? y" := (nltb y x) (at level 70, only parsing) : num_scope.
Notation "x >=? y" := (nleb y x) (at level 70, only parsing) : num_scope.

(** ** Exceptions *)

Inductive exn : Type :=
| ValueError (msg : string)
| RuntimeError (msg : string)
| AssertionError
| TypeError (msg : string)
| UnboundLocalError (name : string)
| ZeroDivisionError
| OutOfFuel.        (* an unbounded [while] loop did not finish within the fuel *)

Inductive res (A : Type) : Type :=
| Ok (a : A)
| Err (e : exn).
Arguments Ok {A} a.
Arguments Err {A} e.

Definition bind {A B} (m : res A) (k : A -> res B) : res B :=
  match m with Ok a => k a | Err e => Err e end.

Notation "'let*' x ':=' m 'in' k" := (bind m (fun x => k))
  (at level 200, x pattern, m at level 100, k at level 200, right associativity).
Notation "'check' m 'in' k" := (bind m (fun _ => k))
  (at level 200, m at level 100, k at level 200, right associativity).

(** [if c: raise e]; continues with [tt] otherwise. *)
Definition raise_if (c : bool) (e : exn) : res unit :=
  if c then Err e else Ok tt.

(** ** Loops *)

(** Outcome of a loop body or of a whole loop: leave with a value ([break] or
    [return]), go on with a new state, or raise. *)
Inductive flow (A S : Type) : Type :=
| Break (a : A)
| Next (s : S)
| Raise (e : exn).
Arguments Break {A S} a.
Arguments Next {A S} s.
Arguments Raise {A S} e.

(** [for i in range(i0, i0 + n)]. *)
Fixpoint for_range {A S} (body : Z -> S -> flow A S) (n : nat) (i : Z) (s : S)
  : flow A S :=
  match n with
  | O => Next s
  | S n' =>
      match body i s with
      | Next s' => for_range body n' (i + 1)%Z s'
      | r => r
      end
  end.

(** [while True: body], with fuel. *)
Fixpoint while_true {A S} (body : S -> flow A S) (fuel : nat) (s : S) : flow A S :=
  match fuel with
  | O => Raise OutOfFuel
  | S n =>
      match body s with
      | Next s' => while_true body n s'
      | r => r
      end
  end.

(** ** Three-dimensional vectors *)

Record vec (T : Type) : Type := V3 { vx : T; vy : T; vz : T }.
Arguments V3 {T} vx vy vz.
Arguments vx {T} v.
Arguments vy {T} v.
Arguments vz {T} v.

Definition vmap {A B} (f : A -> B) (v : vec A) : vec B :=
  V3 (f (vx v)) (f (vy v)) (f (vz v)).
Definition vmap2 {A B C} (f : A -> B -> C) (u : vec A) (v : vec B) : vec C :=
  V3 (f (vx u) (vx v)) (f (vy u) (vy v)) (f (vz u) (vz v)).
Definition vall {A} (f : A -> bool) (v : vec A) : bool :=
  f (vx v) && f (vy v) && f (vz v).

Section VecOps.
Context {N : Num}.
Local Open Scope num_scope.

Definition vadd (u v : vec num) : vec num := vmap2 nadd u v.
Definition vsub (u v : vec num) : vec num := vmap2 nsub u v.
Definition vopp (u : vec num) : vec num := vmap nopp u.
(** numpy [k * v] *)
Definition vscale (k : num) (v : vec num) : vec num := vmap (fun a => k * a) v.
(** numpy [v / k] *)
Definition vdivs (v : vec num) (k : num) : vec num := vmap (fun a => a / k) v.

(** [x ** 2], [x ** 3] and other integer powers are products. *)
Definition sq (x : num) : num := x * x.
Definition cube (x : num) : num := x * x * x.

(** Python [max(a, b)] and [min(a, b)]. *)
Definition pymax (a b : num) : num := if a <? b then b else a.
Definition pymin (a b : num) : num := if b <? a then b else a.

(** [np.max(np.array([a, b]))] and [np.min] (izzo.py:288-292, gooding.py:664-666);
    NaN is passed on. *)
Definition np_max (a b : num) : num :=
  if a <? b then b else if b <=? a then a else a + b.
Definition np_min (a b : num) : num :=
  if a <? b then a else if b <=? a then b else a + b.

(** [np.isclose(a, b, rtol=rtol, atol=atol)] for finite arguments. *)
Definition np_isclose (a b rtol atol : num) : bool :=
  nabs (a - b) <=? atol + rtol * nabs b.

(** [np.nan] *)
Definition nnan : num := #0 / #0.

(** [np.sign]; NaN is passed on. *)
Definition nsign (x : num) : num :=
  if #0 <? x then #1 else if x <? #0 then - #1 else if x =? #0 then #0 else x.

(** Python float power with a non-negative integer exponent. *)
Fixpoint npown (x : num) (n : nat) : num :=
  match n with O => #1 | S O => x | S n' => x * npown x n' end.

(** numpy [a != b]. *)
Definition nneqb (a b : num) : bool := negb (a =? b).

(** math.copysign / np.copysign, signed zeros are not distinguished. *)
Definition ncopysign (x y : num) : num :=
  if y <? #0 then - (nabs x) else nabs x.

End VecOps.

(** Machine epsilon of binary64, [np.finfo(float).eps] = 2^-52. *)
Definition eps_machine {N : Num} : num := nlit 1 4503599627370496.
