(** * Complex double arithmetic ([np.complex128]) used by mcelreath.py and negrete.py.

    Simplification: signed zeros are not distinguished, so square roots and
    logarithms on the negative real axis take the branch of a zero imaginary
    part of positive sign. *)
From Coq Require Import ZArith Bool.
From Verif Require Import Num.

Record cplx {N : Num} : Type := C { cre : num; cim : num }.
Arguments C {N} cre cim.

Section Complex.
Context {N : Num}.
Local Open Scope num_scope.

(** [np.complex128(x)] *)
Definition creal (x : num) : cplx := C x #0.
(** [1j * x] *)
Definition cimag (x : num) : cplx := C #0 x.

Definition cadd (a b : cplx) : cplx := C (cre a + cre b) (cim a + cim b).
Definition csub (a b : cplx) : cplx := C (cre a - cre b) (cim a - cim b).
Definition copp (a : cplx) : cplx := C (- cre a) (- cim a).
Definition cmul (a b : cplx) : cplx :=
  C (cre a * cre b - cim a * cim b) (cre a * cim b + cim a * cre b).
Definition cdiv (a b : cplx) : cplx :=
  let d := cre b * cre b + cim b * cim b in
  C ((cre a * cre b + cim a * cim b) / d) ((cim a * cre b - cre a * cim b) / d).
Definition cscale (k : num) (a : cplx) : cplx := C (k * cre a) (k * cim a).
Definition csq (a : cplx) : cplx := cmul a a.
Definition ccube (a : cplx) : cplx := cmul (cmul a a) a.
Definition cinv (a : cplx) : cplx := cdiv (creal #1) a.

(** [abs(z)] *)
Definition cabs (a : cplx) : num := nsqrt (cre a * cre a + cim a * cim a).
(** [np.sqrt(z)], principal branch *)
Definition csqrt (a : cplx) : cplx :=
  let m := cabs a in
  let re := nsqrt ((m + cre a) / #2) in
  let im := nsqrt ((m - cre a) / #2) in
  C re (if cim a <? #0 then - im else im).
(** [np.exp(z)], [np.log(z)], [np.cos(z)], [np.sin(z)] *)
Definition cexp (a : cplx) : cplx :=
  C (nexp (cre a) * ncos (cim a)) (nexp (cre a) * nsin (cim a)).
Definition clog (a : cplx) : cplx := C (nln (cabs a)) (natan2 (cim a) (cre a)).
Definition ccos (a : cplx) : cplx :=
  C (ncos (cre a) * ncosh (cim a)) (- (nsin (cre a) * nsinh (cim a))).
Definition csin (a : cplx) : cplx :=
  C (nsin (cre a) * ncosh (cim a)) (ncos (cre a) * nsinh (cim a)).
(** [z ** w] with a non-integer exponent *)
Definition cpow (a b : cplx) : cplx := cexp (cmul b (clog a)).

End Complex.

Declare Scope cplx_scope.
Delimit Scope cplx_scope with cplx.
Bind Scope cplx_scope with cplx.
Infix "+" := cadd : cplx_scope.
Infix "-" := csub : cplx_scope.
Infix "*" := cmul : cplx_scope.
Infix "/" := cdiv : cplx_scope.
Notation "- x" := (copp x) : cplx_scope.
Notation "k *: z" := (cscale k%num z%cplx) (at level 40, left associativity) : cplx_scope.
