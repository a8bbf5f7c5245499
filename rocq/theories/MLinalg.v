(** * Model of /repo/src/lamberthub/linalg.py *)
From Coq Require Import ZArith.
From Verif Require Import Num.

Section Linalg.
Context {N : Num}.
Local Open Scope num_scope.

(** linalg.py:8-29 [dot] *)
Definition dot (a b : vec num) : num :=
  vx a * vx b + vy a * vy b + vz a * vz b.

(** linalg.py:33-49 [cross] (numpy's formula) *)
Definition cross (a b : vec num) : vec num :=
  V3 (vy a * vz b - vz a * vy b)
     (vz a * vx b - vx a * vz b)
     (vx a * vy b - vy a * vx b).

(** linalg.py:53-67 [norm]: [dot(v, v) ** 0.5]; also used for
    [np.linalg.norm], which computes the same quantity. *)
Definition norm (a : vec num) : num := npow (dot a a) (nlit 1 2).

End Linalg.
