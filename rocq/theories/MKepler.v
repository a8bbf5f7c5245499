(** * Model of /repo/src/lamberthub/utils/kepler.py *)
From Coq Require Import ZArith Bool String.
From Verif Require Import Num MAngles.

Section Kepler.
Context {N : Num}.
Local Open Scope num_scope.

(** kepler.py:22-39 [kepler_elliptic] *)
Definition kepler_elliptic (E ecc : num) : num := E - ecc * nsin E.

(** kepler.py:43-58 [kepler_parabolic] *)
Definition kepler_parabolic (B : num) : num := B + (#1 / #3) * cube B.

(** kepler.py:62-79 [kepler_hyperbolic] *)
Definition kepler_hyperbolic (H ecc : num) : num := ecc * nsinh H - H.

(** kepler.py:83-111 [kepler_from_nu] *)
Definition kepler_from_nu (nu ecc : num) : res num :=
  if ecc <? #0 then Err (ValueError "Eccentricity cannot be negative!")
  else if (#0 <=? ecc) && (ecc <? #1) then
    Ok (kepler_elliptic (nu_to_E nu ecc) ecc)
  else if ecc =? #1 then
    Ok (kepler_parabolic (nu_to_B nu))
  else
    Ok (kepler_hyperbolic (nu_to_H nu ecc) ecc).

End Kepler.
