(** * Specification vocabulary: classical orbital elements.

    Nothing in this file refers to the model of the code. *)
From Coq Require Import Reals.
From Verif Require Import Num Spec.
Local Open Scope R_scope.

(** The perifocal frame of the orbit with inclination [i], right ascension of
    the ascending node [o] and argument of periapsis [w]: direction of periapsis,
    direction of motion there, normal of the orbital plane. *)
Definition frame_P (i o w : R) : rvec :=
  V3 (cos o * cos w - sin o * sin w * cos i) (sin o * cos w + cos o * sin w * cos i) (sin w * sin i).
Definition frame_Q (i o w : R) : rvec :=
  V3 (- cos o * sin w - sin o * cos w * cos i) (- sin o * sin w + cos o * cos w * cos i) (cos w * sin i).
Definition frame_W (i o : R) : rvec := V3 (sin o * sin i) (- cos o * sin i) (cos i).

(** State on the conic with semi-latus rectum [p] and eccentricity [e] at the
    true anomaly [nu]. *)
Definition conic_position (p e i o w nu : R) : rvec :=
  vmult (p / (1 + e * cos nu)) (vplus (vmult (cos nu) (frame_P i o w)) (vmult (sin nu) (frame_Q i o w))).
Definition conic_velocity (mu p e i o w nu : R) : rvec :=
  vmult (sqrt (mu / p)) (vplus (vmult (- sin nu) (frame_P i o w)) (vmult (e + cos nu) (frame_Q i o w))).

(** Angles up to complete turns. *)
Definition same_angle (a b : R) : Prop := cos a = cos b /\ sin a = sin b.
