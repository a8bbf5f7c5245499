(** * Specification vocabulary: vectors, two-body motion, orbits.

    Nothing in this file refers to the model of the code. *)
From Coq Require Import Reals.
From Coquelicot Require Import Coquelicot.
From Verif Require Import Num.
Local Open Scope R_scope.

(** ** Real vectors *)
Definition rvec := vec R.
Definition vplus (u v : rvec) : rvec := V3 (vx u + vx v) (vy u + vy v) (vz u + vz v).
Definition vminus (u v : rvec) : rvec := V3 (vx u - vx v) (vy u - vy v) (vz u - vz v).
Definition vmult (k : R) (v : rvec) : rvec := V3 (k * vx v) (k * vy v) (k * vz v).
Definition vdot (u v : rvec) : R := vx u * vx v + vy u * vy v + vz u * vz v.
Definition vcross (u v : rvec) : rvec :=
  V3 (vy u * vz v - vz u * vy v) (vz u * vx v - vx u * vz v) (vx u * vy v - vy u * vx v).
Definition vnorm (v : rvec) : R := sqrt (vdot v v).
Definition vzero : rvec := V3 0 0 0.

(** [v] is the derivative of the curve [c] at time [t]. *)
Definition vderive (c : R -> rvec) (t : R) (v : rvec) : Prop :=
  is_derive (fun s => vx (c s)) t (vx v) /\
  is_derive (fun s => vy (c s)) t (vy v) /\
  is_derive (fun s => vz (c s)) t (vz v).

(** ** Two-body motion *)

(** [pos] and [vel] describe a motion under the attraction [- mu r / |r|^3]
    on the time interval [t0, t1], away from the centre. *)
Definition two_body_motion (mu : R) (pos vel : R -> rvec) (t0 t1 : R) : Prop :=
  forall t, t0 <= t <= t1 ->
    pos t <> vzero /\
    vderive pos t (vel t) /\
    vderive vel t (vmult (- mu / vnorm (pos t) ^ 3) (pos t)).

(** Leaving [r1] with velocity [v1], the body is at [r2] with velocity [v2]
    after the time [T]. *)
Definition transfer (mu : R) (r1 v1 r2 v2 : rvec) (T : R) : Prop :=
  0 < T /\
  exists pos vel : R -> rvec,
    two_body_motion mu pos vel 0 T /\
    pos 0 = r1 /\ vel 0 = v1 /\ pos T = r2 /\ vel T = v2.

(** ** Orbits *)

(** Specific angular momentum, specific energy and eccentricity vector. *)
Definition momentum (r v : rvec) : rvec := vcross r v.
Definition energy (mu : R) (r v : rvec) : R := vdot v v / 2 - mu / vnorm r.
Definition ecc_vector (mu : R) (r v : rvec) : rvec :=
  vminus (vmult (1 / mu) (vcross v (vcross r v))) (vmult (1 / vnorm r) r).

(** Two states on the same Kepler orbit: equal first integrals. *)
Definition same_orbit (mu : R) (r1 v1 r2 v2 : rvec) : Prop :=
  momentum r1 v1 = momentum r2 v2 /\
  energy mu r1 v1 = energy mu r2 v2 /\
  ecc_vector mu r1 v1 = ecc_vector mu r2 v2.

(** Not on one line through the centre. *)
Definition non_collinear (r1 r2 : rvec) : Prop := vcross r1 r2 <> vzero.

(** Prograde means a positive vertical component of the angular momentum. *)
Definition moves_as_requested (prograde : bool) (r v : rvec) : Prop :=
  if prograde then 0 < vz (momentum r v) else vz (momentum r v) < 0.

(** The requested motion goes the short way: the normal [r1 x r2] points up for
    prograde, down for retrograde. *)
Definition short_way (prograde : bool) (r1 r2 : rvec) : Prop :=
  if prograde then 0 < vz (vcross r1 r2) else vz (vcross r1 r2) < 0.
