(** * Model of /repo/src/lamberthub/utils/angles.py *)
From Coq Require Import ZArith Bool.
From Verif Require Import Num MLinalg.

Section Angles.
Context {N : Num}.
Local Open Scope num_scope.

(** angles.py:8 [K_AXIS] *)
Definition K_AXIS : vec num := V3 #0 #0 #1.

(** [np.all(v == 0)] *)
Definition is_null (v : vec num) : bool := vall (fun a => a =? #0) v.

(** [np.all(np.sign(r1) == np.sign(r2))] *)
Definition same_signs (u v : vec num) : bool :=
  vall (fun b => b) (vmap2 (fun a b => nsign a =? nsign b) u v).

(** angles.py:13-58 [get_transfer_angle] *)
Definition get_transfer_angle (r1 r2 : vec num) (is_prograde : bool) : num :=
  let cross_r1r2 := cross r1 r2 in
  if is_null cross_r1r2 then
    if same_signs r1 r2 then #0 else npi
  else
    let h := vdivs cross_r1r2 (norm cross_r1r2) in
    let alpha := dot K_AXIS h in
    let r1_norm := norm r1 in
    let r2_norm := norm r2 in
    let theta0 := nacos (dot r1 r2 / (r1_norm * r2_norm)) in
    if is_prograde then
      (if alpha >? #0 then theta0 else #2 * npi - theta0)
    else
      (if alpha <? #0 then theta0 else #2 * npi - theta0).

(** angles.py:62-97 [get_orbit_normal_vector] *)
Definition get_orbit_normal_vector (r1 r2 : vec num) (is_prograde : bool) : vec num :=
  let cross_r1r2 := cross r1 r2 in
  let i_h := vdivs cross_r1r2 (norm cross_r1r2) in
  let alpha := dot K_AXIS i_h in
  if is_prograde then
    (if alpha >? #0 then i_h else vopp i_h)
  else
    (if alpha <? #0 then i_h else vopp i_h).

(** angles.py:101-142 [get_orbit_inc_and_raan_from_position_vectors] *)
Definition get_orbit_inc_and_raan_from_position_vectors
  (r1 r2 : vec num) (is_prograde : bool) : num * num :=
  let i_h := get_orbit_normal_vector r1 r2 is_prograde in
  if (vx i_h =? #0) && (vy i_h =? #0) then (#0, #0)
  else
    let inc := nacos (vz i_h / norm i_h) in
    let n := cross K_AXIS i_h in
    let raan := nmod (natan2 (vy n) (vx n)) (#2 * npi) in
    (inc, raan).

(** angles.py:146-164 [nu_to_E] *)
Definition nu_to_E (nu ecc : num) : num :=
  #2 * natan (nsqrt ((#1 - ecc) / (#1 + ecc)) * ntan (nu / #2)).

(** angles.py:168-186 [E_to_nu] *)
Definition E_to_nu (E ecc : num) : num :=
  #2 * natan (nsqrt ((#1 + ecc) / (#1 - ecc)) * ntan (E / #2)).

(** angles.py:190-211 [nu_to_B] *)
Definition nu_to_B (nu : num) : num := ntan (nu / #2).

(** angles.py:215-236 [B_to_nu] *)
Definition B_to_nu (B : num) : num := #2 * natan B.

(** angles.py:240-258 [nu_to_H] *)
Definition nu_to_H (nu ecc : num) : num :=
  #2 * natanh (nsqrt ((ecc - #1) / (ecc + #1)) * ntan (nu / #2)).

(** angles.py:262-280 [H_to_nu] *)
Definition H_to_nu (H ecc : num) : num :=
  #2 * natan (nsqrt ((ecc + #1) / (ecc - #1)) * ntanh (H / #2)).

End Angles.
