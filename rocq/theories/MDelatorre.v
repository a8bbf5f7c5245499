(** * Model of /repo/src/lamberthub/regularization/delatorre.py *)
From Coq Require Import ZArith Bool String.
From Verif Require Import Num MApi MScipy MLinalg MAssertions MAngles MStumpff.

Section Delatorre.
Context {N : Num}.
Local Open Scope num_scope.

Definition tor_1em12 : num := nlit 1 1000000000000.
Definition tor_1em8 : num := nlit 1 100000000.

(** delatorre.py:281-290, [term] after [n] passes of the loop of [_stumpff]. *)
Fixpoint tor_term (k : Z) (z : num) (n : nat) : num :=
  match n with
  | O => #1 / nofZ (zfact (Z.to_nat k))
  | S n' =>
      let i := Z.of_nat n in
      tor_term k z n' * (- z / nofZ ((k + 2 * i - 1) * (k + 2 * i)))
  end.

(** delatorre.py:282-289, [value] after [n] passes. *)
Fixpoint tor_partial (k : Z) (z : num) (n : nat) : num :=
  match n with
  | O => tor_term k z 0
  | S n' => tor_partial k z n' + tor_term k z n
  end.

(** delatorre.py:279-290 [_stumpff] *)
Definition tor_stumpff (k : Z) (z : num) : num := nuntil_stable (tor_partial k z).

(** delatorre.py:239-245 [_stumpff0] *)
Definition tor_stumpff0 (z : num) : num :=
  if z >? tor_1em8 then ncos (nsqrt z)
  else if z <? - tor_1em8 then ncosh (nsqrt (- z))
  else tor_stumpff 0 z.

(** delatorre.py:248-256 [_stumpff1] *)
Definition tor_stumpff1 (z : num) : num :=
  if z >? tor_1em8 then let sqrt_z := nsqrt z in nsin sqrt_z / sqrt_z
  else if z <? - tor_1em8 then
    let sqrt_neg_z := nsqrt (- z) in nsinh sqrt_neg_z / sqrt_neg_z
  else tor_stumpff 1 z.

(** delatorre.py:259-265 [_stumpff2] *)
Definition tor_stumpff2 (z : num) : num :=
  if z >? tor_1em8 then (#1 - ncos (nsqrt z)) / z
  else if z <? - tor_1em8 then (ncosh (nsqrt (- z)) - #1) / (- z)
  else tor_stumpff 2 z.

(** delatorre.py:268-276 [_stumpff3] *)
Definition tor_stumpff3 (z : num) : num :=
  if z >? tor_1em8 then
    let sqrt_z := nsqrt z in (sqrt_z - nsin sqrt_z) / (z * sqrt_z)
  else if z <? - tor_1em8 then
    let sqrt_neg_z := nsqrt (- z) in
    (nsinh sqrt_neg_z - sqrt_neg_z) / (- z * sqrt_neg_z)
  else tor_stumpff 3 z.

(** delatorre.py:218-236 [_tof_equation_y] *)
Definition tor_tof (P Q mu z : num) (M : Z) : num :=
  let c0 := tor_stumpff0 z in
  let c1 := tor_stumpff1 z in
  let c2_4z := tor_stumpff2 (#4 * z) in
  let c3_4z := tor_stumpff3 (#4 * z) in
  let V := P - Q * c0 in
  let first :=
    (#2 * P * c3_4z + Q * (c1 * c2_4z - #2 * c0 * c3_4z))
    * nsqrt (#2 * V / mu) / cube c1 in
  if (M =? 0)%Z then first
  else
    let second := nofZ M * npi * nsqrt (cube V / (#2 * mu * cube z)) / cube c1 in
    first + second.

(** delatorre.py:207-215 [_tof_derivative] *)
Definition tor_tof_derivative (P Q mu z : num) (M : Z) (z_low z_high : num) : num :=
  let dz := pymax (nlit 1 10000000) (nsqrt eps_machine * pymax #1 (nabs z)) in
  let dz := pymin (pymin dz (nlit 25 100 * (z - z_low))) (nlit 25 100 * (z_high - z)) in
  if dz <=? #0 then #0
  else (tor_tof P Q mu (z + dz) M - tor_tof P Q mu (z - dz) M) / (#2 * dz).

(** delatorre.py:186-201, one pass of the golden section search; state
    [(z_low, z_high, z1, z2, t1, t2)]. *)
Definition tor_min_body (P Q mu : num) (M : Z) (atol rtol gr : num) (_ : Z)
  (st : num * num * num * num * num * num)
  : flow (num * num) (num * num * num * num * num * num) :=
  let '(z_low, z_high, z1, z2, t1, t2) := st in
  let '(z_low, z_high, z1, z2, t1, t2) :=
    if t1 >? t2 then
      let z_low := z1 in
      let z1 := z2 in
      let t1 := t2 in
      let z2 := z_low + gr * (z_high - z_low) in
      let t2 := tor_tof P Q mu z2 M in
      (z_low, z_high, z1, z2, t1, t2)
    else
      let z_high := z2 in
      let z2 := z1 in
      let t2 := t1 in
      let z1 := z_high - gr * (z_high - z_low) in
      let t1 := tor_tof P Q mu z1 M in
      (z_low, z_high, z1, z2, t1, t2) in
  if nabs (z_high - z_low) <=? atol + rtol * nabs z1 then Break (z_low, z_high)
  else Next (z_low, z_high, z1, z2, t1, t2).

(** delatorre.py:175-204 [_find_minimum_time] *)
Definition tor_find_minimum_time (P Q mu : num) (M : Z) (atol rtol : num) : num * num :=
  let z_low := tor_1em12 in
  let z_high := sq npi - tor_1em12 in
  let gr := (nsqrt #5 - #1) / #2 in
  let z1 := z_high - gr * (z_high - z_low) in
  let z2 := z_low + gr * (z_high - z_low) in
  let t1 := tor_tof P Q mu z1 M in
  let t2 := tor_tof P Q mu z2 M in
  let '(z_low, z_high) :=
    match for_range (tor_min_body P Q mu M atol rtol gr) 100 0
            (z_low, z_high, z1, z2, t1, t2) with
    | Break (z_low, z_high) => (z_low, z_high)
    | Next (z_low, z_high, _, _, _, _) => (z_low, z_high)
    | Raise _ => (z_low, z_high)          (* the body never raises *)
    end in
  let z_min := nlit 1 2 * (z_low + z_high) in
  (z_min, tor_tof P Q mu z_min M).

(** delatorre.py:131-132, the loop [while _tof_equation_y(...) > tof: z_low *= 2]. *)
Definition tor_expand (P Q mu tof : num) (fuel : nat) (z_low : num) : flow num num :=
  while_true
    (fun z_low => if tor_tof P Q mu z_low 0 >? tof then Next (z_low * #2) else Break z_low)
    fuel z_low.

(** delatorre.py:121-137 [_initial_bracket] *)
Definition tor_initial_bracket (P Q mu tof : num) (fuel : nat) : res (num * num) :=
  let z_high := sq npi - tor_1em12 in
  let z_low :=
    if Q >? #0 then
      let z_floor := - sq (nacosh (P / Q)) in
      z_floor + pymax tor_1em12 (nabs z_floor * tor_1em12)
    else - #1 in
  match tor_expand P Q mu tof fuel z_low with
  | Raise e => Err e
  | Next _ => Err OutOfFuel             (* not reachable *)
  | Break z_low =>
      if tor_tof P Q mu z_high 0 <? tof
      then Err (ValueError "No feasible solution, try lower M!")
      else Ok (z_low, z_high)
  end.

(** delatorre.py:153-170, one pass of the safeguarded Newton iteration for any
    residual [fres]; state [(z, z_low, z_high, f_low)] ([f_high] is never read
    again), result [(z, numiter)]. *)
Definition tor_newton_body (fres : num -> num) (dres : num -> num -> num -> num)
  (tol : num) (numiter : Z) (st : num * num * num * num)
  : flow (num * Z) (num * num * num * num) :=
  let '(z, z_low, z_high, f_low) := st in
  let f := fres z in
  if nabs f <=? tol then Break (z, numiter)
  else
    let '(z_low, z_high, f_low) :=
      if f_low * f <=? #0 then (z_low, z, f_low) else (z, z_high, f) in
    let df := dres z z_low z_high in
    let z_new := if nneqb df #0 && nisfinite df then z - f / df else nnan in
    let z_new :=
      if negb (nisfinite z_new) || (z_new <=? z_low) || (z_new >=? z_high)
      then nlit 1 2 * (z_low + z_high) else z_new in
    Next (z_new, z_low, z_high, f_low).

(** delatorre.py:140-172 [_solve_bracketed] *)
Definition tor_solve_bracketed (P Q mu tof : num) (M : Z) (z_low z_high : num)
  (maxiter : Z) (atol rtol : num) : res (num * Z) :=
  let fres z := tor_tof P Q mu z M - tof in
  let f_low := fres z_low in
  let f_high := fres z_high in
  if f_low =? #0 then Ok (z_low, 1%Z)
  else if f_high =? #0 then Ok (z_high, 1%Z)
  else if f_low * f_high >? #0 then Err (ValueError "No feasible solution, try lower M!")
  else
    match for_range
            (tor_newton_body fres
               (fun z z_low z_high => tor_tof_derivative P Q mu z M z_low z_high)
               (atol + rtol * tof))
            (Z.to_nat maxiter) 1
            (nlit 1 2 * (z_low + z_high), z_low, z_high, f_low) with
    | Raise e => Err e
    | Next _ => Err (ValueError "Exceeded maximum number of iterations!")
    | Break r => Ok r
    end.

(** delatorre.py:103-118 [_find_z] *)
Definition tor_find_z (fuel : nat) (P Q mu tof : num) (M : Z) (is_low_path : bool)
  (maxiter : Z) (atol rtol : num) : res (num * Z) :=
  let* (z_low, z_high) :=
    (if (M =? 0)%Z then tor_initial_bracket P Q mu tof fuel
     else
       let '(z_min, tof_min) := tor_find_minimum_time P Q mu M atol rtol in
       if tof <? tof_min then Err (ValueError "No feasible solution, try lower M!")
       else if is_low_path then Ok (tor_1em12, z_min)
            else Ok (z_min, sq npi - tor_1em12)) in
  tor_solve_bracketed P Q mu tof M z_low z_high maxiter atol rtol.

(** delatorre.py:87-95, velocities. *)
Definition tor_velocities (mu : num) (r1 r2 : vec num) (r1_norm r2_norm dtheta P Q z : num)
  : vec num * vec num :=
  let V := P - Q * tor_stumpff0 z in
  let p := r1_norm * r2_norm * (#1 - ncos dtheta) / V in
  let f := #1 - r2_norm * (#1 - ncos dtheta) / p in
  let g := r1_norm * r2_norm * nsin dtheta / nsqrt (mu * p) in
  let g_dot := #1 - r1_norm * (#1 - ncos dtheta) / p in
  (vdivs (vsub r2 (vscale f r1)) g, vdivs (vsub (vscale g_dot r2) r1) g).

(** delatorre.py:12-100 [delatorre2018].  The clock is read whatever
    [full_output] is. *)
Definition delatorre2018 (ev : env) (a : args) : res out :=
  validated a (fun r1 r2 =>
    let mu := a_mu a in
    let r1_norm := norm r1 in
    let r2_norm := norm r2 in
    let dtheta := get_transfer_angle r1 r2 (a_is_prograde a) in
    let P := r1_norm + r2_norm in
    let Q := #2 * nsqrt (r1_norm * r2_norm) * ncos (dtheta / #2) in
    let* (z, numiter) :=
      tor_find_z (e_fuel ev) P Q mu (a_tof a) (a_M a) (a_is_low_path a) (a_maxiter a)
        (a_atol a) (a_rtol a) in
    let '(v1, v2) := tor_velocities mu r1 r2 r1_norm r2_norm dtheta P Q z in
    let* tpi := time_per_iteration (e_clock ev) true numiter in
    Ok (mk_out (a_full_output a) v1 v2 numiter tpi)).

End Delatorre.
