(** * Model of /repo/src/lamberthub/universal_solvers/negrete.py *)
From Coq Require Import ZArith Bool String.
From Verif Require Import Num MApi MScipy MLinalg MAssertions MAngles MStumpff MComplex.

Section Negrete.
Context {N : Num}.
Local Open Scope num_scope.

(** negrete.py:290-294 [_get_A] *)
Definition neg_A (r1_norm r2_norm dtheta : num) : num :=
  let t_m := if dtheta <? npi then #1 else - #1 in
  t_m * nsqrt (r1_norm * r2_norm * (#1 + ncos dtheta)).

(** negrete.py:320-326, [1.0 / float(factorial(2 * k + order))] *)
Definition neg_coeff (order k : nat) : num := #1 / nofZ (zfact (2 * k + order)).

(** negrete.py:336-341: [term] and [total] after passes 1..k *)
Fixpoint neg_term (z : cplx) (k : nat) : cplx :=
  match k with O => creal #1 | S j => (neg_term z j * - z)%cplx end.
Fixpoint neg_total (z : cplx) (order k : nat) : cplx :=
  match k with
  | O => creal (neg_coeff order 0)
  | S j => (neg_total z order j + neg_coeff order k *: neg_term z k)%cplx
  end.

(** negrete.py:329-342 [_stumpff_series] *)
Definition neg_stumpff_series (z : cplx) (order : nat) : cplx := neg_total z order 19.

(** negrete.py:303-308 [_c2] *)
Definition neg_c2 (z : cplx) : cplx :=
  if cabs z <? nlit 1 100000000 then neg_stumpff_series z 2
  else ((creal #1 - ccos (csqrt z)) / z)%cplx.

(** negrete.py:311-317 [_c3] *)
Definition neg_c3 (z : cplx) : cplx :=
  if cabs z <? nlit 1 100000000 then neg_stumpff_series z 3
  else
    let sqrt_z := csqrt z in
    ((sqrt_z - csin sqrt_z) / (z * sqrt_z))%cplx.

(** negrete.py:297-300 [_y_at_z] *)
Definition neg_y (z : cplx) (r1_norm r2_norm A : num) : cplx :=
  (creal (r1_norm + r2_norm)
   + A *: (z * neg_c3 z - creal #1) / csqrt (neg_c2 z))%cplx.

(** [chi**3 * c3 + A * sqrt(y)] (negrete.py:251-253, 260-262) *)
Definition neg_scaled_tof (z : cplx) (r1_norm r2_norm A : num) : cplx :=
  (let y := neg_y z r1_norm r2_norm A in
   let chi := csqrt (y / neg_c2 z) in
   ccube chi * neg_c3 z + A *: csqrt y)%cplx.

(** negrete.py:248-253 [_pole_function] *)
Definition neg_pole (z : cplx) (mu r1_norm r2_norm A tof : num) : cplx :=
  cinv (neg_scaled_tof z r1_norm r2_norm A - creal (nsqrt mu * tof)%num)%cplx.

(** negrete.py:256-262 [_tof_at_z] *)
Definition neg_tof_at_z (z mu r1_norm r2_norm A : num) : num :=
  cre (neg_scaled_tof (creal z) r1_norm r2_norm A / creal (nsqrt mu))%cplx.

(** [zk] after [k] multiplications (negrete.py:239-242) *)
Fixpoint neg_zpow (z : cplx) (k : nat) : cplx :=
  match k with O => creal #1 | S j => (neg_zpow z j * z)%cplx end.

(** negrete.py:233-241: the contribution of sample [i] to moment [k]. *)
Definition neg_contribution (center radius mu r1_norm r2_norm A tof inv_n : num)
  (k : nat) (i : nat) : cplx :=
  let t := nofZ (Z.of_nat i) * inv_n in
  let exp_t := cexp (cimag (#2 * npi * t)) in
  let z := (creal center + radius *: exp_t)%cplx in
  let dzdx := (cimag (#2 * npi * radius) * exp_t)%cplx in
  let w := (neg_pole z mu r1_norm r2_norm A tof * dzdx)%cplx in
  (neg_zpow z k * w)%cplx.

Fixpoint neg_accumulate (f : nat -> cplx) (n : nat) : cplx :=
  match n with O => creal #0 | S j => (neg_accumulate f j + f j)%cplx end.

(** negrete.py:226-245 [_contour_integrals], moment [k]. *)
Definition neg_moment (center radius mu r1_norm r2_norm A tof : num) (numiter : Z)
  (k : nat) : cplx :=
  let inv_n := #1 / nofZ numiter in
  cscale inv_n
    (neg_accumulate (neg_contribution center radius mu r1_norm r2_norm A tof inv_n k)
       (Z.to_nat numiter)).

(** negrete.py:282-287 [_real_solution] *)
Definition neg_real_solution (z : cplx) (atol rtol : num) : res num :=
  if nabs (cim z) >? atol + rtol * nabs (cre z)
  then Err (ValueError "Contour integral did not return a real solution!")
  else Ok (cre z).

(** negrete.py:192-198 [_refinement_center] *)
Definition neg_refinement_center (z z_min z_max : num) : num :=
  if (z_min =? #0) && (z <? z_min) then
    let v := nlit 1 4 * z_max in
    if nlit 1 2 <? v then nlit 1 2 else v
  else z.

(** negrete.py:201-223 [_refinement_radius] *)
Definition neg_refinement_radius (z z_min z_max : num) : num :=
  let radius := #2 in
  let least a radius := if a <? radius then a else radius in
  let radius :=
    if (z_min =? #0) && ((#0 <? z) && (z <? #1)) then
      least (nlit 1 2 * (z_max - z)) (least z radius)
    else if (z_min <? z) && (z <? z_max) then
      least (nlit 1 2 * (z_max - z)) (least (nlit 1 2 * (z - z_min)) radius)
    else if (z_min <? z) && (z <? #0) && (#0 <? z_max) then
      least (nlit 9 10 * nabs z) radius
    else radius in
  if radius >? nlit 1 100000000 then radius else nlit 1 100000000.

(** negrete.py:181-188, one refinement. *)
Definition neg_refine_once (z z_min z_max mu r1_norm r2_norm A tof : num) (numiter : Z)
  (atol rtol : num) : res num :=
  let center := neg_refinement_center z z_min z_max in
  let radius := neg_refinement_radius center z_min z_max in
  let I0 := neg_moment center radius mu r1_norm r2_norm A tof numiter 0 in
  let I1 := neg_moment center radius mu r1_norm r2_norm A tof numiter 1 in
  neg_real_solution (I1 / I0)%cplx atol rtol.

(** negrete.py:175-189 [_refine_single_root] *)
Definition neg_refine_single_root (z z_min z_max mu r1_norm r2_norm A tof : num)
  (numiter : Z) (atol rtol : num) : res num :=
  let* z := neg_refine_once z z_min z_max mu r1_norm r2_norm A tof numiter atol rtol in
  neg_refine_once z z_min z_max mu r1_norm r2_norm A tof numiter atol rtol.

(** negrete.py:270-275, one pass of [_hyperbolic_contour]. *)
Definition neg_hyperbolic_body (mu r1_norm r2_norm A tof : num) (_ : Z) (z_low : num)
  : flow num num :=
  let y := cre (neg_y (creal z_low) r1_norm r2_norm A) in
  if (y >? #0) && (neg_tof_at_z z_low mu r1_norm r2_norm A <? tof)
  then Break z_low else Next (z_low * #2).

(** negrete.py:265-279 [_hyperbolic_contour]; [None] when no contour was found. *)
Definition neg_hyperbolic_contour (mu r1_norm r2_norm A tof : num) : option (num * num) :=
  match for_range (neg_hyperbolic_body mu r1_norm r2_norm A tof) 64 0 (- #1) with
  | Break z_low =>
      let center := nlit 1 2 * z_low in
      Some (center, nabs center * (#1 - nlit 1 1000000))
  | _ => None
  end.

(** negrete.py:110-130, the zero-revolution root. *)
Definition neg_find_single (mu r1_norm r2_norm A tof : num) (numiter : Z)
  (atol rtol : num) : res num :=
  let tp := neg_tof_at_z #0 mu r1_norm r2_norm A in
  let* (center, radius, z_min, z_max) :=
    if tof <? tp then
      match neg_hyperbolic_contour mu r1_norm r2_norm A tof with
      | None => Err (ValueError "Could not bracket hyperbolic contour!")
      | Some (center, radius) => Ok (center, radius, center - radius, #0)
      end
    else
      Ok (#2 * sq npi, #2 * sq npi - nlit 1 2, #0, #4 * sq npi) in
  let I0 := neg_moment center radius mu r1_norm r2_norm A tof numiter 0 in
  let I1 := neg_moment center radius mu r1_norm r2_norm A tof numiter 1 in
  let* z := neg_real_solution (I1 / I0)%cplx atol rtol in
  neg_refine_single_root z z_min z_max mu r1_norm r2_norm A tof numiter atol rtol.

(** negrete.py:144-152, the two roots encoded by the four moments. *)
Definition neg_quadratic_roots (I0 I1 I2 I3 : cplx) : cplx * cplx :=
  (let a := csq I1 - I0 * I2 in
   let b := I3 * I0 - I1 * I2 in
   let c := csq I2 - I1 * I3 in
   let disc := b * b - #4 *: a * c in
   let sqrt_disc := csqrt disc in
   ((- b + sqrt_disc) / (#2 *: a), (- b - sqrt_disc) / (#2 *: a)))%cplx.

(** negrete.py:132-172, the root of a multi-revolution transfer. *)
Definition neg_find_multi (mu r1_norm r2_norm A tof : num) (M : Z) (is_low_path : bool)
  (numiter : Z) (atol rtol : num) : res num :=
  let z_min := sq (#2 * nofZ M * npi) in
  let z_max := sq (#2 * nofZ (M + 1) * npi) in
  let center := #2 * sq npi * nofZ (2 * M ^ 2 + 2 * M + 1) in
  let radius := #2 * sq npi * nofZ (2 * M + 1) - nlit 1 2 in
  let moment := neg_moment center radius mu r1_norm r2_norm A tof numiter in
  let '(root1, root2) :=
    neg_quadratic_roots (moment 0%nat) (moment 1%nat) (moment 2%nat) (moment 3%nat) in
  check raise_if
    ((nabs (cim root1) >? atol + rtol * nabs (cre root1))
     || (nabs (cim root2) >? atol + rtol * nabs (cre root2)))
    (ValueError "No feasible solution, try lower M!") in
  let r1r := cre root1 in
  let r2r := cre root2 in
  let '(r1r, r2r) := if r1r >? r2r then (r2r, r1r) else (r1r, r2r) in
  let* refined_lo :=
    neg_refine_single_root r1r z_min z_max mu r1_norm r2_norm A tof numiter atol rtol in
  let* refined_hi :=
    neg_refine_single_root r2r z_min z_max mu r1_norm r2_norm A tof numiter atol rtol in
  let '(refined_lo, refined_hi) :=
    if refined_lo >? refined_hi then (refined_hi, refined_lo)
    else (refined_lo, refined_hi) in
  Ok (if is_low_path then refined_lo else refined_hi).

(** negrete.py:107-172 [_find_z] *)
Definition neg_find_z (mu r1_norm r2_norm A tof : num) (M : Z) (is_low_path : bool)
  (numiter : Z) (atol rtol : num) : res num :=
  if (M =? 0)%Z then neg_find_single mu r1_norm r2_norm A tof numiter atol rtol
  else neg_find_multi mu r1_norm r2_norm A tof M is_low_path numiter atol rtol.

(** negrete.py:96-102, velocities from the root. *)
Definition neg_velocities (mu : num) (r1 r2 : vec num) (r1_norm r2_norm A z : num)
  : vec num * vec num :=
  let y := cre (neg_y (creal z) r1_norm r2_norm A) in
  let f := #1 - y / r1_norm in
  let g := A * nsqrt (y / mu) in
  let gdot := #1 - y / r2_norm in
  (vdivs (vsub r2 (vscale f r1)) g, vdivs (vsub (vscale gdot r2) r1) g).

(** negrete.py:16-104 [negrete2024] *)
Definition negrete2024 (ev : env) (a : args) : res out :=
  validated a (fun r1 r2 =>
    let mu := a_mu a in
    let r1_norm := norm r1 in
    let r2_norm := norm r2 in
    let dtheta := get_transfer_angle r1 r2 (a_is_prograde a) in
    check assert_transfer_angle_not_zero dtheta in
    let A := neg_A r1_norm r2_norm dtheta in
    check raise_if (A =? #0)
      (RuntimeError "Cannot compute orbit, phase angle is 180 degrees") in
    let numiter := Z.max 4 (a_maxiter a) in
    let* z := neg_find_z mu r1_norm r2_norm A (a_tof a) (a_M a) (a_is_low_path a)
                numiter (a_atol a) (a_rtol a) in
    let* tpi := time_per_iteration (e_clock ev) (a_full_output a) (3 * numiter) in
    let '(v1, v2) := neg_velocities mu r1 r2 r1_norm r2_norm A z in
    Ok (mk_out (a_full_output a) v1 v2 numiter tpi)).

End Negrete.
