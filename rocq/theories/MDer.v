(** * Model of /repo/src/lamberthub/universal_solvers/der.py *)
From Coq Require Import ZArith Bool String.
From Verif Require Import Num MApi MScipy MLinalg MAssertions MAngles.

Section Der.
Context {N : Num}.
Local Open Scope num_scope.

(** der.py:179 ...: [2.220446049250313e-16] = 2^-52; der.py:215, 375:
    [1.4901161193847656e-08] = 2^-26. *)
Definition der_eps : num := eps_machine.
Definition der_sqrt_eps : num := nlit 1 67108864.

(** der.py:121-124 [_compute_sigma] *)
Definition der_sigma (r1_norm r2_norm m psi : num) : num :=
  #2 * nsqrt (r1_norm * r2_norm) * ncos (psi / #2) / m.

(** der.py:127-130 [_compute_normalized_time] *)
Definition der_normalized_time (mu m tof : num) : num :=
  #4 * tof * nsqrt (mu / cube m).

(** der.py:133-136 [_compute_parabolic_time] *)
Definition der_parabolic_time (sigma : num) : num :=
  #2 * (#1 - cube sigma) / #3.

(** der.py:242-249 [_compute_y] *)
Definition der_y (sigma x : num) : num :=
  let radicand := #1 - sq sigma * (#1 - sq x) in
  let y_abs := nsqrt (pymax #0 radicand) in
  if sigma =? #0 then y_abs else ncopysign y_abs sigma.

(** der.py:255, 262, 437: [min(1.0, max(-1.0, x))] *)
Definition der_clamp (x : num) : num := pymin #1 (pymax (- #1) x).

(** der.py:252-255 [_acot_elliptic_x] *)
Definition der_acot_x (x : num) : num := nacos (der_clamp x).

(** der.py:258-263 [_acot_elliptic_y] *)
Definition der_acot_y (y : num) : num :=
  if y >=? #0 then nacos (der_clamp y) else - nacos (der_clamp (- y)).

(** der.py:266-271 [_acoth_sun] *)
Definition der_acoth (u : num) : num :=
  if u >=? #0 then nacosh u else - nacosh (- u).

(** der.py:274-286 [_tof_elliptic] *)
Definition der_tof_elliptic (sigma x y : num) (M : Z) : num :=
  let one_minus_x2 := #1 - sq x in
  let one_minus_y2 := #1 - sq y in
  let numerator :=
    der_acot_x x - der_acot_y y - x * nsqrt one_minus_x2
    + y * nsqrt (pymax #0 one_minus_y2) + nofZ M * npi in
  numerator / npow one_minus_x2 (nlit 3 2).

(** der.py:289-300 [_tof_hyperbolic] *)
Definition der_tof_hyperbolic (sigma x y : num) : num :=
  let x2_minus_one := sq x - #1 in
  let y2_minus_one := sq y - #1 in
  let numerator :=
    - der_acoth x + der_acoth y + x * nsqrt x2_minus_one
    - y * nsqrt (pymax #0 y2_minus_one) in
  numerator / npow x2_minus_one (nlit 3 2).

(** der.py:303-306 [_tof_elliptic_prime] *)
Definition der_tof_elliptic_prime (sigma x y tof : num) : num :=
  (#3 * x * tof - #2 * (#1 - cube sigma * x / y)) / (#1 - sq x).

(** der.py:309-315 [_tof_elliptic_second] *)
Definition der_tof_elliptic_second (sigma x y dtof : num) : num :=
  let x_safe := if nneqb x #0 then x else der_eps in
  ((#1 + #4 * sq x_safe) * dtof
   + #2 * (#1 - npown sigma 5 * cube x_safe / cube y))
  / (x_safe * (#1 - sq x_safe)).

(** der.py:326-339, pass [degree] of [_laguerre_step]. *)
Definition der_laguerre_body (x f df d2f : num) (degree : Z) (_ : unit) : flow num unit :=
  let discriminant :=
    nofZ ((degree - 1) ^ 2) * sq df - nofZ (degree * (degree - 1)) * f * d2f in
  if discriminant <? #0 then Next tt
  else
    let root := nsqrt discriminant in
    let denominator := df + ncopysign root df in
    if denominator =? #0 then Next tt
    else
      let candidate := x - nofZ degree * f / denominator in
      if (- nofZ (10 ^ 300) <? candidate) && (candidate <? nofZ (10 ^ 300))
      then Break candidate else Next tt.

(** der.py:318-341 [_laguerre_step] *)
Definition der_laguerre_step (x f df d2f : num) : num :=
  match for_range (der_laguerre_body x f df d2f) 11 2 tt with
  | Break candidate => candidate
  | _ => #2
  end.

(** der.py:352-367, one pass of [_solve_elliptic_jit]; state [x], result
    [(x, y, numiter)] or [None] when the bracketed solver is needed. *)
Definition der_elliptic_body (sigma tau : num) (M : Z) (atol rtol : num) (numiter : Z)
  (x : num) : flow (option (num * num * Z)) num :=
  let y := der_y sigma x in
  let tof_val := der_tof_elliptic sigma x y M in
  let f := tof_val - tau in
  if nabs f <=? atol + rtol * nabs tau then Break (Some (x, y, numiter))
  else
    let dt := der_tof_elliptic_prime sigma x y tof_val in
    let d2t := der_tof_elliptic_second sigma x y dt in
    let x_new := der_laguerre_step x f dt d2t in
    if nabs x_new >=? #1 then Break None else Next x_new.

(** der.py:182-185, the nested [elliptic_equation]. *)
Definition der_elliptic_equation (sigma tau : num) (M : Z) (x : num) : res num :=
  Ok (der_tof_elliptic sigma x (der_y sigma x) M - tau).

(** [except ValueError as exc: raise ValueError("Exceeded ...")]
    (der.py:196-197, 235-236) *)
Definition der_reraise {A} (r : res A) : res A :=
  match r with
  | Err (ValueError _) => Err (ValueError "Exceeded maximum number of iterations.")
  | r => r
  end.

(** der.py:177-200 [_solve_elliptic_bracketed] *)
Definition der_solve_elliptic_bracketed (ev : env) (sigma tau : num) (M : Z) (x0 : num)
  (maxiter : Z) (atol rtol : num) : res (num * num * Z) :=
  let '(lower, upper) :=
    if x0 <? #0 then (- #1 + der_eps, #0) else (#0, #1 - der_eps) in
  let* (x, _) := der_reraise (e_brentq ev (der_elliptic_equation sigma tau M)
                                lower upper atol rtol maxiter) in
  Ok (x, der_y sigma x, maxiter).

(** der.py:167-174 [_solve_elliptic] with 344-369 [_solve_elliptic_jit] *)
Definition der_solve_elliptic (ev : env) (sigma tau : num) (M : Z) (x0 : num)
  (maxiter : Z) (atol rtol : num) : res (num * num * Z) :=
  match for_range (der_elliptic_body sigma tau M atol rtol) (Z.to_nat maxiter) 1 x0 with
  | Break (Some r) => Ok r
  | _ => der_solve_elliptic_bracketed ev sigma tau M x0 maxiter atol rtol
  end.

(** der.py:372-391 [_hyperbolic_numerical_derivatives] *)
Definition der_hyperbolic_derivatives (sigma x y : num) : num * num :=
  let step := der_sqrt_eps * pymax #1 (nabs x) in
  let x_minus := pymax (#1 + der_eps) (x - step) in
  let x_plus := x + step in
  let y_minus := der_y sigma x_minus in
  let y_plus := der_y sigma x_plus in
  let f_minus := der_tof_hyperbolic sigma x_minus y_minus in
  let f := der_tof_hyperbolic sigma x y in
  let f_plus := der_tof_hyperbolic sigma x_plus y_plus in
  let first := (f_plus - f_minus) / (x_plus - x_minus) in
  let second :=
    #2 * ((f_plus - f) / (x_plus - x) - (f - f_minus) / (x - x_minus))
    / (x_plus - x_minus) in
  (first, second).

(** der.py:402-418, one pass of [_solve_hyperbolic_jit]. *)
Definition der_hyperbolic_body (sigma tau atol rtol : num) (numiter : Z) (x : num)
  : flow (option (num * num * Z)) num :=
  let y := der_y sigma x in
  let tof_val := der_tof_hyperbolic sigma x y in
  let f := tof_val - tau in
  if nabs f <=? atol + rtol * nabs tau then Break (Some (x, y, numiter))
  else
    let '(dt, d2t) := der_hyperbolic_derivatives sigma x y in
    let x_new := der_laguerre_step x f dt d2t in
    if x_new <=? #1 then Break None
    else Next (pymax (#1 + der_eps) x_new).

(** der.py:218-221, the nested [hyperbolic_equation]. *)
Definition der_hyperbolic_equation (sigma tau x : num) : num :=
  der_tof_hyperbolic sigma x (der_y sigma x) - tau.

(** der.py:213-239 [_solve_hyperbolic_bracketed] *)
Definition der_solve_hyperbolic_bracketed (ev : env) (sigma tau : num)
  (maxiter : Z) (atol rtol : num) : res (num * num * Z) :=
  let lower := #1 + der_sqrt_eps in
  match while_true
          (fun upper => if der_hyperbolic_equation sigma tau upper >? #0
                        then Next (upper * #2) else Break upper)
          (e_fuel ev) #2 with
  | Raise e => Err e
  | Next _ => Err OutOfFuel              (* not reachable *)
  | Break upper =>
      let* (x, _) :=
        der_reraise (e_brentq ev (fun x => Ok (der_hyperbolic_equation sigma tau x))
                       lower upper atol rtol maxiter) in
      Ok (x, der_y sigma x, maxiter)
  end.

(** der.py:203-210 [_solve_hyperbolic] with 394-420 [_solve_hyperbolic_jit] *)
Definition der_solve_hyperbolic (ev : env) (sigma tau x0 : num) (maxiter : Z)
  (atol rtol : num) : res (num * num * Z) :=
  match for_range (der_hyperbolic_body sigma tau atol rtol) (Z.to_nat maxiter) 1
          (pymax (nlit 11 10) (x0 + #1)) with
  | Break (Some r) => Ok r
  | _ => der_solve_hyperbolic_bracketed ev sigma tau maxiter atol rtol
  end.

(** der.py:432-439 [_compute_minimum_energy_time] *)
Definition der_minimum_energy_time (sigma : num) (M : Z) : num :=
  nofZ M * npi + nacos (der_clamp sigma) + sigma * nsqrt (pymax #0 (#1 - sq sigma)).

(** der.py:139-164 [_find_path_parameter] *)
Definition der_find_path_parameter (ev : env) (sigma tau tau_p : num) (M : Z)
  (is_low_path : bool) (maxiter : Z) (atol rtol : num) : res (num * num * Z) :=
  if (M =? 0)%Z && np_isclose tau tau_p rtol atol then Ok (#1, sigma, 1%Z)
  else
    let is_elliptic := (0 <? M)%Z || (tau >? tau_p) in
    let tau_me := der_minimum_energy_time sigma M in
    let x0 :=
      if (M =? 0)%Z then
        (if is_elliptic && (tau >? tau_me) then - nlit 1 2 else nlit 1 2)
      else (if is_low_path then nlit 1 2 else - nlit 1 2) in
    if is_elliptic then der_solve_elliptic ev sigma tau M x0 maxiter atol rtol
    else der_solve_hyperbolic ev sigma tau x0 maxiter atol rtol.

(** der.py:423-429 [_phi] *)
Definition der_phi (u : num) : num :=
  let sqrt_term := nsqrt (pymax #0 (#1 - sq u)) in
  let u := if u =? #0 then der_eps else u in
  der_acot_y u - (#2 + sq u) * sqrt_term / (#3 * u).

(** der.py:445-448, the nested [minimum_time_equation]. *)
Definition der_minimum_time_equation (sigma : num) (M : Z) (x : num) : num :=
  der_phi (der_y sigma x) - der_phi x - nofZ M * npi.

(** der.py:463 = 471, the normalised time at the minimum. *)
Definition der_time_at_minimum (sigma x : num) : num :=
  #2 * (#1 / x - cube sigma / der_y sigma x) / #3.

(** der.py:465-474, one pass of the Newton iteration for the minimum. *)
Definition der_minimum_body (sigma : num) (M : Z) (atol rtol : num) (_ : Z) (x : num)
  : flow num num :=
  let y := der_y sigma x in
  let phi := der_minimum_time_equation sigma M x in
  let dphi := #2 * (#1 - sq x) * (#1 - npown sigma 5 * cube x / cube y) / (#3 * sq x) in
  if nabs phi <=? atol + rtol * nofZ M * npi then Break (der_time_at_minimum sigma x)
  else
    let x := x - phi / dphi in
    Next (pymin (pymax x der_eps) (nlit 999999 1000000)).

(** der.py:442-476 [_compute_minimum_time] *)
Definition der_minimum_time (ev : env) (sigma : num) (M : Z) (maxiter : Z)
  (atol rtol : num) : res num :=
  match e_brentq ev (fun x => Ok (der_minimum_time_equation sigma M x))
          der_eps (#1 - der_eps) atol rtol maxiter with
  | Ok (x, _) => Ok (der_time_at_minimum sigma x)
  | Err (ValueError _) =>
      match for_range (der_minimum_body sigma M atol rtol) (Z.to_nat maxiter) 0
              (nlit 1 10) with
      | Break t => Ok t
      | Next _ => Err (ValueError "Exceeded maximum number of iterations.")
      | Raise e => Err e
      end
  | Err e => Err e
  end.

(** der.py:479-491 [_reconstruct_velocities] *)
Definition der_velocities (mu : num) (r1 r2 : vec num) (r1_norm r2_norm c_norm m n x y : num)
  : vec num * vec num :=
  let vc := nsqrt mu * (y / nsqrt n + x / nsqrt m) in
  let vr := nsqrt mu * (y / nsqrt n - x / nsqrt m) in
  let i_c := vdivs (vsub r2 r1) c_norm in
  let i_r1 := vdivs r1 r1_norm in
  let i_r2 := vdivs r2 r2_norm in
  (vadd (vscale vc i_c) (vscale vr i_r1), vsub (vscale vc i_c) (vscale vr i_r2)).

(** der.py:18-118 [der2011] *)
Definition der2011 (ev : env) (a : args) : res out :=
  validated a (fun r1 r2 =>
    let mu := a_mu a in
    let M := a_M a in
    let r1_norm := norm r1 in
    let r2_norm := norm r2 in
    let c_norm := norm (vsub r2 r1) in
    let psi := get_transfer_angle r1 r2 (a_is_prograde a) in
    check assert_transfer_angle_not_zero psi in
    check assert_transfer_angle_not_pi psi in
    let m := r1_norm + r2_norm + c_norm in
    let n := r1_norm + r2_norm - c_norm in
    let sigma := der_sigma r1_norm r2_norm m psi in
    let tau := der_normalized_time mu m (a_tof a) in
    let tau_p := der_parabolic_time sigma in
    check raise_if ((0 <? M)%Z && (tau <=? tau_p))
      (ValueError "No feasible solution, try lower M!") in
    check (if (0 <? M)%Z then
             let* tau_min := der_minimum_time ev sigma M (a_maxiter a) (a_atol a) (a_rtol a) in
             raise_if (tau <? tau_min) (ValueError "No feasible solution, try lower M!")
           else Ok tt) in
    let* (x, y, numiter) :=
      der_find_path_parameter ev sigma tau tau_p M (a_is_low_path a)
        (a_maxiter a) (a_atol a) (a_rtol a) in
    let* tpi := time_per_iteration (e_clock ev) (a_full_output a) numiter in
    let '(v1, v2) := der_velocities mu r1 r2 r1_norm r2_norm c_norm m n x y in
    Ok (mk_out (a_full_output a) v1 v2 numiter tpi)).

End Der.
