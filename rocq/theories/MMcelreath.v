(** * Model of /repo/src/lamberthub/universal_solvers/mcelreath.py *)
From Coq Require Import ZArith Bool String.
From Verif Require Import Num MApi MScipy MLinalg MAssertions MAngles MComplex.

Section McElreath.
Context {N : Num}.
Local Open Scope num_scope.

(** mcelreath.py:330-334 [_get_parabolic_tof] *)
Definition mce_parabolic_tof (r_norm_sum m : num) : num :=
  let chi := nsqrt (#2 * (r_norm_sum - #2 * m)) in
  m * chi + cube chi / #6.

(** Quantities shared by mcelreath.py:349-361, 364-378 and 433-442. *)
Definition mce_alpha (x : cplx) (r_norm_sum m : num) : cplx :=
  ((creal #1 - ccos x) / (creal r_norm_sum - (#2 * m) *: ccos (nlit 1 2 *: x)))%cplx.

(** mcelreath.py:349-361 [_tof_equation] *)
Definition mce_tof_equation (x : cplx) (r_norm_sum m : num) : cplx :=
  let alpha := mce_alpha x r_norm_sum m in
  let alpha_inv := cinv alpha in
  let alpha_sqrt := csqrt alpha in
  let alpha_sqrt_inv := cinv alpha_sqrt in
  let u1_star := (csin (nlit 1 2 *: x) * alpha_sqrt_inv)%cplx in
  let u3 := ((x * alpha_sqrt_inv - csin x * alpha_sqrt_inv) * alpha_inv)%cplx in
  ((#2 * m) *: u1_star + u3)%cplx.

(** mcelreath.py:433-442 [_alpha_and_universal_values];
    result [(alpha, u1_star, u0_star, u3)]. *)
Definition mce_universal_values (x : cplx) (r1_norm r2_norm m : num)
  : cplx * cplx * cplx * cplx :=
  let u0_star := ccos (nlit 1 2 *: x)%cplx in
  let alpha := mce_alpha x (r1_norm + r2_norm) m in
  let alpha_sqrt := csqrt alpha in
  let u1_star := (csin (nlit 1 2 *: x) / alpha_sqrt)%cplx in
  let u3 := ((x - csin x) / (alpha * alpha_sqrt))%cplx in
  (alpha, u1_star, u0_star, u3).

(** mcelreath.py:337-346 [_tof_at_x], not called by the solver. *)
Definition mce_tof_at_x (x : cplx) (r1_norm r2_norm m : num) : num :=
  if cabs x <? nlit 1 100000000 then mce_parabolic_tof (r1_norm + r2_norm) m
  else
    let '(_, u1_star, _, u3) := mce_universal_values x r1_norm r2_norm m in
    cre ((#2 * m) *: u1_star + u3)%cplx.

(** mcelreath.py:364-430 [_tof_equation_full]; result
    [(tof, tof_prime, tof_2prime, tof_3prime)]. *)
Definition mce_tof_equation_full (x : cplx) (r_norm_sum m : num)
  : cplx * cplx * cplx * cplx :=
  (let u0 := ccos x in
  let u0_star := ccos (nlit 1 2 *: x) in
  let alpha := mce_alpha x r_norm_sum m in
  let alpha_inv := cinv alpha in
  let alpha_sqrt := csqrt alpha in
  let alpha_sqrt_inv := cinv alpha_sqrt in
  let u1 := csin x * alpha_sqrt_inv in
  let u1_star := csin (nlit 1 2 *: x) * alpha_sqrt_inv in
  let u2 := (creal #1 - u0) * alpha_inv in
  let u3 := (x * alpha_sqrt_inv - u1) * alpha_inv in
  let tof_current := (#2 * m) *: u1_star + u3 in
  let u1_star_inv := cinv u1_star in
  let alpha_prime :=
    nlit 1 2 *: u1_star_inv * alpha_sqrt * (#2 *: u0_star - m *: alpha) in
  let alpha_2prime :=
    (- nlit 1 2) *: alpha
    + (nlit 1 2 *: u0_star * alpha_sqrt_inv - m *: alpha_sqrt) * alpha_prime * u1_star_inv in
  let alpha_3prime :=
    ((nlit 1 4 * m) *: csq u1_star_inv * (m *: alpha - nlit 1 2 *: u0_star)
     - nlit 1 2 *: alpha_sqrt_inv * u1_star_inv
       * (nlit 1 2 *: u0_star * alpha_inv + creal m) * alpha_prime
     - creal (nlit 3 4)) * alpha_prime
    + (nlit 1 2 *: alpha_sqrt_inv * u1_star_inv)
      * (u0_star - (#2 * m) *: alpha) * alpha_2prime in
  let tof_prime :=
    alpha_inv
    * ((m *: u0_star + u2) * alpha_sqrt
       - nlit 1 2 *: (tof_current + #2 *: u3) * alpha_prime) in
  let tof_2prime :=
    alpha_inv
    * (((- #3) *: tof_prime + (#2 * m) *: u0_star * alpha_sqrt_inv) * alpha_prime
       - nlit 3 4 *: tof_current * alpha_inv * csq alpha_prime
       + u1
       - (nlit 1 2 * m) *: alpha * u1_star
       - (nlit 1 2 *: tof_current + u3) * alpha_2prime) in
  let tof_3prime :=
    alpha_inv
    * (u0 * alpha_sqrt_inv
       - (nlit 1 4 * m) *: u0_star * alpha_sqrt
       - alpha_prime
         * (nlit 9 2 *: tof_2prime
            + (nlit 3 2 * m) *: u1_star
            + (nlit 9 4 *: tof_prime * alpha_inv
               - nlit 3 8 *: csq alpha_inv * tof_current * alpha_prime)
              * alpha_prime)
       + ((#2 * m) *: u0_star * alpha_sqrt_inv
          - u2 * alpha_sqrt_inv
          - nlit 7 2 *: tof_prime
          + (u3 * alpha_inv - nlit 7 4 *: tof_current * alpha_inv) * alpha_prime)
         * alpha_2prime
       - (nlit 1 2 *: tof_current + u3) * alpha_3prime) in
  (tof_current, tof_prime, tof_2prime, tof_3prime))%cplx.

(** mcelreath.py:315-319 [_outside_bounds] *)
Definition mce_outside_bounds (x : cplx) (lo hi : num) : bool :=
  let coordinate := cre x + cim x in
  (coordinate >? hi) || (coordinate <? lo).

(** mcelreath.py:322-327 [_clean_root] *)
Definition mce_clean_root (x : cplx) : cplx :=
  if nabs (cim x) <? nlit 1 100000000000000 then creal (cre x) else x.

(** mcelreath.py:308 = 238, the relative size of the last step. *)
Definition mce_step_size (x x_old : cplx) (two_pi_revs : num) : num :=
  cabs ((x - x_old) / (x - creal two_pi_revs + creal (#2 * npi)))%cplx.

(** mcelreath.py:281-306, the next iterate of [_solve_desired_x]. *)
Definition mce_desired_update (tof r_norm_sum m lo hi : num) (x_old : cplx) : cplx :=
  (let '(tof_current, tof_prime, tof_2prime, tof_3prime) :=
    mce_tof_equation_full x_old r_norm_sum m in
  let residual := tof_current - creal tof in
  let step :=
    - ((#6 *: residual * csq tof_prime - #3 *: csq residual * tof_2prime)
       / (#6 *: ccube tof_prime - #6 *: residual * tof_prime * tof_2prime
          + csq residual * tof_3prime)) in
  let x := x_old + step in
  if negb (mce_outside_bounds x lo hi) then x
  else
    let x := x_old - #2 *: residual * tof_prime
                     / (#2 *: csq tof_prime - residual * tof_2prime) in
    if negb (mce_outside_bounds x lo hi) then x
    else
      let x := x_old - residual / tof_prime in
      if negb (mce_outside_bounds x lo hi) then x
      else
        let rt := - (residual / tof_prime) in
        let sign := nsign (cre rt + cim rt)%num in
        let boundary := if (sign >? #0)%num then hi else lo in
        x_old + nlit 1 2 *: (creal boundary - x_old))%cplx.

(** mcelreath.py:280-310, one pass of [_solve_desired_x]. *)
Definition mce_desired_body (tof r_norm_sum m two_pi_revs lo hi tolerance : num)
  (numiter : Z) (x_old : cplx) : flow (cplx * Z) cplx :=
  let x := mce_desired_update tof r_norm_sum m lo hi x_old in
  if mce_step_size x x_old two_pi_revs <? tolerance
  then Break (mce_clean_root x, numiter) else Next x.

(** mcelreath.py:274-312 [_solve_desired_x] *)
Definition mce_solve_desired_x (x : cplx) (tof r_norm_sum m : num) (M : Z) (lo hi : num)
  (maxiter : Z) (rtol : num) : res (cplx * Z) :=
  let two_pi_revs := #2 * npi * nofZ M in
  let tolerance :=
    if rtol <? nlit 1 10000000000 then rtol else nlit 1 10000000000 in
  match for_range (mce_desired_body tof r_norm_sum m two_pi_revs lo hi tolerance)
          (Z.to_nat maxiter) 1 x with
  | Break r => Ok r
  | Raise e => Err e
  | Next _ => Err (RuntimeError "Failed to converge")
  end.

(** mcelreath.py:225-243, one pass of [_solve_minimum_x]; state
    [(x, tolerance)], result [(x.real, numiter)]. *)
Definition mce_minimum_body (tof r_norm_sum m two_pi_revs lo hi : num) (numiter : Z)
  (st : cplx * num) : flow (num * Z) (cplx * num) :=
  let '(x_old, tolerance) := st in
  let '(tof_current, tof_prime, tof_2prime, tof_3prime) :=
    mce_tof_equation_full x_old r_norm_sum m in
  let step :=
    ((- #2) *: tof_prime * tof_2prime
     / (#2 *: csq tof_2prime - tof_prime * tof_3prime))%cplx in
  let x := (x_old + step)%cplx in
  let x := if mce_outside_bounds x lo hi
           then (x_old - tof_prime / tof_2prime)%cplx else x in
  let err := mce_step_size x x_old two_pi_revs in
  let relative_gap := (tof - cre tof_current) / tof in
  let tolerance :=
    if relative_gap <? nlit 1 10000 then nlit 1 100000000 else tolerance in
  if err <? tolerance then Break (cre x, numiter) else Next (x, tolerance).

(** mcelreath.py:220-245 [_solve_minimum_x] *)
Definition mce_solve_minimum_x (x : cplx) (tof r_norm_sum m : num) (M : Z) (lo hi : num)
  (maxiter : Z) : res (num * Z) :=
  let two_pi_revs := #2 * npi * nofZ M in
  match for_range (mce_minimum_body tof r_norm_sum m two_pi_revs lo hi)
          (Z.to_nat maxiter) 1 (x, nlit 1 100) with
  | Break r => Ok r
  | Raise e => Err e
  | Next _ => Err (RuntimeError "Failed to converge")
  end.

(** mcelreath.py:137-168 [_find_single_revolution_x] *)
Definition mce_find_single_revolution_x (tof r_norm_sum m dtheta : num) (maxiter : Z)
  (atol rtol : num) : res (cplx * Z) :=
  let tof_p := mce_parabolic_tof r_norm_sum m in
  if nabs (tof - tof_p) <=? atol + rtol * nabs tof_p then Ok (creal #0, 1%Z)
  else
    let '(x_0, lo, hi) :=
      if tof >? tof_p then
        let tof_theta := mce_tof_equation (creal dtheta) r_norm_sum m in
        let beta := nsqrt ((tof - tof_p) / (cre tof_theta - tof_p)) in
        let beta := beta * (dtheta / (#2 * npi - dtheta)) in
        (creal (#2 * npi * beta / (#1 + beta)), #0, #2 * npi)
      else if dtheta <? npi then
        let tau := sq r_norm_sum / (#2 * sq m) - #1 in
        let x_tau := cimag (nln (tau + nsqrt (sq tau - #1))) in
        let x_1 := cscale (nexp (- nlit 5 2)) x_tau in
        let tof_x1 := mce_tof_equation x_1 r_norm_sum m in
        let tof_p_16 := cpow (creal tof_p) (creal (nlit 8 5)) in
        let tof_x1_16 := cpow tof_x1 (creal (nlit 8 5)) in
        let exponent :=
          (creal (nlit 5 2) / (clog (- tof_p_16) - clog (tof_x1_16 - tof_p_16)))%cplx in
        let x_0 :=
          (x_tau * cpow (creal (#1 - npow (tof / tof_p) (nlit 8 5))) exponent)%cplx in
        (cimag (cim x_0), #0, cim x_tau)
      else
        let tof_theta := mce_tof_equation (cimag dtheta) r_norm_sum m in
        ((cimag dtheta
          * csqrt (creal (nln (tof / tof_p)) / clog (tof_theta / creal tof_p)))%cplx,
         #0, #1 / #0) in
    mce_solve_desired_x x_0 tof r_norm_sum m 0 lo hi maxiter rtol.

(** mcelreath.py:248-271 [_multi_revolution_initial_guesses] *)
Definition mce_initial_guesses (tof tof_min x_min r_norm_sum m dtheta : num) (M : Z)
  : num * num :=
  let two_pi := #2 * npi in
  let two_pi_revs := two_pi * nofZ M in
  let x_theta := dtheta + two_pi_revs in
  let tof_theta := cre (mce_tof_equation (creal x_theta) r_norm_sum m) in
  let scale :=
    sq (x_min - x_theta)
    / (nabs (tof_theta - tof_min) * sq (two_pi_revs - x_theta)
       * sq (two_pi_revs + two_pi - x_theta)) in
  let gamma := - nsqrt ((tof - tof_min) * scale) in
  let next_revs := (M + 1)%Z in
  let b_short := - two_pi * nofZ (M + next_revs) * gamma + #1 in
  let c_short := sq two_pi * nofZ M * nofZ next_revs * gamma - x_min in
  let x_short := (- b_short + nsqrt (sq b_short - #4 * gamma * c_short)) / (#2 * gamma) in
  let b_long := two_pi * nofZ (M + next_revs) * gamma + #1 in
  let c_long := - sq two_pi * nofZ M * nofZ next_revs * gamma - x_min in
  let x_long := (- b_long + nsqrt (sq b_long + #4 * gamma * c_long)) / (- #2 * gamma) in
  (x_short, x_long).

(** mcelreath.py:171-217 [_find_multi_revolution_x] *)
Definition mce_find_multi_revolution_x (tof r_norm_sum m dtheta : num) (M : Z)
  (is_low_path : bool) (maxiter : Z) (atol rtol : num) : res (cplx * Z) :=
  let two_pi := #2 * npi in
  let two_pi_revs := two_pi * nofZ M in
  let sqrt_revs := nsqrt (nofZ M) in
  let lo := two_pi_revs in
  let hi := two_pi_revs + two_pi in
  let x_min :=
    if dtheta <? npi then
      #2 * npow (dtheta + npow (#1 / #6) (nlit 5 2 * sqrt_revs)) (nlit 2 5)
      - npow (#1 / #3) sqrt_revs + two_pi_revs
    else
      - #2 * npow (- dtheta + two_pi + npow (nlit 1 20) sqrt_revs) (nlit 2 5)
      + (two_pi - npow (nlit 1 4) sqrt_revs) + two_pi_revs in
  let* (x_min, minimum_iterations) :=
    mce_solve_minimum_x (creal x_min) tof r_norm_sum m M lo hi maxiter in
  let tof_min := cre (mce_tof_equation (creal x_min) r_norm_sum m) in
  if tof <? tof_min - atol then Err (ValueError "No feasible solution, try lower M!")
  else if nabs (tof - tof_min) <=? atol + rtol * nabs tof_min then
    Ok (creal x_min, if (minimum_iterations <? 1)%Z then 1%Z else minimum_iterations)
  else
    let '(g_short, g_long) :=
      mce_initial_guesses tof tof_min x_min r_norm_sum m dtheta M in
    let x_0 := creal (if is_low_path then g_short else g_long) in
    let* (x, desired_iterations) :=
      mce_solve_desired_x x_0 tof r_norm_sum m M lo hi maxiter rtol in
    let total := (minimum_iterations + desired_iterations)%Z in
    Ok (x, if (total <? 1)%Z then 1%Z else total).

(** mcelreath.py:123-134 [_find_x] *)
Definition mce_find_x (tof r1_norm r2_norm m dtheta : num) (M : Z) (is_low_path : bool)
  (maxiter : Z) (atol rtol : num) : res (cplx * Z) :=
  let r_norm_sum := r1_norm + r2_norm in
  if (M =? 0)%Z then
    mce_find_single_revolution_x tof r_norm_sum m dtheta maxiter atol rtol
  else
    mce_find_multi_revolution_x tof r_norm_sum m dtheta M is_low_path maxiter atol rtol.

(** mcelreath.py:99-118, semi-latus rectum and velocities. *)
Definition mce_velocities (mu : num) (r1 r2 : vec num) (r1_norm r2_norm dtheta m : num)
  (x : cplx) : vec num * vec num :=
  let '(_, _, u0_star, _) := mce_universal_values x r1_norm r2_norm m in
  let p := r1_norm * r2_norm * (#1 - ncos dtheta)
           / (r1_norm + r2_norm - #2 * m * cre u0_star) in
  let c_norm := norm (vsub r2 r1) in
  let v_c := c_norm * nsqrt (mu * p) / (r1_norm * r2_norm * nsin dtheta) in
  let v_r := nsqrt (mu / p) * (#1 - ncos dtheta) / nsin dtheta in
  let i_r1 := vdivs r1 r1_norm in
  let i_r2 := vdivs r2 r2_norm in
  let i_c := vdivs (vsub r2 r1) c_norm in
  (vadd (vscale v_c i_c) (vscale v_r i_r1), vsub (vscale v_c i_c) (vscale v_r i_r2)).

(** mcelreath.py:87 [np.isclose(np.sin(dtheta), 0.0, atol=1e-14)] *)
Definition mce_is_pi (dtheta : num) : bool :=
  np_isclose (nsin dtheta) #0 (nlit 1 100000) (nlit 1 100000000000000).

(** mcelreath.py:90, the signed geometry parameter. *)
Definition mce_m (r1_norm r2_norm dtheta : num) (M : Z) : num :=
  nofZ ((-1) ^ M) * nsqrt (r1_norm * r2_norm) * ncos (dtheta / #2).

(** mcelreath.py:15-120 [mcelreath2025] *)
Definition mcelreath2025 (ev : env) (a : args) : res out :=
  validated a (fun r1 r2 =>
    let mu := a_mu a in
    let M := a_M a in
    let r1_norm := norm r1 in
    let r2_norm := norm r2 in
    let dtheta := get_transfer_angle r1 r2 (a_is_prograde a) in
    check assert_transfer_angle_not_zero dtheta in
    check raise_if (mce_is_pi dtheta)
      (RuntimeError "Cannot compute orbit, phase angle is 180 degrees") in
    let m := mce_m r1_norm r2_norm dtheta M in
    let tof := nsqrt mu * a_tof a in
    let* (x, numiter) :=
      mce_find_x tof r1_norm r2_norm m dtheta M (a_is_low_path a)
        (a_maxiter a) (a_atol a) (a_rtol a) in
    let* tpi := time_per_iteration (e_clock ev) (a_full_output a) numiter in
    let '(v1, v2) := mce_velocities mu r1 r2 r1_norm r2_norm dtheta m x in
    Ok (mk_out (a_full_output a) v1 v2 numiter tpi)).

End McElreath.
