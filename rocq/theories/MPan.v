(** * Model of /repo/src/lamberthub/p_solvers/pan.py *)
From Coq Require Import ZArith Bool String.
From Verif Require Import Num MApi MScipy MLinalg MAssertions MAngles MStumpff MVallado.

Section Pan.
Context {N : Num}.
Local Open Scope num_scope.

(** pan.py:157-171, the dictionary of planar quantities ([y1] is 0). *)
Record pan_geometry : Type := PanGeometry {
  pg_r1_norm : num; pg_r2_norm : num; pg_theta : num;
  pg_i_x : vec num; pg_i_y : vec num;
  pg_x1 : num; pg_y1 : num; pg_x2 : num; pg_y2 : num; pg_xc : num; pg_yc : num
}.

(** pan.py:146-171 [_get_planar_geometry] *)
Definition pan_planar_geometry (r1 r2 : vec num) (theta : num) (is_prograde : bool)
  : pan_geometry :=
  let r1_norm := norm r1 in
  let r2_norm := norm r2 in
  let i_x := vdivs r1 r1_norm in
  let i_h := get_orbit_normal_vector r1 r2 is_prograde in
  let i_y := cross i_h i_x in
  let x1 := r1_norm in
  let y1 := #0 in
  let x2 := r2_norm * ncos theta in
  let y2 := r2_norm * nsin theta in
  PanGeometry r1_norm r2_norm theta i_x i_y x1 y1 x2 y2 (x2 - x1) (y2 - y1).

(** [np.isclose(a, b)] with numpy's default tolerances *)
Definition pan_isclose (a b : num) : bool :=
  np_isclose a b (nlit 1 100000) (nlit 1 100000000).

(** pan.py:254-286 [_elements_at_omega]; result
    [(semi_major_axis, eccentricity, omega, f1, f2)]. *)
Definition pan_elements (g : pan_geometry) (omega : num)
  : res (num * num * num * num * num) :=
  let cos_omega := ncos omega in
  let sin_omega := nsin omega in
  let chord_projection := pg_xc g * cos_omega + pg_yc g * sin_omega in
  if pan_isclose chord_projection #0 then Err (ValueError "Invalid argument of periapsis.")
  else
    let eccentricity := (pg_r1_norm g - pg_r2_norm g) / chord_projection in
    let '(omega, eccentricity) :=
      if eccentricity <? #0 then (omega + npi, - eccentricity)
      else (omega, eccentricity) in
    let denominator := sq (pg_r1_norm g - pg_r2_norm g) - sq chord_projection in
    let numerator :=
      chord_projection
      * (pg_r2_norm g * (pg_x1 g * cos_omega + pg_y1 g * sin_omega)
         - pg_r1_norm g * (pg_x2 g * cos_omega + pg_y2 g * sin_omega)) in
    if pan_isclose denominator #0 then Err (ValueError "Invalid semi-major axis.")
    else
      let semi_major_axis := numerator / denominator in
      if negb (nisfinite semi_major_axis) || negb (nisfinite eccentricity)
      then Err (ValueError "Invalid conic elements.")
      else
        let f1 := natan2 (pg_y1 g) (pg_x1 g) - omega in
        let f2 := natan2 (pg_y2 g) (pg_x2 g) - omega in
        Ok (semi_major_axis, eccentricity, omega, f1, f2).

(** pan.py:337-342 [_true_to_eccentric_anomaly] *)
Definition pan_eccentric_anomaly (f ecc : num) : num :=
  #2 * natan2 (nsqrt (#1 - ecc) * nsin (f / #2)) (nsqrt (#1 + ecc) * ncos (f / #2)).

(** pan.py:345-352 [_true_to_hyperbolic_anomaly] *)
Definition pan_hyperbolic_anomaly (f ecc : num) : res num :=
  let argument := nsqrt ((ecc - #1) / (ecc + #1)) * ntan (f / #2) in
  if nabs argument >=? #1
  then Err (ValueError "True anomaly exceeds the hyperbolic asymptote.")
  else Ok (#2 * natanh argument).

(** pan.py:307-314 [_elliptic_tof] *)
Definition pan_elliptic_tof (mu a ecc f1 f2 : num) : num :=
  let E1 := pan_eccentric_anomaly f1 ecc in
  let E2 := pan_eccentric_anomaly f2 ecc in
  let M1 := E1 - ecc * nsin E1 in
  let M2 := E2 - ecc * nsin E2 in
  let delta_M := nmod (M2 - M1) (#2 * npi) in
  nsqrt (cube a / mu) * delta_M.

(** pan.py:317-326 [_hyperbolic_tof] *)
Definition pan_hyperbolic_tof (mu a ecc f1 f2 : num) : res num :=
  let* F1 := pan_hyperbolic_anomaly f1 ecc in
  let* F2 := pan_hyperbolic_anomaly f2 ecc in
  let M1 := ecc * nsinh F1 - F1 in
  let M2 := ecc * nsinh F2 - F2 in
  let delta_M := M2 - M1 in
  if delta_M <=? #0 then Err (ValueError "Invalid hyperbolic transfer direction.")
  else Ok (nsqrt (cube (- a) / mu) * delta_M).

(** pan.py:329-334 [_parabolic_tof] *)
Definition pan_parabolic_tof (mu p f1 f2 : num) : res num :=
  if p <=? #0 then Err (ValueError "Invalid parabolic semi-latus rectum.")
  else
    let D1 := ntan (f1 / #2) in
    let D2 := ntan (f2 / #2) in
    Ok (nsqrt (cube p / (#2 * mu)) * (D2 + cube D2 / #3 - D1 - cube D1 / #3)).

(** pan.py:289-304 [_tof_from_elements] *)
Definition pan_tof_from_elements (mu : num) (el : num * num * num * num * num) : res num :=
  let '(a, ecc, _, f1, f2) := el in
  if ecc <? #1 then
    if a <=? #0 then Err (ValueError "Invalid elliptic semi-major axis.")
    else Ok (pan_elliptic_tof mu a ecc f1 f2)
  else if pan_isclose ecc #1 then
    pan_parabolic_tof mu (a * (#1 - sq ecc)) f1 f2
  else if a >=? #0 then Err (ValueError "Invalid hyperbolic semi-major axis.")
  else pan_hyperbolic_tof mu a ecc f1 f2.

(** pan.py:248-251 [_tof_at_omega] *)
Definition pan_tof_at_omega (mu : num) (g : pan_geometry) (omega : num) : res num :=
  let* el := pan_elements g omega in
  pan_tof_from_elements mu el.

(** pan.py:182-184, the residual. *)
Definition pan_residual (mu : num) (g : pan_geometry) (tof omega : num) : res num :=
  let* t := pan_tof_at_omega mu g omega in Ok (t - tof).

(** pan.py:210-215 [_safe_tof_residual] *)
Definition pan_safe_residual (mu : num) (g : pan_geometry) (omega tof : num) : num :=
  match pan_residual mu g tof omega with
  | Ok x => x
  | Err _ => nnan
  end.

(** pan.py:193, sample number [i] of [np.linspace(-pi + eps, pi - eps, 721)]. *)
Definition pan_eps : num := nsqrt eps_machine.
Definition pan_sample (i : Z) : num :=
  let start := - npi + pan_eps in
  let stop := npi - pan_eps in
  if (i =? 720)%Z then stop else nofZ i * ((stop - start) / #720) + start.

(** pan.py:190-207 [_get_omega_brackets], of which the caller (line 180) only
    uses the first entry: search from interval [idx] on, [k] intervals left. *)
Fixpoint pan_first_bracket (k : nat) (idx : Z) (value : num -> num) : option (num * num) :=
  match k with
  | O => None
  | S k' =>
      let left_value := value (pan_sample idx) in
      let right_value := value (pan_sample (idx + 1)) in
      if negb (nisfinite left_value) || negb (nisfinite right_value)
      then pan_first_bracket k' (idx + 1)%Z value
      else if left_value =? #0
      then Some (pan_sample idx - pan_eps, pan_sample idx + pan_eps)
      else if left_value * right_value <? #0
      then Some (pan_sample idx, pan_sample (idx + 1))
      else pan_first_bracket k' (idx + 1)%Z value
  end.

(** pan.py:243-245 [_linear_bezier_estimate] *)
Definition pan_bezier_estimate (lower upper f_lower f_upper : num) : num :=
  lower - f_lower * (upper - lower) / (f_upper - f_lower).

(** pan.py:225 [np.clip(root, lower, upper)] *)
Definition pan_clip (x lower upper : num) : num := pymin (pymax x lower) upper.

(** pan.py:223-237, one pass of [_bezier_root]; state
    [(previous, lower, upper, f_lower, f_upper)], result [(root, numiter)]. *)
Definition pan_bezier_body (function : num -> res num) (atol rtol : num) (numiter : Z)
  (st : num * num * num * num * num)
  : flow (num * Z) (num * num * num * num * num) :=
  let '(previous, lower, upper, f_lower, f_upper) := st in
  let root := pan_bezier_estimate lower upper f_lower f_upper in
  let root := pan_clip root lower upper in
  match function root with
  | Err e => Raise e
  | Ok f_root =>
      if (nabs f_root <=? atol) || (nabs (root - previous) <=? atol + rtol * nabs root)
      then Break (root, numiter)
      else if f_lower * f_root <=? #0
      then Next (root, lower, root, f_lower, f_root)
      else Next (root, root, upper, f_root, f_upper)
  end.

(** pan.py:218-240 [_bezier_root] *)
Definition pan_bezier_root (ev : env) (function : num -> res num) (lower upper : num)
  (maxiter : Z) (atol rtol : num) : res (num * Z) :=
  let* f_lower := function lower in
  let* f_upper := function upper in
  match for_range (pan_bezier_body function atol rtol) (Z.to_nat maxiter) 1
          (upper, lower, upper, f_lower, f_upper) with
  | Raise e => Err e
  | Break r => Ok r
  | Next (_, lower, upper, _, _) =>
      let* (root, _) := e_brentq ev function lower upper atol rtol maxiter in
      Ok (root, maxiter)
  end.

(** pan.py:174-187 [_find_argument_of_periapsis] *)
Definition pan_find_omega (ev : env) (mu : num) (g : pan_geometry) (tof : num)
  (maxiter : Z) (atol rtol : num) : res (num * Z) :=
  match pan_first_bracket 720 0 (fun omega => pan_safe_residual mu g omega tof) with
  | None => Err (ValueError "No feasible solution, try lower M!")
  | Some (omega_low, omega_high) =>
      pan_bezier_root ev (pan_residual mu g tof) omega_low omega_high maxiter atol rtol
  end.

(** pan.py:355-379 [_reconstruct_velocities] *)
Definition pan_velocities (mu : num) (g : pan_geometry) (el : num * num * num * num * num)
  : res (vec num * vec num) :=
  let '(a, ecc, omega, f1, f2) := el in
  let p := a * (#1 - sq ecc) in
  let p := if p <=? #0 then a * (sq ecc - #1) else p in
  if p <=? #0 then Err (ValueError "Invalid semi-latus rectum.")
  else
    let scale := nsqrt (mu / p) in
    let plane f :=
      let a0 := scale * - nsin f in
      let a1 := scale * (ecc + ncos f) in
      (ncos omega * a0 + - nsin omega * a1, nsin omega * a0 + ncos omega * a1) in
    let velocity f :=
      let '(b0, b1) := plane f in
      vadd (vscale b0 (pg_i_x g)) (vscale b1 (pg_i_y g)) in
    Ok (velocity f1, velocity f2).

(** pan.py:18-143 [pan2016].  A ValueError of the search (only lines 115-137)
    makes the solver fall back to [vallado2013]. *)
Definition pan2016 (ev : env) (a : args) : res out :=
  check raise_if (0 <? a_M a)%Z
    (ValueError "Pan is not able to work within the multi-revolution scenario!") in
  validated a (fun r1 r2 =>
    let theta := get_transfer_angle r1 r2 (a_is_prograde a) in
    check assert_transfer_angle_not_zero theta in
    check assert_transfer_angle_not_pi theta in
    let fallback := vallado2013 (e_clock ev) (e_fuel ev) a in
    if np_isclose (norm r1) (norm r2) (nlit 1 100000000) (a_atol a) then fallback
    else
      let g := pan_planar_geometry r1 r2 theta (a_is_prograde a) in
      match pan_find_omega ev (a_mu a) g (a_tof a) (a_maxiter a) (a_atol a) (a_rtol a) with
      | Err (ValueError _) => fallback
      | Err e => Err e
      | Ok (omega, numiter) =>
          let* tpi := time_per_iteration (e_clock ev) (a_full_output a) numiter in
          let* el := pan_elements g omega in
          let* (v1, v2) := pan_velocities (a_mu a) g el in
          Ok (mk_out (a_full_output a) v1 v2 numiter tpi)
      end).

End Pan.
