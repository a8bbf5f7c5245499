(** * Model of /repo/src/lamberthub/p_solvers/jiang.py *)
From Coq Require Import ZArith Bool String.
From Verif Require Import Num MApi MScipy MLinalg MAssertions MAngles.

Section Jiang.
Context {N : Num}.
Local Open Scope num_scope.

(** jiang.py:322, 346 ...: [1.4901161193847656e-08] = 2^-26 *)
Definition jia_eps : num := nlit 1 67108864.

(** jiang.py:290-310 [_beta_sign] *)
Definition jia_beta_sign (theta : num) : num := if theta <=? npi then #1 else - #1.

(** jiang.py:129-156 [_tof_parabolic] *)
Definition jia_tof_parabolic (mu s c theta : num) : num :=
  nsqrt (#2 / mu) * (npow s (nlit 3 2) - jia_beta_sign theta * npow (s - c) (nlit 3 2)) / #3.

(** jiang.py:226-257 [_elliptic_alpha_beta] *)
Definition jia_elliptic_alpha_beta (a s c theta : num) (long_period : bool) : num * num :=
  let alpha := #2 * nasin (nsqrt (s / (#2 * a))) in
  let alpha := if long_period then #2 * npi - alpha else alpha in
  let beta := #2 * nasin (nsqrt ((s - c) / (#2 * a))) in
  let beta := beta * jia_beta_sign theta in
  (alpha, beta).

(** jiang.py:261-286 [_hyperbolic_alpha_beta] *)
Definition jia_hyperbolic_alpha_beta (a s c theta : num) : num * num :=
  let alpha := #2 * nasinh (nsqrt (s / (- #2 * a))) in
  let beta := #2 * nasinh (nsqrt ((s - c) / (- #2 * a))) in
  let beta := beta * jia_beta_sign theta in
  (alpha, beta).

(** jiang.py:160-190 [_tof_elliptic] *)
Definition jia_tof_elliptic (mu a s c theta : num) (long_period : bool) : num :=
  let '(alpha, beta) := jia_elliptic_alpha_beta a s c theta long_period in
  nsqrt (cube a / mu) * ((alpha - nsin alpha) - (beta - nsin beta)).

(** jiang.py:194-222 [_tof_hyperbolic] *)
Definition jia_tof_hyperbolic (mu a s c theta : num) : num :=
  let '(alpha, beta) := jia_hyperbolic_alpha_beta a s c theta in
  nsqrt (cube (- a) / mu) * ((nsinh alpha - alpha) - (nsinh beta - beta)).

(** jiang.py:584-611 [_numerical_derivative], inlined at 346-354 and 401-409. *)
Definition jia_derivative (function : num -> num) (x lower upper : num) : num :=
  let step := jia_eps * pymax #1 (nabs x) in
  let x_minus := pymax lower (x - step) in
  let x_plus := pymin upper (x + step) in
  if nneqb x_plus x_minus
  then (function x_plus - function x_minus) / (x_plus - x_minus)
  else #0.

(** jiang.py:335-368 = 390-423 = 555-579, one pass of the safeguarded Newton
    iteration; state [(x, lower, upper, f_lower)], result [(x, numiter)]. *)
Definition jia_newton_body (function : num -> num) (atol rtol : num) (numiter : Z)
  (st : num * num * num * num) : flow (num * Z) (num * num * num * num) :=
  let '(x, lower, upper, f_lower) := st in
  let f_x := function x in
  if nabs f_x <=? atol then Break (x, numiter)
  else
    let '(lower, upper, f_lower) :=
      if f_lower * f_x <=? #0 then (lower, x, f_lower) else (x, upper, f_x) in
    let derivative := jia_derivative function x lower upper in
    let x_new := if nneqb derivative #0 then x - f_x / derivative
                 else (lower + upper) / #2 in
    let x_new :=
      if negb (nisfinite x_new) || negb ((lower <? x_new) && (x_new <? upper))
      then (lower + upper) / #2 else x_new in
    let f_new := function x_new in
    if (nabs f_new <=? atol)
       || ((nabs (x_new - x) <=? atol + rtol * nabs x_new)
           && (nabs f_new <=? nabs f_x))
    then Break (x_new, numiter)
    else Next (x_new, lower, upper, f_lower).

(** jiang.py:520-581 [_solve_semimajor_axis] and the equal second halves of
    [_find_and_solve_elliptic] and [_find_and_solve_hyperbolic]. *)
Definition jia_solve_semimajor_axis (function : num -> num) (lower upper : num)
  (maxiter : Z) (atol rtol : num) : res (num * Z) :=
  let x := (lower + upper) / #2 in
  let f_lower := function lower in
  match for_range (jia_newton_body function atol rtol) (Z.to_nat maxiter) 1
          (x, lower, upper, f_lower) with
  | Raise e => Err e
  | Next _ => Err (ValueError "Exceeded maximum number of iterations!")
  | Break r => Ok r
  end.

(** jiang.py:328-330 = 470-471, [while f_lower * f_upper > 0: upper *= 2]. *)
Definition jia_expand_elliptic (residual : num -> num) (lower : num) (fuel : nat)
  (upper : num) : flow num num :=
  while_true
    (fun upper => if residual lower * residual upper >? #0
                  then Next (upper * #2) else Break upper)
    fuel upper.

(** jiang.py:428-473 [_get_elliptic_bracket] = 322-330 *)
Definition jia_elliptic_bracket (fuel : nat) (mu tof a_min s c theta : num)
  (long_period : bool) : res (num * num) :=
  let lower := a_min * (#1 + jia_eps) in
  let upper := pymax (#2 * lower) #1 in
  let residual axis := jia_tof_elliptic mu axis s c theta long_period - tof in
  match jia_expand_elliptic residual lower fuel upper with
  | Raise e => Err e
  | Next _ => Err OutOfFuel              (* not reachable *)
  | Break upper => Ok (lower, upper)
  end.

(** jiang.py:384-385 = 514-515, [while residual(lower) < 0: lower *= 2]. *)
Definition jia_expand_hyperbolic (residual : num -> num) (fuel : nat) (lower : num)
  : flow num num :=
  while_true
    (fun lower => if residual lower <? #0 then Next (lower * #2) else Break lower)
    fuel lower.

(** jiang.py:476-517 [_get_hyperbolic_bracket] = 380-385 *)
Definition jia_hyperbolic_bracket (fuel : nat) (mu tof s c theta : num)
  : res (num * num) :=
  let lower := - pymax (pymax s c) #1 in
  let upper := - jia_eps * pymax (pymax s c) #1 in
  let residual axis := jia_tof_hyperbolic mu axis s c theta - tof in
  match jia_expand_hyperbolic residual fuel lower with
  | Raise e => Err e
  | Next _ => Err OutOfFuel              (* not reachable *)
  | Break lower => Ok (lower, upper)
  end.

(** jiang.py:314-370 [_find_and_solve_elliptic] *)
Definition jia_find_and_solve_elliptic (fuel : nat) (mu tof a_min s c theta : num)
  (long_period : bool) (maxiter : Z) (atol rtol : num) : res (num * Z) :=
  let* (lower, upper) := jia_elliptic_bracket fuel mu tof a_min s c theta long_period in
  jia_solve_semimajor_axis
    (fun x => jia_tof_elliptic mu x s c theta long_period - tof)
    lower upper maxiter atol rtol.

(** jiang.py:374-425 [_find_and_solve_hyperbolic] *)
Definition jia_find_and_solve_hyperbolic (fuel : nat) (mu tof s c theta : num)
  (maxiter : Z) (atol rtol : num) : res (num * Z) :=
  let* (lower, upper) := jia_hyperbolic_bracket fuel mu tof s c theta in
  jia_solve_semimajor_axis
    (fun x => jia_tof_hyperbolic mu x s c theta - tof)
    lower upper maxiter atol rtol.

(** jiang.py:615-643 [_elliptic_p] *)
Definition jia_elliptic_p (a r1_norm r2_norm c s theta : num) (long_period : bool) : num :=
  let '(alpha, beta) := jia_elliptic_alpha_beta a s c theta long_period in
  let factor := #4 * a * (s - r1_norm) * (s - r2_norm) / sq c in
  factor * sq (nsin ((alpha + beta) / #2)).

(** jiang.py:647-673 [_hyperbolic_p] *)
Definition jia_hyperbolic_p (a r1_norm r2_norm c s theta : num) : num :=
  let '(alpha, beta) := jia_hyperbolic_alpha_beta a s c theta in
  let factor := - #4 * a * (s - r1_norm) * (s - r2_norm) / sq c in
  factor * sq (nsinh ((alpha + beta) / #2)).

(** jiang.py:677-706 [_parabolic_p] *)
Definition jia_parabolic_p (r1_norm r2_norm c s theta : num) : num :=
  let factor := #2 * (s - r1_norm) * (s - r2_norm) / sq c in
  factor * sq (nsqrt s + jia_beta_sign theta * nsqrt (s - c)).

(** jiang.py:710-743 [_reconstruct_velocities] *)
Definition jia_velocities (mu : num) (r1 r2 : vec num) (r1_norm r2_norm theta p : num)
  : vec num * vec num :=
  let scale := nsqrt (mu * p) / (r1_norm * r2_norm * nsin theta) in
  let one_minus_cos := #1 - ncos theta in
  (vscale scale (vadd (vsub r2 r1) (vscale (r2_norm / p * one_minus_cos) r1)),
   vscale scale (vsub (vsub r2 r1) (vscale (r1_norm / p * one_minus_cos) r2))).

(** jiang.py:101-116, the semi-latus rectum and the number of iterations. *)
Definition jia_solve_p (fuel : nat) (a : args) (r1_norm r2_norm c s theta : num)
  : res (num * Z) :=
  let mu := a_mu a in
  let tof := a_tof a in
  let tof_parabolic := jia_tof_parabolic mu s c theta in
  if np_isclose tof tof_parabolic (a_rtol a) (a_atol a) then
    Ok (jia_parabolic_p r1_norm r2_norm c s theta, 0%Z)
  else if tof >? tof_parabolic then
    let a_min := s / #2 in
    let tof_min_energy := jia_tof_elliptic mu a_min s c theta false in
    let long_period := tof >? tof_min_energy in
    let* (sma, numiter) :=
      jia_find_and_solve_elliptic fuel mu tof a_min s c theta long_period
        (a_maxiter a) (a_atol a) (a_rtol a) in
    Ok (jia_elliptic_p sma r1_norm r2_norm c s theta long_period, numiter)
  else
    let* (sma, numiter) :=
      jia_find_and_solve_hyperbolic fuel mu tof s c theta
        (a_maxiter a) (a_atol a) (a_rtol a) in
    Ok (jia_hyperbolic_p sma r1_norm r2_norm c s theta, numiter).

(** jiang.py:17-125 [jiang2016] *)
Definition jiang2016 (ev : env) (a : args) : res out :=
  check raise_if (0 <? a_M a)%Z
    (ValueError "Jiang is not able to work within the multi-revolution scenario!") in
  validated a (fun r1 r2 =>
    let theta := get_transfer_angle r1 r2 (a_is_prograde a) in
    check assert_transfer_angle_not_zero theta in
    check assert_transfer_angle_not_pi theta in
    let r1_norm := norm r1 in
    let r2_norm := norm r2 in
    let c := norm (vsub r2 r1) in
    let s := (r1_norm + r2_norm + c) / #2 in
    let* (p, numiter) := jia_solve_p (e_fuel ev) a r1_norm r2_norm c s theta in
    let* tpi :=
      (if (numiter =? 0)%Z then Ok #0
       else time_per_iteration (e_clock ev) (a_full_output a) numiter) in
    let '(v1, v2) := jia_velocities (a_mu a) r1 r2 r1_norm r2_norm theta p in
    Ok (mk_out (a_full_output a) v1 v2 numiter tpi)).

End Jiang.
