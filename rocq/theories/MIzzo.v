(** * Model of /repo/src/lamberthub/universal_solvers/izzo.py *)
From Coq Require Import ZArith Bool String.
From Verif Require Import Num MApi MLinalg.

Section Izzo.
Context {N : Num}.
Local Open Scope num_scope.

(** izzo.py:371-378, [term] after [n] passes of the loop in [hyp2f1b]. *)
Fixpoint hyp_term (x : num) (n : nat) : num :=
  match n with
  | O => #1
  | S k =>
      let ii := Z.of_nat k in
      hyp_term x k * nofZ (3 + ii) * nofZ (1 + ii) / (#5 / #2 + nofZ ii) * x
      / nofZ (ii + 1)
  end.

(** izzo.py:369-378, [res] after [n] passes of the loop in [hyp2f1b]. *)
Fixpoint hyp_partial (x : num) (n : nat) : num :=
  match n with
  | O => #1
  | S k => hyp_partial x k + hyp_term x (S k)
  end.

(** izzo.py:357-378 [hyp2f1b]; [np.inf] is written [1 / 0]. *)
Definition hyp2f1b (x : num) : num :=
  if x >=? #1 then #1 / #0 else nuntil_stable (hyp_partial x).

(** izzo.py:173-175 [_compute_y] *)
Definition izzo_y (x ll : num) : num := nsqrt (#1 - sq ll * (#1 - sq x)).

(** izzo.py:179-196 [_compute_psi] *)
Definition izzo_psi (x y ll : num) : num :=
  if (- #1 <=? x) && (x <? #1) then nacos (x * y + ll * (#1 - sq x))
  else if x >? #1 then nasinh ((y - x * ll) * nsqrt (sq x - #1))
  else #0.

(** izzo.py:206-217 [_tof_equation_y]; [M] is an integer or [M_max], a float. *)
Definition izzo_tof_y (x y T0 ll M : num) : num :=
  let T_ :=
    if (M =? #0) && (nsqrt (nlit 6 10) <? x) && (x <? nsqrt (nlit 14 10)) then
      let eta := y - ll * x in
      let S_1 := (#1 - ll - x * eta) * nlit 1 2 in
      let Q := #4 / #3 * hyp2f1b S_1 in
      (cube eta * Q + #4 * ll * eta) * nlit 1 2
    else
      let psi := izzo_psi x y ll in
      ((psi + M * npi) / nsqrt (nabs (#1 - sq x)) - x + ll * y) / (#1 - sq x) in
  T_ - T0.

(** izzo.py:200-202 [_tof_equation] *)
Definition izzo_tof (x T0 ll M : num) : num := izzo_tof_y x (izzo_y x ll) T0 ll M.

(** izzo.py:221-223 [_tof_equation_p] *)
Definition izzo_tof_p (x y T ll : num) : num :=
  (#3 * T * x - #2 + #2 * cube ll * x / y) / (#1 - sq x).

(** izzo.py:227-229 [_tof_equation_p2] *)
Definition izzo_tof_p2 (x y T dT ll : num) : num :=
  (#3 * T + #5 * x * dT + #2 * (#1 - sq ll) * cube ll / cube y) / (#1 - sq x).

(** izzo.py:233-235 [_tof_equation_p3] *)
Definition izzo_tof_p3 (x y dT ddT ll : num) : num :=
  (#7 * x * ddT + #8 * dT - #6 * (#1 - sq ll) * npown ll 5 * x / npown y 5)
  / (#1 - sq x).

(** izzo.py:307-320, one pass of the loop of [_halley]; state [p0].  [T0] is
    never updated. *)
Definition izzo_halley_body (T0 ll atol rtol : num) (_ : Z) (p0 : num) : flow num num :=
  let y := izzo_y p0 ll in
  let fder := izzo_tof_p p0 y T0 ll in
  let fder2 := izzo_tof_p2 p0 y T0 fder ll in
  if fder2 =? #0 then Raise (RuntimeError "Derivative was zero")
  else
    let fder3 := izzo_tof_p3 p0 y fder fder2 ll in
    let p := p0 - #2 * fder * fder2 / (#2 * sq fder2 - fder * fder3) in
    if nabs (p - p0) <? rtol * nabs p0 + atol then Break p else Next p.

(** izzo.py:298-322 [_halley] *)
Definition izzo_halley (p0 T0 ll atol rtol : num) (maxiter : Z) : res num :=
  match for_range (izzo_halley_body T0 ll atol rtol) (Z.to_nat maxiter) 1 p0 with
  | Raise e => Err e
  | Next _ => Err (RuntimeError "Failed to converge")
  | Break p => Ok p
  end.

(** izzo.py:335-351, one pass of the loop of [_householder]; state [p0]. *)
Definition izzo_householder_body (T0 ll M atol rtol : num) (_ : Z) (p0 : num)
  : flow num num :=
  let y := izzo_y p0 ll in
  let fval := izzo_tof_y p0 y T0 ll M in
  let T := fval + T0 in
  let fder := izzo_tof_p p0 y T ll in
  let fder2 := izzo_tof_p2 p0 y T fder ll in
  let fder3 := izzo_tof_p3 p0 y fder fder2 ll in
  let p :=
    p0 - fval * ((sq fder - fval * fder2 / #2)
                 / (fder * (sq fder - fval * fder2) + fder3 * sq fval / #6)) in
  if nabs (p - p0) <? rtol * nabs p0 + atol then Break p else Next p.

(** izzo.py:326-353 [_householder] *)
Definition izzo_householder (p0 T0 ll M atol rtol : num) (maxiter : Z) : res num :=
  match for_range (izzo_householder_body T0 ll M atol rtol) (Z.to_nat maxiter) 1 p0 with
  | Raise e => Err e
  | Next _ => Err (RuntimeError "Failed to converge")
  | Break p => Ok p
  end.

(** izzo.py:239-255 [_compute_T_min]; [np.inf] is written [1 / 0]. *)
Definition izzo_T_min (ll M : num) (maxiter : Z) (atol rtol : num) : res (num * num) :=
  if ll =? #1 then Ok (#0, izzo_tof #0 #0 ll M)
  else if M =? #0 then Ok (#1 / #0, #0)
  else
    let x_i := nlit 1 10 in
    let T_i := izzo_tof x_i #0 ll M in
    let* x_T_min := izzo_halley x_i T_i ll atol rtol maxiter in
    Ok (x_T_min, izzo_tof x_T_min #0 ll M).

(** izzo.py:259-294 [_initial_guess] *)
Definition izzo_initial_guess (T ll M : num) (is_low_path : bool) : num :=
  if M =? #0 then
    let T_0 := nacos ll + ll * nsqrt (#1 - sq ll) + M * npi in
    let T_1 := #2 * (#1 - cube ll) / #3 in
    if T >=? T_0 then npow (T_0 / T) (#2 / #3) - #1
    else if T <? T_1 then
      #5 / #2 * T_1 / T * (T_1 - T) / (#1 - npown ll 5) + #1
    else nexp (nln #2 * nln (T / T_0) / nln (T_1 / T_0)) - #1
  else
    let u := npow ((M * npi + npi) / (#8 * T)) (#2 / #3) in
    let x_0l := (u - #1) / (u + #1) in
    let w := npow ((#8 * T) / (M * npi)) (#2 / #3) in
    let x_0r := (w - #1) / (w + #1) in
    if is_low_path then np_max x_0l x_0r else np_min x_0l x_0r.

(** izzo.py:143-169 [_find_xy] *)
Definition izzo_find_xy (ll T M : num) (maxiter : Z) (atol rtol : num)
  (is_low_path : bool) : res (num * num) :=
  if negb (nabs ll <? #1) then Err AssertionError
  else
    let M_max := nfloor (T / npi) in
    let T_00 := nacos ll + ll * nsqrt (#1 - sq ll) in
    let* M_max :=
      (if (T <? T_00 + M_max * npi) && (M_max >? #0) then
         let* (_, T_min) := izzo_T_min ll M_max maxiter atol rtol in
         Ok (if T <? T_min then M_max - #1 else M_max)
       else Ok M_max) in
    if M >? M_max then Err (ValueError "No feasible solution, try lower M!")
    else
      let x_0 := izzo_initial_guess T ll M is_low_path in
      let* x := izzo_householder x_0 T ll M atol rtol maxiter in
      Ok (x, izzo_y x ll).

(** izzo.py:133-139 [_reconstruct] *)
Definition izzo_reconstruct (x y r1 r2 ll gamma rho sigma : num)
  : num * num * num * num :=
  let V_r1 := gamma * ((ll * y - x) - rho * (ll * y + x)) / r1 in
  let V_r2 := - gamma * ((ll * y - x) + rho * (ll * y + x)) / r2 in
  let V_t1 := gamma * sigma * (y + ll * x) / r1 in
  let V_t2 := gamma * sigma * (y + ll * x) / r2 in
  (V_r1, V_r2, V_t1, V_t2).

(** izzo.py:85-109, the geometry of the problem: norms of r1, r2 and of the
    chord, semiperimeter, lambda and the tangential directions. *)
Definition izzo_geometry (r1 r2 : vec num) (is_prograde : bool)
  : num * num * num * num * num * vec num * vec num :=
  let c := vsub r2 r1 in
  let c_norm := norm c in
  let r1_norm := norm r1 in
  let r2_norm := norm r2 in
  let s := (r1_norm + r2_norm + c_norm) * nlit 1 2 in
  let i_r1 := vdivs r1 r1_norm in
  let i_r2 := vdivs r2 r2_norm in
  let i_h := cross i_r1 i_r2 in
  let i_h := vdivs i_h (norm i_h) in
  let ll := nsqrt (#1 - pymin #1 (c_norm / s)) in
  let '(ll, i_t1, i_t2) :=
    if vz i_h <? #0 then (- ll, cross i_r1 i_h, cross i_r2 i_h)
    else (ll, cross i_h i_r1, cross i_h i_r2) in
  let '(ll, i_t1, i_t2) :=
    if is_prograde then (ll, i_t1, i_t2) else (- ll, vopp i_t1, vopp i_t2) in
  (r1_norm, r2_norm, c_norm, s, ll, i_t1, i_t2).

(** izzo.py:117-128, velocities for given [x], [y]. *)
Definition izzo_velocities (mu : num) (r1 r2 : vec num)
  (r1_norm r2_norm c_norm s ll : num) (i_t1 i_t2 : vec num) (x y : num)
  : vec num * vec num :=
  let gamma := nsqrt (mu * s / #2) in
  let rho := (r1_norm - r2_norm) / c_norm in
  let sigma := nsqrt (#1 - sq rho) in
  let '(V_r1, V_r2, V_t1, V_t2) :=
    izzo_reconstruct x y r1_norm r2_norm ll gamma rho sigma in
  (vadd (vscale V_r1 (vdivs r1 r1_norm)) (vscale V_t1 i_t1),
   vadd (vscale V_r2 (vdivs r2 r2_norm)) (vscale V_t2 i_t2)).

(** izzo.py:11-129 [izzo2015].  The validation at line 83 is commented out.  The
    function has no parameter [full_output]: passing [full_output=True] raises
    TypeError, an argument record with [a_full_output = false] stands for a
    call without the keyword. *)
Definition izzo2015 (a : args) : res out :=
  check raise_if (a_full_output a)
    (TypeError "got an unexpected keyword argument 'full_output'") in
  let* r1 := as_vec (a_r1 a) in
  let* r2 := as_vec (a_r2 a) in
  let mu := a_mu a in
  let '(r1_norm, r2_norm, c_norm, s, ll, i_t1, i_t2) :=
    izzo_geometry r1 r2 (a_is_prograde a) in
  let T := nsqrt (#2 * mu / cube s) * a_tof a in
  let* (x, y) :=
    izzo_find_xy ll T (nofZ (a_M a)) (a_maxiter a) (a_atol a) (a_rtol a)
      (a_is_low_path a) in
  let '(v1, v2) :=
    izzo_velocities mu r1 r2 r1_norm r2_norm c_norm s ll i_t1 i_t2 x y in
  Ok (Pair v1 v2).

End Izzo.
