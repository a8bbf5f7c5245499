(** * Model of /repo/src/lamberthub/p_solvers/battin.py *)
From Coq Require Import ZArith Bool String.
From Verif Require Import Num MApi MLinalg MAssertions MAngles.

Section Battin.
Context {N : Num}.
Local Open Scope num_scope.

(** battin.py:164-188 [_battin_first_equation] *)
Definition battin_first_equation (y ll m : num) : num :=
  nsqrt (sq ((#1 - ll) / #2) + m / sq y) - (#1 + ll) / #2.

(** battin.py:221-245 [_get_lambda] *)
Definition bat_lambda (c s dtheta : num) : num :=
  let l := nsqrt (s * (s - c)) / s in
  if dtheta <? npi then nabs l else - nabs l.

(** battin.py:249-268 [_get_ll] *)
Definition bat_ll (l : num) : num := sq ((#1 - l) / (#1 + l)).

(** battin.py:272-297 [_get_m] *)
Definition bat_m (mu tof s l : num) : num :=
  (#8 * mu * sq tof) / (cube s * npown (#1 + l) 6).

(** battin.py:444-449, the loop of [_xi_at_x].  The counter [m1] starts at 1 and
    at most [levels] = 125 passes are made: [k] passes are left and the current
    value of [m1] is [126 - k]. *)
Fixpoint bat_xi_loop (k : nat) (m1 : Z) (eta delta u sigma : num) : num :=
  match k with
  | O => sigma
  | S k' =>
      if nabs u >? nlit 1 1000000000000000000 then
        let m1 := (m1 + 1)%Z in
        let gamma := nofZ ((m1 + 3) * (m1 + 3)) / nofZ (4 * ((m1 + 3) * (m1 + 3)) - 1) in
        let delta := #1 / (#1 + gamma * eta * delta) in
        let u := u * (delta - #1) in
        bat_xi_loop k' m1 eta delta u (sigma + u)
      else sigma
  end.

(** battin.py:408-452 [_xi_at_x]; [delta] starts at 0. *)
Definition bat_xi_at_x (x : num) : num :=
  let eta := x / sq (nsqrt (#1 + x) + #1) in
  let sigma := bat_xi_loop 125 1 eta #0 #1 #1 in
  #8 * (nsqrt (#1 + x) + #1)
  / (#3 + #1 / (#5 + eta + (#9 * eta / #7) * sigma)).

(** battin.py:301-335 [_get_h_coefficients] *)
Definition bat_h_coefficients (x ll m : num) : num * num :=
  let xi := bat_xi_at_x x in
  let h_denominator := (#1 + #2 * x + ll) * (#4 * x + xi * (#3 + x)) in
  let h1 := (sq (ll + x) * (#1 + #3 * x + xi)) / h_denominator in
  let h2 := (m * (x - ll + xi)) / h_denominator in
  (h1, h2).

(** battin.py:383-404 [_B_at_h] *)
Definition bat_B_at_h (h1 h2 : num) : num := (#27 * h2) / (#4 * cube (#1 + h1)).

(** battin.py:360-379 [_u_at_B] *)
Definition bat_u_at_B (B : num) : num := - B / (#2 * nsqrt (#1 + B) + #1).

(** battin.py:339-356 [_u_at_h] *)
Definition bat_u_at_h (h1 h2 : num) : num := bat_u_at_B (bat_B_at_h h1 h2).

(** battin.py:511-513 (and 492-494), one update of [(delta, u0, sigma)]. *)
Definition bat_K_step (gamma u : num) (st : num * num * num) : num * num * num :=
  let '(delta, u0, sigma) := st in
  let delta := #1 / (#1 - gamma * u * delta) in
  let u0 := u0 * (delta - #1) in
  (delta, u0, sigma + u0).

(** battin.py:489-515, the loop of [_K_at_u]; [k] passes are left, [n1] is the
    counter of the source. *)
Fixpoint bat_K_loop (k : nat) (n1 : Z) (u : num) (st : num * num * num) : num :=
  let '(delta, u0, sigma) := st in
  match k with
  | O => sigma
  | S k' =>
      if nabs u0 >? nlit 1 1000000000000000000 then
        let st :=
          if (n1 =? 0)%Z then bat_K_step (#4 / #27) u st
          else
            let gamma1 :=
              nofZ (2 * (3 * n1 + 1) * (6 * n1 - 1))
              / nofZ (9 * (4 * n1 - 1) * (4 * n1 + 1)) in
            let gamma2 :=
              nofZ (2 * (3 * n1 + 2) * (6 * n1 + 1))
              / nofZ (9 * (4 * n1 + 1) * (4 * n1 + 3)) in
            bat_K_step gamma2 u (bat_K_step gamma1 u st) in
        bat_K_loop k' (n1 + 1)%Z u st
      else sigma
  end.

(** battin.py:456-518 [_K_at_u]; [levels] = 1000, i.e. at most 1001 passes. *)
Definition bat_K_at_u (u : num) : num :=
  sq (bat_K_loop 1001 0 u (#1, #1, #1) / #3).

(** battin.py:192-217 [_battin_second_equation] *)
Definition battin_second_equation (u h1 h2 : num) : num :=
  let B := bat_B_at_h h1 h2 in
  let K := bat_K_at_u u in
  ((#1 + h1) / #3) * (#2 + nsqrt (B + #1) / (#1 - #2 * u * K)).

(** battin.py:125-148, one pass of the successive substitution; state [x0],
    result [(numiter, x, y)]. *)
Definition bat_body (ll m atol : num) (numiter : Z) (x0 : num)
  : flow (Z * num * num) num :=
  let '(h1, h2) := bat_h_coefficients x0 ll m in
  let u := bat_u_at_h h1 h2 in
  let y := battin_second_equation u h1 h2 in
  let x := battin_first_equation y ll m in
  if nabs (x - x0) <=? atol then Break (numiter, x, y) else Next x.

(** battin.py:152-158, velocities. *)
Definition bat_velocities (tof : num) (r1 r2 : vec num)
  (r1_norm r2_norm semiperimeter l m x y : num) : vec num * vec num :=
  let r11 := sq (#1 + l) / (#4 * tof * l) in
  let s11 := y * (#1 + x) in
  let t11 := (m * semiperimeter * sq (#1 + l)) / s11 in
  (vscale (- r11) (vsub (vscale s11 (vsub r1 r2)) (vdivs (vscale t11 r1) r1_norm)),
   vscale (- r11) (vadd (vscale s11 (vsub r1 r2)) (vdivs (vscale t11 r2) r2_norm))).

(** battin.py:12-160 [battin1984] *)
Definition battin1984 (clock : nat -> num) (a : args) : res out :=
  validated a (fun r1 r2 =>
    let mu := a_mu a in
    let tof := a_tof a in
    let r1_norm := norm r1 in
    let r2_norm := norm r2 in
    let c_norm := norm (vsub r2 r1) in
    let semiperimeter := (r1_norm + r2_norm + c_norm) / #2 in
    let dtheta := get_transfer_angle r1 r2 (a_is_prograde a) in
    let l := bat_lambda c_norm semiperimeter dtheta in
    let ll := bat_ll l in
    let m := bat_m mu tof semiperimeter l in
    let T := nsqrt (#8 * mu / cube semiperimeter) * tof in
    let T_p := (#4 / #3) * (#1 - cube l) in
    let x0 := if T >? T_p then ll else #0 in
    match for_range (bat_body ll m (a_atol a)) (Z.to_nat (a_maxiter a)) 1 x0 with
    | Raise e => Err e
    | Next _ => Err (ValueError "Exceeded maximum number of iterations!")
    | Break (numiter, x, y) =>
        let* tpi := time_per_iteration clock (a_full_output a) numiter in
        let '(v1, v2) := bat_velocities tof r1 r2 r1_norm r2_norm semiperimeter l m x y in
        Ok (mk_out (a_full_output a) v1 v2 numiter tpi)
    end).

End Battin.
