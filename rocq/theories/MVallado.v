(** * Model of /repo/src/lamberthub/universal_solvers/vallado.py *)
From Coq Require Import ZArith Bool String.
From Verif Require Import Num MApi MLinalg MAssertions MAngles MStumpff.

Section Vallado.
Context {N : Num}.
Local Open Scope num_scope.

(** vallado.py:149-172 [_tof_vallado] *)
Definition val_tof (mu psi X A y : num) : num :=
  (cube X * c3 psi + A * nsqrt y) / nsqrt mu.

(** vallado.py:176-193 [_X_at_psi] *)
Definition val_X_at_psi (psi y : num) : num := nsqrt (y / c2 psi).

(** vallado.py:197-217 [_get_A] *)
Definition val_get_A (r1_norm r2_norm dtheta : num) : num :=
  let t_m := if dtheta <? npi then #1 else - #1 in
  t_m * npow (r1_norm * r2_norm * (#1 + ncos dtheta)) (nlit 1 2).

(** vallado.py:221-246 [_y_at_psi] *)
Definition val_y_at_psi (psi r1_norm r2_norm A : num) : num :=
  (r1_norm + r2_norm) + A * (psi * c3 psi - #1) / npow (c2 psi) (nlit 1 2).

(** vallado.py:111-118, the readjustment loop [while y < 0.0]; state
    [(psi_low, psi, y)].  Line 116 multiplies the two norms. *)
Definition val_readjust (r1_norm r2_norm A : num) (fuel : nat)
  (psi_low psi y : num) : flow (num * num * num) (num * num * num) :=
  while_true
    (fun st : num * num * num =>
       let '(psi_low, psi, y) := st in
       if y <? #0 then
         let psi_low := psi in
         let psi :=
           nlit 8 10 * (#1 / c3 psi)
           * (#1 - (r1_norm * r2_norm) * nsqrt (c2 psi) / A) in
         Next (psi_low, psi, val_y_at_psi psi r1_norm r2_norm A)
       else Break st)
    fuel (psi_low, psi, y).

(** vallado.py:105-133, one pass of the bisection loop; state
    [(psi, psi_low, psi_up)], result [(numiter, psi, y)]. *)
Definition val_body (mu tof rtol r1_norm r2_norm A : num) (fuel : nat)
  (numiter : Z) (st : num * num * num) : flow (Z * num * num) (num * num * num) :=
  let '(psi, psi_low, psi_up) := st in
  let y := val_y_at_psi psi r1_norm r2_norm A in
  let readjusted :=
    if A >? #0 then val_readjust r1_norm r2_norm A fuel psi_low psi y
    else Break (psi_low, psi, y) in
  match readjusted with
  | Raise e => Raise e
  | Next st => Next st        (* not reachable: the loop only breaks or raises *)
  | Break (psi_low, psi, y) =>
      let X := val_X_at_psi psi y in
      let tof_new := val_tof mu psi X A y in
      if nabs ((tof_new - tof) / tof) <? rtol then Break (numiter, psi, y)
      else
        let condition := tof_new <=? tof in
        let one_if (b : bool) := if b then #1 else #0 in
        let psi_low := psi_low + (psi - psi_low) * one_if condition in
        let psi_up := psi_up + (psi - psi_up) * one_if (negb condition) in
        Next ((psi_up + psi_low) / #2, psi_low, psi_up)
  end.

(** vallado.py:137-143, Lagrange coefficients and velocities. *)
Definition val_velocities (mu : num) (r1 r2 : vec num) (r1_norm r2_norm A y : num)
  : vec num * vec num :=
  let f := #1 - y / r1_norm in
  let g := A * nsqrt (y / mu) in
  let gdot := #1 - y / r2_norm in
  (vdivs (vsub r2 (vscale f r1)) g, vdivs (vsub (vscale gdot r2) r1) g).

(** vallado.py:13-145 [vallado2013].  [fuel] bounds each run of the inner
    [while] loop only. *)
Definition vallado2013 (clock : nat -> num) (fuel : nat) (a : args) : res out :=
  validated a (fun r1 r2 =>
    let mu := a_mu a in
    let tof := a_tof a in
    let r1_norm := norm r1 in
    let r2_norm := norm r2 in
    let dtheta := get_transfer_angle r1 r2 (a_is_prograde a) in
    let A := val_get_A r1_norm r2_norm dtheta in
    if A =? #0 then
      Err (RuntimeError "Cannot compute orbit, phase angle is 180 degrees")
    else
      let psi := #0 in
      let psi_low := - #4 * sq npi in
      let psi_up := #4 * sq npi in
      match for_range (val_body mu tof (a_rtol a) r1_norm r2_norm A fuel)
              (Z.to_nat (a_maxiter a)) 1 (psi, psi_low, psi_up) with
      | Raise e => Err e
      | Next _ => Err (ValueError "Exceeded maximum number of iterations!")
      | Break (numiter, psi, y) =>
          let* tpi := time_per_iteration clock (a_full_output a) numiter in
          let '(v1, v2) := val_velocities mu r1 r2 r1_norm r2_norm A y in
          Ok (mk_out (a_full_output a) v1 v2 numiter tpi)
      end).

End Vallado.
