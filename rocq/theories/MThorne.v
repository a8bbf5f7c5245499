(** * Model of /repo/src/lamberthub/series_solvers/thorne.py *)
From Coq Require Import ZArith Bool String List.
Import ListNotations.
From Verif Require Import Num MApi MScipy MLinalg MAssertions MAngles.

Section Thorne.
Context {N : Num}.
Local Open Scope num_scope.

(** The branch identifiers "P", "H", "A", "B" (thorne.py:213-225). *)
Inductive thorne_branch : Type := ThP | ThH | ThA | ThB.

(** thorne.py:120-145 [get_parabolic_tof] *)
Definition tho_parabolic_tof (mu s c mp : num) : num :=
  let k := (s - c) / s in
  nsqrt #2 / #3 * nsqrt (cube s / mu) * (#1 + mp * npow k (nlit 3 2)).

(** thorne.py:148-173 [get_minimum_energy_tof] *)
Definition tho_minimum_energy_tof (mu s c mp : num) : num :=
  let beta := #2 * nasin (nsqrt ((s - c) / s)) in
  nsqrt (cube (s / #2) / mu) * (npi + mp * (beta - nsin beta)).

(** thorne.py:260-278 [lagrange_tof] *)
Definition tho_lagrange_tof (mu s c a mp : num) (branch : thorne_branch) : res num :=
  match branch with
  | ThH =>
      let alpha := #2 * nasinh (nsqrt (- s / (#2 * a))) in
      let beta := #2 * nasinh (nsqrt ((c - s) / (#2 * a))) in
      Ok (nsqrt (cube (- a) / mu)
          * (nsinh alpha - alpha + mp * (nsinh beta - beta)))
  | ThA =>
      let alpha := #2 * nasin (nsqrt (s / (#2 * a))) in
      let beta := #2 * nasin (nsqrt ((s - c) / (#2 * a))) in
      Ok (nsqrt (cube a / mu) * (alpha - nsin alpha + mp * (beta - nsin beta)))
  | ThB =>
      let alpha := #2 * nasin (nsqrt (s / (#2 * a))) in
      let beta := #2 * nasin (nsqrt ((s - c) / (#2 * a))) in
      Ok (nsqrt (cube a / mu)
          * (#2 * npi - (alpha - nsin alpha) + mp * (beta - nsin beta)))
  | ThP => Err (ValueError "Unsupported Thorne branch.")
  end.

(** [while cond(bound): bound *= 2] (thorne.py:242-257) *)
Definition tho_expand (fuel : nat) (cond : num -> res bool) (bound : num) : res num :=
  match while_true
          (fun b => match cond b with
                    | Err e => Raise e
                    | Ok true => Next (b * #2)
                    | Ok false => Break b
                    end) fuel bound with
  | Break b => Ok b
  | Next _ => Err OutOfFuel              (* not reachable *)
  | Raise e => Err e
  end.

(** thorne.py:242-246 [expand_lower_hyperbolic_bound] *)
Definition tho_expand_lower (fuel : nat) (mu s c tof mp lower : num) : res num :=
  tho_expand fuel
    (fun a => let* t := tho_lagrange_tof mu s c a mp ThH in Ok (t <? tof)) lower.

(** thorne.py:249-257 [expand_upper_elliptic_bound] *)
Definition tho_expand_upper (fuel : nat) (mu s c tof mp : num) (branch : thorne_branch)
  (upper : num) : res num :=
  match branch with
  | ThA => tho_expand fuel
             (fun a => let* t := tho_lagrange_tof mu s c a mp branch in Ok (t >? tof)) upper
  | _ => tho_expand fuel
             (fun a => let* t := tho_lagrange_tof mu s c a mp branch in Ok (t <? tof)) upper
  end.

(** thorne.py:176-239 [get_semimajor_axis].  [brentq] raises when it does not
    converge, so lines 236-237 never apply. *)
Definition tho_semimajor_axis (ev : env) (mu s c tof t_p t_min mp : num) (maxiter : Z)
  (atol rtol : num) : res (num * thorne_branch * Z) :=
  if np_isclose tof t_p rtol atol then Ok (#1 / #0, ThP, 1%Z)
  else
    let* (branch, lower, upper) :=
      if tof <? t_p then
        let* lower := tho_expand_lower (e_fuel ev) mu s c tof mp (- s / #2) in
        Ok (ThH, lower, - eps_machine * s)
      else
        let branch := if tof <? t_min then ThA else ThB in
        let* upper := tho_expand_upper (e_fuel ev) mu s c tof mp branch s in
        Ok (branch, s / #2 * (#1 + eps_machine), upper) in
    let f a := let* t := tho_lagrange_tof mu s c a mp branch in Ok (t - tof) in
    let* (a, iterations) := e_brentq ev f lower upper atol rtol maxiter in
    Ok (a, branch, iterations).

(** thorne.py:281-287 [get_x_from_semimajor_axis] *)
Definition tho_x (a s : num) (branch : thorne_branch) : num :=
  match branch with
  | ThP => #1
  | ThB => - nsqrt (#1 - s / (#2 * a))
  | _ => nsqrt (#1 - s / (#2 * a))
  end.

(** thorne.py:296-307 [get_lambda] *)
Definition tho_lambda (r1 r2 : vec num) (s c : num) (is_prograde : bool) : num :=
  let i_r1 := vdivs r1 (norm r1) in
  let i_r2 := vdivs r2 (norm r2) in
  let i_h := cross i_r1 i_r2 in
  let i_h := vdivs i_h (norm i_h) in
  let ll := nsqrt (#1 - c / s) in
  let ll := if vz i_h <? #0 then - ll else ll in
  if is_prograde then ll else - ll.

(** thorne.py:290-293 [get_y_from_x] *)
Definition tho_y (x : num) (r1 r2 : vec num) (s c : num) (is_prograde : bool) : num :=
  let ll := tho_lambda r1 r2 s c is_prograde in
  nsqrt (#1 - sq ll * (#1 - sq x)).

(** thorne.py:310-339 [reconstruct] *)
Definition tho_reconstruct (x y mu : num) (r1 r2 : vec num) (s c : num)
  (is_prograde : bool) : vec num * vec num :=
  let r1_norm := norm r1 in
  let r2_norm := norm r2 in
  let i_r1 := vdivs r1 r1_norm in
  let i_r2 := vdivs r2 r2_norm in
  let i_h := cross i_r1 i_r2 in
  let i_h := vdivs i_h (norm i_h) in
  let ll := nsqrt (#1 - c / s) in
  let '(ll, i_t1, i_t2) :=
    if vz i_h <? #0 then (- ll, cross i_r1 i_h, cross i_r2 i_h)
    else (ll, cross i_h i_r1, cross i_h i_r2) in
  let '(ll, i_t1, i_t2) :=
    if is_prograde then (ll, i_t1, i_t2) else (- ll, vopp i_t1, vopp i_t2) in
  let gamma := nsqrt (mu * s / #2) in
  let rho := (r1_norm - r2_norm) / c in
  let sigma := nsqrt (#1 - sq rho) in
  let V_r1 := gamma * ((ll * y - x) - rho * (ll * y + x)) / r1_norm in
  let V_r2 := - gamma * ((ll * y - x) + rho * (ll * y + x)) / r2_norm in
  let V_t1 := gamma * sigma * (y + ll * x) / r1_norm in
  let V_t2 := gamma * sigma * (y + ll * x) / r2_norm in
  (vadd (vscale V_r1 i_r1) (vscale V_t1 i_t1), vadd (vscale V_r2 i_r2) (vscale V_t2 i_t2)).

(** thorne.py:14-117 [thorne2004] *)
Definition thorne2004 (ev : env) (a : args) : res out :=
  check raise_if (0 <? a_M a)%Z
    (ValueError "Thorne is not able to work within the multi-revolution scenario!") in
  validated a (fun r1 r2 =>
    let mu := a_mu a in
    let r1_norm := norm r1 in
    let r2_norm := norm r2 in
    let c_norm := norm (vsub r2 r1) in
    let s := (r1_norm + r2_norm + c_norm) / #2 in
    let dtheta := get_transfer_angle r1 r2 (a_is_prograde a) in
    let mp := if dtheta <? npi then - #1 else #1 in
    let t_p := tho_parabolic_tof mu s c_norm mp in
    let t_min := tho_minimum_energy_tof mu s c_norm mp in
    let* (sma, branch, numiter) :=
      tho_semimajor_axis ev mu s c_norm (a_tof a) t_p t_min mp
        (a_maxiter a) (a_atol a) (a_rtol a) in
    let* tpi := time_per_iteration (e_clock ev) (a_full_output a) numiter in
    let x := tho_x sma s branch in
    let y := tho_y x r1 r2 s c_norm (a_is_prograde a) in
    let '(v1, v2) := tho_reconstruct x y mu r1 r2 s c_norm (a_is_prograde a) in
    Ok (mk_out (a_full_output a) v1 v2 numiter tpi)).

(** ** The series routines (thorne.py:342-474), not called by [thorne2004].

    Arrays are functions of the 1-based index used in the comments of the
    source ([A n] is [A_array[n - 1]]); entries never written are zero. *)

(** [np.sum([f(k) for k in range(lo, lo + n)])], summed from the left. *)
Fixpoint nsum (f : nat -> num) (lo n : nat) : num :=
  match n with
  | O => #0
  | S k => nsum f lo k + f (lo + k)%nat
  end.

(** [scipy.special.poch(a, n)] for an integer [n] and [factorial(n)] *)
Fixpoint npoch (a : num) (n : nat) : num :=
  match n with O => #1 | S k => npoch a k * (a + nofZ (Z.of_nat k)) end.
Fixpoint nfact (n : nat) : num :=
  match n with O => #1 | S k => nfact k * nofZ (Z.of_nat n) end.

(** thorne.py:342-378 [get_A_array] *)
Definition tho_A (s c mp : num) (n : nat) : num :=
  let k := (s - c) / s in
  let numerator :=
    (#1 + mp * npow k (nofZ (Z.of_nat n) + nlit 3 2))
    * npoch (nlit 1 2) n * npoch (nlit 3 2) n in
  let denominator :=
    (#1 + mp * npow k (nlit 3 2)) * npoch (nlit 5 2) n * nfact n in
  numerator / denominator.

(** thorne.py:431-437: entry [(i, j)], [j > 1], from the rows above. *)
Definition tho_Q_inner (Q : nat -> nat -> num) (i j : nat) : num :=
  nsum (fun k => Q (i - k)%nat (j - 1)%nat * Q k 1%nat) 1 (i - 1).

(** thorne.py:411-437: row [i] given the matrix [Q] of the rows above;
    columns [j > i] stay zero, column 1 is computed last. *)
Definition tho_Q_row (A : nat -> num) (Q : nat -> nat -> num) (i j : nat) : num :=
  if Nat.ltb i j then #0
  else if Nat.eqb i 1 then #1 / A 1%nat
  else if Nat.eqb j 1
  then nsum (fun k => - #1 / A 1%nat * tho_Q_inner Q i (k + 1) * A (k + 1)%nat) 1 (i - 1)
  else tho_Q_inner Q i j.

(** thorne.py:381-439 [get_Q_matrix]: [tho_Q A n] has rows 1..n filled. *)
Fixpoint tho_Q (A : nat -> num) (n : nat) : nat -> nat -> num :=
  match n with
  | O => fun _ _ => #0
  | S k =>
      let Q := tho_Q A k in
      fun i j =>
        if Nat.eqb i n && Nat.leb 1 j then tho_Q_row A Q i j else Q i j
  end.

(** thorne.py:442-474 [get_B_array] *)
Definition tho_B (A : nat -> num) (Q : nat -> nat -> num) (n : nat) : num :=
  if Nat.eqb n 1 then A 1%nat
  else nsum (fun m => Q (n - 1)%nat m * A (m + 1)%nat) 1 (n - 1).

End Thorne.
