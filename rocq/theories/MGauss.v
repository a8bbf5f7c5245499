(** * Model of /repo/src/lamberthub/p_solvers/gauss.py *)
From Coq Require Import ZArith Bool String.
From Verif Require Import Num MApi MLinalg MAssertions MAngles.

Section Gauss.
Context {N : Num}.
Local Open Scope num_scope.

(** gauss.py:168-193 [_get_s] *)
Definition gau_get_s (r1_norm r2_norm dtheta : num) : num :=
  (r1_norm + r2_norm) / (#4 * nsqrt (r1_norm * r2_norm) * ncos (dtheta / #2))
  - #1 / #2.

(** gauss.py:197-224 [_get_w] *)
Definition gau_get_w (mu tof r1_norm r2_norm dtheta : num) : num :=
  (mu * sq tof) / cube (#2 * nsqrt (r1_norm * r2_norm) * ncos (dtheta / #2)).

(** gauss.py:228-251 [_gauss_first_equation] *)
Definition gauss_first_equation (y s w : num) : num := w / sq y - s.

(** gauss.py:302-304, the summation loop of [_X_at_x] from index [n] on. *)
Fixpoint gau_X_loop (order : nat) (n : Z) (x coeff X : num) : num :=
  match order with
  | O => X
  | S k =>
      let coeff := coeff * nofZ (2 * n) / nofZ (2 * n - 1) * x in
      gau_X_loop k (n + 1)%Z x coeff (X + coeff)
  end.

(** gauss.py:280-306 [_X_at_x] *)
Definition gau_X_at_x (x : num) (order : nat) : num :=
  (#4 / #3) * gau_X_loop order 3 x #1 #1.

(** gauss.py:255-276 [_gauss_second_equation] *)
Definition gauss_second_equation (x s : num) : num :=
  #1 + gau_X_at_x x 50 * (s + x).

(** gauss.py:114-127, one pass of the successive substitution; state [y0],
    result [(numiter, x, y)]. *)
Definition gau_body (s w atol : num) (numiter : Z) (y0 : num)
  : flow (Z * num * num) num :=
  let x := gauss_first_equation y0 s w in
  let y := gauss_second_equation x s in
  if nabs (y - y0) <=? atol then Break (numiter, x, y) else Next y.

(** gauss.py:133-141: for a parabola ([x == 0]) [deltaAnomaly] stays unset. *)
Definition gau_delta_anomaly (x : num) : res num :=
  if x >? #0 then Ok (#2 * nacos (#1 - #2 * x))
  else if x =? #0 then Err (UnboundLocalError "deltaAnomaly")
  else Ok (#2 * nacosh (#1 - #2 * x)).

(** gauss.py:144-148, the orbital parameter (with [cos] also for hyperbolas). *)
Definition gau_p (r1_norm r2_norm dtheta deltaAnomaly : num) : num :=
  (r1_norm * r2_norm * (#1 - ncos dtheta))
  / (r1_norm + r2_norm
     - #2 * nsqrt (r1_norm * r2_norm) * ncos (dtheta / #2) * ncos (deltaAnomaly / #2)).

(** gauss.py:151-162, velocities; line 156 subtracts [1 / r1_norm] twice. *)
Definition gau_velocities (mu : num) (r1 r2 : vec num) (r1_norm r2_norm dtheta p : num)
  : vec num * vec num :=
  let f := #1 - r2_norm * (#1 - ncos dtheta) / p in
  let g := (r1_norm * r2_norm * nsin dtheta) / nsqrt (mu * p) in
  let f_dot := nsqrt (mu / p) * ntan (dtheta / #2)
               * ((#1 - ncos dtheta) / p - #1 / r1_norm - #1 / r1_norm) in
  let g_dot := #1 - r1_norm * (#1 - ncos dtheta) / p in
  let v1 := vdivs (vsub r2 (vscale f r1)) g in
  let v2 := vadd (vscale f_dot r1) (vscale g_dot v1) in
  (v1, v2).

(** gauss.py:17-164 [gauss1809] *)
Definition gauss1809 (clock : nat -> num) (a : args) : res out :=
  validated a (fun r1 r2 =>
    let mu := a_mu a in
    let r1_norm := norm r1 in
    let r2_norm := norm r2 in
    let dtheta := get_transfer_angle r1 r2 (a_is_prograde a) in
    check assert_transfer_angle_not_zero dtheta in
    check assert_transfer_angle_not_pi dtheta in
    let s := gau_get_s r1_norm r2_norm dtheta in
    let w := gau_get_w mu (a_tof a) r1_norm r2_norm dtheta in
    match for_range (gau_body s w (a_atol a)) (Z.to_nat (a_maxiter a)) 1 #1 with
    | Raise e => Err e
    | Next _ => Err (ValueError "Exceeded maximum number of iterations.")
    | Break (numiter, x, y) =>
        let* tpi := time_per_iteration clock (a_full_output a) numiter in
        let* deltaAnomaly := gau_delta_anomaly x in
        let p := gau_p r1_norm r2_norm dtheta deltaAnomaly in
        let '(v1, v2) := gau_velocities mu r1 r2 r1_norm r2_norm dtheta p in
        Ok (mk_out (a_full_output a) v1 v2 numiter tpi)
    end).

End Gauss.
