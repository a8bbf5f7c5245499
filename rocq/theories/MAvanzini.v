(** * Model of /repo/src/lamberthub/ecc_solvers/utils.py and avanzini.py *)
From Coq Require Import ZArith Bool String.
From Verif Require Import Num MApi MScipy MLinalg MAssertions MAngles MKepler MElements.

Section Avanzini.
Context {N : Num}.
Local Open Scope num_scope.

(** utils.py:60-68, the tuple [(r1_norm, r2_norm, c_norm, dtheta, w_c)]. *)
Record ecc_geometry : Type := EccGeometry {
  eg_r1 : num; eg_r2 : num; eg_c : num; eg_dtheta : num; eg_wc : num }.

(** utils.py:33-68 [get_geometry] *)
Definition get_geometry (r1 r2 : vec num) (is_prograde : bool) : res ecc_geometry :=
  let r1_norm := norm r1 in
  let r2_norm := norm r2 in
  let c_norm := norm (vsub r2 r1) in
  let dtheta := get_transfer_angle r1 r2 is_prograde in
  check assert_transfer_angle_not_zero dtheta in
  let w_c := get_transfer_angle r1 (vsub r2 r1) is_prograde in
  Ok (EccGeometry r1_norm r2_norm c_norm dtheta w_c).

(** utils.py:71-98 [get_eccF] *)
Definition get_eccF (r1_norm r2_norm c_norm : num) : num := (r1_norm - r2_norm) / c_norm.

(** utils.py:101-127 [get_aF] *)
Definition get_aF (r1_norm r2_norm : num) : num := (r1_norm + r2_norm) / #2.

(** utils.py:130-155 [get_pF] *)
Definition get_pF (a_F ecc_F : num) : num := a_F * (#1 - sq ecc_F).

(** utils.py:191-211 [ecc_at_eccT] *)
Definition ecc_at_eccT (ecc_T ecc_F : num) : num := nsqrt (sq ecc_T + sq ecc_F).

(** utils.py:214-241 [p_at_eccT] *)
Definition p_at_eccT (ecc_T r1_norm r2_norm c_norm dtheta p_F : num) : num :=
  p_F - ecc_T * r1_norm * r2_norm * nsin dtheta / c_norm.

(** utils.py:244-265 [a_at_eccT] *)
Definition a_at_eccT (ecc_T ecc_F p : num) : num := p / (#1 - sq ecc_F - sq ecc_T).

(** utils.py:268-304 [eap_from_eccT], with 158-188
    [get_fundamental_ellipse_properties] inlined. *)
Definition eap_from_eccT (ecc_T : num) (g : ecc_geometry) : num * num * num :=
  let ecc_F := get_eccF (eg_r1 g) (eg_r2 g) (eg_c g) in
  let a_F := get_aF (eg_r1 g) (eg_r2 g) in
  let p_F := get_pF a_F ecc_F in
  let ecc := ecc_at_eccT ecc_T ecc_F in
  let p := p_at_eccT ecc_T (eg_r1 g) (eg_r2 g) (eg_c g) (eg_dtheta g) p_F in
  let a := a_at_eccT ecc_T ecc_F p in
  (ecc, a, p).

(** utils.py:307-341 [w_at_eccT] *)
Definition w_at_eccT (ecc_T ecc_F w_c : num) : num :=
  let y := ecc_F * nsin w_c + ecc_T * ncos w_c in
  let x := ecc_F * ncos w_c - ecc_T * nsin w_c in
  natan2 y x.

(** utils.py:344-366 [get_true_anomalies] *)
Definition get_true_anomalies (w dtheta : num) : num * num := (- w, - w + dtheta).

(** utils.py:369-422 [kepler_tof_at_eccT] *)
Definition kepler_tof_at_eccT (ecc_T mu : num) (g : ecc_geometry) : res num :=
  let '(ecc, a, p) := eap_from_eccT ecc_T g in
  let ecc_F := get_eccF (eg_r1 g) (eg_r2 g) (eg_c g) in
  let w := w_at_eccT ecc_T ecc_F (eg_wc g) in
  let '(nu_1, nu_2) := get_true_anomalies w (eg_dtheta g) in
  let* M_1 := kepler_from_nu nu_1 ecc in
  let* M_2 := kepler_from_nu nu_2 ecc in
  let deltaM := M_2 - M_1 in
  if (#0 <=? ecc) && (ecc <? #1) then
    let tof12 := nsqrt (cube a / mu) * deltaM in
    Ok (if tof12 <? #0 then tof12 + #2 * npi * nsqrt (cube a / mu) else tof12)
  else if ecc =? #1 then
    let tof12 := #1 / #2 * nsqrt (cube p / mu) * deltaM in
    Ok (if tof12 <? #0 then #1 / #0 else tof12)
  else Ok (nsqrt (- cube a / mu) * deltaM).

(** utils.py:425-459 [_f] *)
Definition ava_f (x : num) (ecc_T_at_x : num -> num) (mu : num) (g : ecc_geometry)
  (tof12_s : num) : res num :=
  let ecc_T := ecc_T_at_x x in
  let* tof12 := kepler_tof_at_eccT ecc_T mu g in
  let t_ref := nsqrt (cube (eg_r1 g) / mu) in
  let y := nln (tof12 / t_ref) in
  let y_s := nln (tof12_s / t_ref) in
  Ok (y - y_s).

(** utils.py:462-520 [coe_at_eccT]; result [(p, ecc, inc, raan, argp, nu_1, nu_2)]. *)
Definition coe_at_eccT (ecc_T : num) (r1 r2 : vec num) (sense : bool)
  : res (num * num * num * num * num * num * num) :=
  let* g := get_geometry r1 r2 sense in
  let '(ecc, a, p) := eap_from_eccT ecc_T g in
  let ecc_F := get_eccF (eg_r1 g) (eg_r2 g) (eg_c g) in
  let w := w_at_eccT ecc_T ecc_F (eg_wc g) in
  let '(nu_1, nu_2) := get_true_anomalies w (eg_dtheta g) in
  let i_h := get_orbit_normal_vector r1 r2 sense in
  let '(inc, raan) := get_orbit_inc_and_raan_from_position_vectors r1 r2 sense in
  let n := cross (V3 #0 #0 #1) i_h in
  let px := dot r1 n in
  let py := dot r1 (cross i_h n) / norm i_h in
  let argp := nmod (natan2 py px - nu_1) (#2 * npi) in
  Ok (p, ecc, inc, raan, argp, nu_1, nu_2).

(** avanzini.py:145-159 [_get_eccT_limits] *)
Definition ava_eccT_limits (g : ecc_geometry) : num * num :=
  let ecc_F := get_eccF (eg_r1 g) (eg_r2 g) (eg_c g) in
  let ecc_max := - #1 / ncos (eg_dtheta g / #2) in
  let ecc_H := if eg_dtheta g >? npi then nsqrt (sq ecc_max - sq ecc_F) else #1 / #0 in
  let ecc_P := nsqrt (#1 - sq ecc_F) in
  (ecc_H, ecc_P).

(** avanzini.py:162-203 [_get_eccT_at_x] *)
Definition ava_eccT_at_x (g : ecc_geometry) (x : num) : num :=
  let '(ecc_H, ecc_P) := ava_eccT_limits g in
  if eg_dtheta g >? npi then
    let X := nexp ((#1 / ecc_H + #1 / ecc_P) * x) in
    ecc_P * ecc_H * (X - #1) / (ecc_P + ecc_H * X)
  else ecc_P * (#1 - nexp (- x / ecc_P)).

(** avanzini.py:211-218, one pass of [_secant]; state [(x0, f0, x1, f1)]. *)
Definition ava_secant_body (f : num -> res num) (atol rtol : num) (i : Z)
  (st : num * num * num * num) : flow (num * Z) (num * num * num * num) :=
  let '(x0, f0, x1, f1) := st in
  if f1 =? f0 then Break ((x1 + x0) * nlit 1 2, i)
  else
    let x_new := x1 - f1 * (x1 - x0) / (f1 - f0) in
    if nabs (x_new - x1) <=? atol + rtol * nabs x_new then Break (x_new, i)
    else
      match f x_new with
      | Err e => Raise e
      | Ok f_new => Next (x1, f1, x_new, f_new)
      end.

(** avanzini.py:206-219 [_secant] *)
Definition ava_secant (f : num -> res num) (x0 : num) (maxiter : Z) (atol rtol : num)
  : res (num * Z) :=
  let* f0 := f x0 in
  let x1 := if x0 >=? #0 then x0 + nlit 1 10000 else x0 - nlit 1 10000 in
  let* f1 := f x1 in
  match for_range (ava_secant_body f atol rtol) (Z.to_nat maxiter) 1 (x0, f0, x1, f1) with
  | Break r => Ok r
  | Raise e => Err e
  | Next _ => Err (RuntimeError "Failed to converge")
  end.

(** avanzini.py:135-140, velocities from the elements at both ends. *)
Definition ava_velocities (mu ecc_T : num) (r1 r2 : vec num) (is_prograde : bool)
  : res (vec num * vec num) :=
  let* (p, ecc, inc, raan, argp, nu_1, nu_2) := coe_at_eccT ecc_T r1 r2 is_prograde in
  let* (_, v1) := coe2rv mu p ecc inc raan argp nu_1 in
  let* (_, v2) := coe2rv mu p ecc inc raan argp nu_2 in
  Ok (v1, v2).

(** avanzini.py:48-142 [avanzini2008] *)
Definition avanzini2008 (ev : env) (a : args) : res out :=
  check raise_if (0 <? a_M a)%Z
    (ValueError "Avanzini is not able to work within the multi-revolution scenario!") in
  validated a (fun r1 r2 =>
    let* g := get_geometry r1 r2 (a_is_prograde a) in
    let eccT_at_x := ava_eccT_at_x g in
    let* (x_sol, numiter) :=
      ava_secant (fun x => ava_f x eccT_at_x (a_mu a) g (a_tof a)) #0
        (a_maxiter a) (a_atol a) (a_rtol a) in
    let* tpi := time_per_iteration (e_clock ev) (a_full_output a) numiter in
    let ecc_T := eccT_at_x x_sol in
    let* (v1, v2) := ava_velocities (a_mu a) ecc_T r1 r2 (a_is_prograde a) in
    Ok (mk_out (a_full_output a) v1 v2 numiter tpi)).

End Avanzini.
