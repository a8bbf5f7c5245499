(** * Model of /repo/src/lamberthub/universal_solvers/gooding.py *)
From Coq Require Import ZArith Bool String.
From Verif Require Import Num MApi MScipy MLinalg MAssertions MAngles.

Section Gooding.
Context {N : Num}.
Local Open Scope num_scope.

(** gooding.py:141-143 [_d8rt] *)
Definition d8rt (x : num) : num := nsqrt (nsqrt (nsqrt x)).

(** gooding.py:231-247, [term] and [t] after [n] passes of the logarithm series. *)
Fixpoint goo_log_term (fg1 : num) (n : nat) : num :=
  match n with
  | O => #2 * fg1
  | S k => goo_log_term fg1 k * (fg1 * fg1)
  end.
Fixpoint goo_log_partial (fg1 : num) (n : nat) : num :=
  match n with
  | O => #2 * fg1
  | S k => goo_log_partial fg1 k + goo_log_term fg1 (S k) / nofZ (2 * Z.of_nat k + 3)
  end.

(** State of the series loop of [tlamb], gooding.py:263-344. *)
Record tl_state : Type := TLS {
  tl_u0i : num; tl_u1i : num; tl_u2i : num; tl_u3i : num;
  tl_term : num; tl_tq : num; tl_tqsum : num; tl_ttmold : num;
  tl_t : num; tl_dt : num; tl_d2t : num; tl_d3t : num
}.

(** gooding.py:288-314 = 318-344, pass number [i] of the series loop. *)
Definition tl_step (u qsq : num) (i : Z) (s : tl_state) : tl_state :=
  let p := nofZ i in
  let u0i := tl_u0i s * u in
  let u1i := if (1 <? i)%Z then tl_u1i s * u else tl_u1i s in
  let u2i := if (2 <? i)%Z then tl_u2i s * u else tl_u2i s in
  let u3i := if (3 <? i)%Z then tl_u3i s * u else tl_u3i s in
  let term := tl_term s * (p - nlit 1 2) / p in
  let tq := tl_tq s * qsq in
  let tqsum := tl_tqsum s + tq in
  let tterm := term / (#2 * p + #3) in
  let tqterm := tterm * tqsum in
  let t := tl_t s
           - u0i * ((nlit 3 2 * p + nlit 1 4) * tqterm / (p * p - nlit 1 4)
                    - tl_ttmold s * tq) in
  let ttmold := tterm in
  let tqterm := tqterm * p in
  TLS u0i u1i u2i u3i term tq tqsum ttmold t
      (tl_dt s + tqterm * u1i)
      (tl_d2t s + tqterm * u2i * (p - #1))
      (tl_d3t s + tqterm * u3i * (p - #1) * (p - #2)).

Fixpoint tl_iter (u qsq : num) (s0 : tl_state) (n : nat) : tl_state :=
  match n with
  | O => s0
  | S k => tl_step u qsq (Z.of_nat n) (tl_iter u qsq s0 k)
  end.

(** gooding.py:263-283, state before the first pass. *)
Definition tl_init (q qsqfm1 : num) : tl_state :=
  let qsq := q * q in
  let tqsum :=
    if q <? nlit 1 2 then #1 - q * qsq
    else (#1 / (#1 + q) + q) * qsqfm1 in
  let ttmold := #4 / #3 in
  TLS #1 #1 #1 #1 #4 (q * qsqfm1) tqsum ttmold (ttmold * tqsum) #0 #0 #0.

(** gooding.py:261-353, computation by series.  The loop stops when [t] no longer
    changes; simplification: [dt], [d2t], [d3t] are each summed until they no
    longer change themselves. *)
Definition tl_series (q qsqfm1 x : num) (n : Z) : num * num * num * num :=
  let qsq := q * q in
  let xsq := x * x in
  let u := (#1 - x) * (#1 + x) in
  let st := tl_iter u qsq (tl_init q qsqfm1) in
  let t := nuntil_stable (fun k => tl_t (st k)) in
  let dt := if (1 <=? n)%Z then nuntil_stable (fun k => tl_dt (st k)) else #0 in
  let d2t := if (2 <=? n)%Z then nuntil_stable (fun k => tl_d2t (st k)) else #0 in
  let d3t := if (n =? 3)%Z then nuntil_stable (fun k => tl_d3t (st k)) else #0 in
  let d3t := if (n =? 3)%Z then #8 * x * (nlit 3 2 * d2t - xsq * d3t) else d3t in
  let d2t := if (2 <=? n)%Z then #2 * (#2 * xsq * d2t - dt) else d2t in
  let dt := if (1 <=? n)%Z then - #2 * x * dt else dt in
  (t / xsq, dt, d2t, d3t).

(** gooding.py:194-215, [tlamb] with [n == -1]: [(0, b, bb, aa)]. *)
Definition tl_velocity (q qsqfm1 x : num) : num * num * num * num :=
  let qsq := q * q in
  let xsq := x * x in
  let u := (#1 - x) * (#1 + x) in
  let z := nsqrt (qsqfm1 + qsq * xsq) in
  let qx := q * x in
  if qx <=? #0 then
    let a := z - qx in
    let b := q * z - x in
    let aa := if qx =? #0 then z + qx else qsqfm1 / a in
    let bb := if qx =? #0 then q * z + x else qsqfm1 * (qsq * u - xsq) / b in
    (#0, b, bb, aa)
  else
    let aa := z + qx in
    let bb := q * z + x in
    let b := qsqfm1 * (qsq * u - xsq) / bb in
    (#0, b, bb, aa).

(** gooding.py:194-259, direct computation for [n >= 0]. *)
Definition tl_direct (m : Z) (q qsqfm1 x : num) (n : Z) : num * num * num * num :=
  let sw := nlit 4 10 in
  let qsq := q * q in
  let xsq := x * x in
  let u := (#1 - x) * (#1 + x) in
  let y := nsqrt (nabs u) in
  let z := nsqrt (qsqfm1 + qsq * xsq) in
  let qx := q * x in
  let '(a, b) :=
    if qx <=? #0 then (z - qx, q * z - x)
    else (qsqfm1 / (z + qx), qsqfm1 * (qsq * u - xsq) / (q * z + x)) in
  let g := if qx * u >=? #0 then x * z + q * u else (xsq - qsq * u) / (x * z - q * u) in
  let f := a * y in
  let t :=
    if x <=? #1 then nofZ m * npi + natan2 f g
    else if f >? sw then nln (f + g)
    else nuntil_stable (goo_log_partial (f / (g + #1))) in
  let t := #2 * (t / y + b) / u in
  if (1 <=? n)%Z && nneqb z #0 then
    let qz := q / z in
    let qz2 := qz * qz in
    let qz := qz * qz2 in
    let dt := (#3 * x * t - #4 * (a + qx * qsqfm1) / z) / u in
    let d2t := if (2 <=? n)%Z then (#3 * t + #5 * x * dt + #4 * qz * qsqfm1) / u else #0 in
    let d3t := if (n =? 3)%Z
               then (#8 * dt + #7 * x * d2t - #12 * qz * qz2 * x * qsqfm1) / u else #0 in
    (t, dt, d2t, d3t)
  else (t, #0, #0, #0).

(** gooding.py:147-355 [tlamb].  For a NaN [q * x] (where the source leaves
    variables unset) the last alternative is taken; the values are NaN anyway. *)
Definition tlamb (m : Z) (q qsqfm1 x : num) (n : Z) : num * num * num * num :=
  let u := (#1 - x) * (#1 + x) in
  if (n =? -1)%Z then tl_velocity q qsqfm1 x
  else if (0 <? m)%Z || (x <? #0) || (nabs u >? nlit 4 10)
  then tl_direct m q qsqfm1 x n
  else tl_series q qsqfm1 x n.

(** gooding.py:557-567, one pass of Halley's iteration; state [(x, xold)]. *)
Definition goo_iter_body (m : Z) (q qsqfm1 tin atol rtol : num) (numiter : Z)
  (st : num * num) : flow (num * Z) (num * num) :=
  let '(x, xold) := st in
  let '(t, dt, d2t, _) := tlamb m q qsqfm1 x 2 in
  let t := tin - t in
  let '(x, xold) :=
    if nneqb dt #0 then (x + t * dt / (dt * dt + t * d2t / #2), x) else (x, xold) in
  let x_atol := nabs (x - xold) in
  let x_rtol := nabs (x / xold - #1) in
  if (x_atol <=? atol) && (x_rtol <=? rtol) then Break (x, numiter)
  else Next (x, xold).

(** gooding.py:551-569 [_xlamb_iter]; an exhausted iteration budget is not
    reported. *)
Definition xlamb_iter (m : Z) (q qsqfm1 x tin : num) (maxiter : Z) (atol rtol : num)
  : num * Z :=
  match for_range (goo_iter_body m q qsqfm1 tin atol rtol) (Z.to_nat maxiter) 1 (x, x) with
  | Break r => r
  | Next (x, _) => (x, maxiter)
  | Raise _ => (x, maxiter)               (* the body never raises *)
  end.

(** gooding.py:415-422 and 525-538, starter for [tdiff > 0]; [cm] is the factor
    of the last correction. *)
Definition goo_starter (t0 tdiff thr2 cm : num) : num :=
  let x := - tdiff / (tdiff + #4) in
  let w := x + nlit 17 10 * nsqrt (#2 * (#1 - thr2)) in
  let x := if w <? #0
           then x - nsqrt (d8rt (- w)) * (x + nsqrt (tdiff / (tdiff + nlit 3 2 * t0)))
           else x in
  let w := #4 / (#4 + tdiff) in
  x * (#1 + cm * x * (nlit 1 2 * w - nlit 3 100 * x * nsqrt w)).

(** gooding.py:437-450, one pass of the search for the minimum; state
    [(numiter, xm, tmin, d2t)] with [numiter] the passes made so far. *)
Definition goo_min_body (m : Z) (q qsqfm1 atol rtol : num) (numiter : Z)
  (st : Z * num * num * num) : flow (Z * num * num * num) (Z * num * num * num) :=
  let '(_, xm, _, _) := st in
  let '(tmin, dt, d2t, d3t) := tlamb m q qsqfm1 xm 3 in
  if d2t =? #0 then Break (numiter, xm, tmin, d2t)
  else
    let xmold := xm in
    let xm := xm - dt * d2t / (d2t * d2t - dt * d3t / #2) in
    if nabs (xmold - xm) <? rtol * nabs xmold + atol
    then Break (numiter, xm, tmin, d2t)
    else Next (numiter, xm, tmin, d2t).

(** gooding.py:516-545, second multi-revolution starter, returns [(n, x)]. *)
Definition goo_second_starter (m n : Z) (q qsqfm1 thr2 tin tmin tdiffm xm d2t2 xpl : num)
  : Z * num :=
  let '(t0, _, _, _) := tlamb m q qsqfm1 #0 0 in
  let tdiff0 := t0 - tmin in
  let tdiff := tin - t0 in
  if tdiff <=? #0 then
    (n, xm - nsqrt (tdiffm / (d2t2 - tdiffm * (d2t2 / tdiff0 - #1 / sq xm))))
  else
    let x := goo_starter t0 tdiff thr2
               ((#1 + nofZ m + nlit 24 100 * (thr2 - nlit 1 2)) / (#1 + nlit 15 100 * nofZ m)) in
    if x <=? - #1 then
      let n := (n - 1)%Z in
      (n, if (n =? 1)%Z then xpl else x)
    else (n, x).

(** gooding.py:498-508, iterate from [x] and return [(n, x, xpl, numiter, tpi)]. *)
Definition goo_finish (clock : nat -> num) (m n : Z) (q qsqfm1 x xpl tin : num)
  (maxiter : Z) (atol rtol : num) (full : bool) : res (Z * num * num * Z * num) :=
  let '(x, numiter) := xlamb_iter m q qsqfm1 x tin maxiter atol rtol in
  let* tpi := time_per_iteration clock full numiter in
  Ok (n, x, xpl, numiter, tpi).

(** gooding.py:358-547 [xlamb].  The [while True] loop makes at most two passes
    because [n != 3] from the second one on; it is written out.  At line 467 four
    values are returned where the caller (line 657) unpacks five: ValueError. *)
Definition xlamb (clock : nat -> num) (m : Z) (q qsqfm1 tin : num) (maxiter : Z)
  (atol rtol : num) (full : bool) : res (Z * num * num * Z * num) :=
  let thr2 := natan2 qsqfm1 (#2 * q) / npi in
  if (m =? 0)%Z then
    let '(t0, _, _, _) := tlamb m q qsqfm1 #0 0 in
    let tdiff := tin - t0 in
    let x := if tdiff <=? #0 then t0 * tdiff / (- #4 * tin)
             else goo_starter t0 tdiff thr2 #1 in
    goo_finish clock m 1 q qsqfm1 x #0 tin maxiter atol rtol full
  else
    let xm := #1 / (nlit 3 2 * (nofZ m + nlit 1 2) * npi) in
    let xm := if thr2 <? nlit 1 2 then d8rt (#2 * thr2) * xm else xm in
    let xm := if thr2 >? nlit 1 2 then (#2 - d8rt (#2 - #2 * thr2)) * xm else xm in
    if (maxiter <=? 0)%Z then Err (UnboundLocalError "numiter")
    else
      let r := for_range (goo_min_body m q qsqfm1 atol rtol) (Z.to_nat maxiter) 1
                 (0%Z, xm, #0, #0) in
      match r with
      | Raise e => Err e
      | Break (numiter, xm, tmin, d2t) | Next (numiter, xm, tmin, d2t) =>
          if (numiter + 1 =? maxiter)%Z then Err (ValueError "Exceeded max iterations!")
          else
            let tdiffm := tin - tmin in
            if tdiffm <? #0 then Err (ValueError "No feasible solution, try lower M!")
            else if tdiffm =? #0
            then Err (ValueError "not enough values to unpack (expected 5, got 4)")
            else
              let d2t := if d2t =? #0 then #6 * nofZ m * npi else d2t in
              let x := nsqrt (tdiffm / (d2t / #2 + tdiffm / sq (#1 - xm))) in
              let w := xm + x in
              let w := w * #4 / (#4 + tdiffm) + sq (#1 - w) in
              let x :=
                x * (#1 - (#1 + nofZ m + #1 * (thr2 - nlit 1 2)) / (#1 + nlit 15 100 * nofZ m)
                          * x * (nlit 1 2 * w + nlit 3 100 * x * nsqrt w)) + xm in
              let d2t2 := d2t / #2 in
              if x >=? #1 then
                let '(n, x) :=
                  goo_second_starter m 1 q qsqfm1 thr2 tin tmin tdiffm xm d2t2 #0 in
                goo_finish clock m n q qsqfm1 x #0 tin maxiter atol rtol full
              else
                let '(xpl, _) := xlamb_iter m q qsqfm1 x tin maxiter atol rtol in
                let '(n, x) :=
                  goo_second_starter m 2 q qsqfm1 thr2 tin tmin tdiffm xm d2t2 xpl in
                goo_finish clock m n q qsqfm1 x xpl tin maxiter atol rtol full
      end.

(** gooding.py:628-634, removal of whole revolutions from the transfer angle. *)
Definition goo_reduce (fuel : nat) (dtheta : num) : flow (num * Z) (num * Z) :=
  while_true
    (fun st : num * Z =>
       let '(thr2, m) := st in
       if thr2 >? #2 * npi then Next (thr2 - #2 * npi, (m + 1)%Z) else Break (thr2, m))
    fuel (dtheta, 0%Z).

(** gooding.py:636-652, geometry: [(mus, s, qsqfm1, q, rho, sig)]. *)
Definition goo_geometry (mu r1_norm r2_norm thr2 : num) : num * num * num * num * num * num :=
  let dr := r1_norm - r2_norm in
  let r1r2 := r1_norm * r2_norm in
  let r1r2th := #4 * r1r2 * sq (nsin thr2) in
  let csq := dr * dr + r1r2th in
  let c := nsqrt csq in
  let s := (r1_norm + r2_norm + c) / #2 in
  let mus := nsqrt (mu * s / #2) in
  let qsqfm1 := c / s in
  let q := nsqrt r1r2 * ncos thr2 / s in
  let '(rho, sig) := if nneqb c #0 then (dr / c, r1r2th / csq) else (#0, #1) in
  (mus, s, qsqfm1, q, rho, sig).

(** gooding.py:670-676, velocity components [(vr1, vt1, vr2, vt2)]. *)
Definition goo_components (m : Z) (r1_norm r2_norm mus qsqfm1 q rho sig x_sol : num)
  : num * num * num * num :=
  let '(_, qzminx, qzplx, zplqx) := tlamb m q qsqfm1 x_sol (-1) in
  let vt2 := mus * zplqx * nsqrt sig in
  let vr1 := mus * (qzminx - qzplx * rho) / r1_norm in
  let vt1 := vt2 / r1_norm in
  let vr2 := - mus * (qzminx + qzplx * rho) / r2_norm in
  let vt2 := vt2 / r2_norm in
  (vr1, vt1, vr2, vt2).

(** gooding.py:572-678 [vlamb] *)
Definition vlamb (ev : env) (mu r1_norm r2_norm dtheta tof : num) (is_low_path : bool)
  (maxiter : Z) (atol rtol : num) (full : bool)
  : res (num * num * num * num * Z * num) :=
  match goo_reduce (e_fuel ev) dtheta with
  | Raise e => Err e
  | Next _ => Err OutOfFuel              (* not reachable *)
  | Break (thr2, m) =>
      let thr2 := thr2 / #2 in
      let '(mus, s, qsqfm1, q, rho, sig) := goo_geometry mu r1_norm r2_norm thr2 in
      let t := #4 * mus * tof / sq s in
      let* (n_sol, x1_sol, x2_sol, numiter, tpi) :=
        xlamb (e_clock ev) m q qsqfm1 t maxiter atol rtol full in
      let x_sol :=
        if (1 <? n_sol)%Z then
          (if is_low_path then np_max x1_sol x2_sol else np_min x1_sol x2_sol)
        else x1_sol in
      let '(vr1, vt1, vr2, vt2) :=
        goo_components m r1_norm r2_norm mus qsqfm1 q rho sig x_sol in
      Ok (vr1, vt1, vr2, vt2, numiter, tpi)
  end.

(** gooding.py:16-137 [gooding1990] *)
Definition gooding1990 (ev : env) (a : args) : res out :=
  validated a (fun r1 r2 =>
    let r1_norm := norm r1 in
    let r2_norm := norm r2 in
    let i_r1 := vdivs r1 r1_norm in
    let i_r2 := vdivs r2 r2_norm in
    let theta := get_transfer_angle r1 r2 (a_is_prograde a) in
    check assert_transfer_angle_not_zero theta in
    let dtheta := #2 * npi * nofZ (a_M a) + theta in
    let i_h := get_orbit_normal_vector r1 r2 (a_is_prograde a) in
    let i_t1 := cross i_h i_r1 in
    let i_t2 := cross i_h i_r2 in
    let* (vr1, vt1, vr2, vt2, numiter, tpi) :=
      vlamb ev (a_mu a) r1_norm r2_norm dtheta (a_tof a) (a_is_low_path a) (a_maxiter a)
        (a_atol a) (a_rtol a) (a_full_output a) in
    let v1 := vadd (vscale vr1 i_r1) (vscale vt1 i_t1) in
    let v2 := vadd (vscale vr2 i_r2) (vscale vt2 i_t2) in
    Ok (mk_out (a_full_output a) v1 v2 numiter tpi)).

End Gooding.
