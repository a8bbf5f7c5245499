(** * Model of /repo/src/lamberthub/universal_solvers/arora.py *)
From Coq Require Import ZArith Bool String.
From Verif Require Import Num MApi MScipy MLinalg MAssertions MAngles.

Section Arora.
Context {N : Num}.
Local Open Scope num_scope.

(** [np.sqrt(2)] *)
Definition aro_sq2 : num := nsqrt #2.
(** arora.py:474 [epsilon=2e-2] *)
Definition aro_eps : num := nlit 2 100.

(** arora.py:407-434 [_get_gammas] *)
Definition aro_gammas (F_i F_n F_star : num) : num * num * num :=
  (F_i * (F_star - F_n), F_star * (F_n - F_i), F_n * (F_star - F_i)).

(** arora.py:438-470 [_get_x].  The exponent [1 / alpha] is 1 or 2 in all calls;
    [pw] is the corresponding power. *)
Definition aro_x (F_0 F_1 F_i F_star Z : num) (pw : num -> num) : num :=
  pw ((Z * (F_0 - F_star) * (F_1 - F_i))
      / ((F_i - F_star) * (F_1 - F_0) * Z + (F_0 - F_i) * (F_1 - F_star))).

(** arora.py:519-538, the series of [_get_W] around the parabola. *)
Definition aro_W_series (k : num) : num :=
  let sq2 := aro_sq2 in
  let v := k - sq2 in
  (nsqrt #2 / #3)
  - (#1 / #5) * v
  + (#2 / #35) * sq2 * npown v 2
  - (#2 / #63) * npown v 3
  + (#2 / #231) * sq2 * npown v 4
  - (#2 / #429) * npown v 5
  + (#8 / #6435) * sq2 * npown v 6
  - (#8 / #12155) * npown v 7
  + (#8 / #46189) * sq2 * npown v 8.

(** arora.py:507-509, elliptic orbits. *)
Definition aro_W_elliptic (k : num) (M : Z) : num :=
  let m := #2 - sq k in
  let sgn_k := nsign k in
  ((#1 - sgn_k) * npi + sgn_k * nacos (#1 - m) + #2 * npi * nofZ M)
  / nsqrt (cube m) - k / m.

(** arora.py:513, hyperbolic orbits. *)
Definition aro_W_hyperbolic (k : num) : num :=
  let m := #2 - sq k in
  - nacosh (#1 - m) / nsqrt (- cube m) - k / m.

(** arora.py:474-542 [_get_W] *)
Definition aro_W (k : num) (M : Z) : res num :=
  let sq2 := aro_sq2 in
  if ((- sq2 <=? k) && (k <? sq2 - aro_eps))
     || ((0 <? M)%Z && ((- sq2 <=? k) && (k <? sq2)))
  then Ok (aro_W_elliptic k M)
  else if k >? sq2 + aro_eps then Ok (aro_W_hyperbolic k)
  else if (M =? 0)%Z && ((sq2 - aro_eps <=? k) && (k <=? sq2 + aro_eps))
  then Ok (aro_W_series k)
  else Err (ValueError "Did not found a suitable equaiton to find W!").

(** arora.py:546-586 [_get_Wsprime] *)
Definition aro_Wsprime (k : num) : num :=
  let sq2 := aro_sq2 in
  let v := k - sq2 in
  - #1 / #5
  + sq2 * v * (#4 / #35)
  - npown v 2 * (#6 / #63)
  + sq2 * npown v 3 * (#8 / #231)
  - npown v 4 * (#10 / #429)
  + sq2 * npown v 5 * (#48 / #6435)
  - npown v 6 * (#56 / #12155)
  + sq2 * npown v 7 * (#64 / #46189).

(** arora.py:590-628 [_get_Ws2prime] *)
Definition aro_Ws2prime (k : num) : num :=
  let sq2 := aro_sq2 in
  let v := k - sq2 in
  sq2 * (#4 / #35)
  - v * (#12 / #63)
  + sq2 * npown v 2 * (#24 / #231)
  - npown v 3 * (#40 / #429)
  + sq2 * npown v 4 * (#240 / #6435)
  - npown v 5 * (#336 / #12155)
  + sq2 * npown v 6 * (#448 / #46189).

(** arora.py:632-678 [_get_Wprime] *)
Definition aro_Wprime (k W : num) (M : Z) : num :=
  let m := #2 - sq k in
  let sq2 := aro_sq2 in
  if (k <? sq2 - aro_eps) || ((0 <? M)%Z && (k <? sq2))
  then (- #2 + #3 * W * k) / m
  else if (M =? 0)%Z && ((sq2 - aro_eps <? k) && (k <? sq2 + aro_eps))
  then aro_Wsprime k
  else (- #2 + #3 * W * k) / m.

(** arora.py:682-730 [_get_W2prime] *)
Definition aro_W2prime (k W W_prime : num) (M : Z) : num :=
  let m := #2 - sq k in
  let sq2 := aro_sq2 in
  if (k <? sq2 - aro_eps) || ((0 <? M)%Z && (k <? sq2))
  then (#5 * W_prime * k + #3 * W) / m
  else if (M =? 0)%Z && ((sq2 - aro_eps <? k) && (k <? sq2 + aro_eps))
  then aro_Ws2prime k
  else (#5 * W_prime * k + #3 * W) / m.

(** arora.py:734-759 [_get_TOF] *)
Definition aro_TOF (k tau S W : num) : num :=
  S * nsqrt (#1 - k * tau) * (tau + (#1 - k * tau) * W).

(** arora.py:329-403 [_get_multirev_k_guess]; [minimize_scalar] and [brentq] are
    taken from the environment. *)
Definition aro_multirev_k_guess (ev : env) (tof tau S : num) (M : Z)
  (is_low_path : bool) (atol rtol : num) : res num :=
  let sq2 := nsqrt #2 in
  let eps := nlit 1 100000000 in
  let k_left := - sq2 + eps in
  let k_right := sq2 - eps in
  let tof_at k := let* W := aro_W k M in Ok (aro_TOF k tau S W) in
  let* (success, k_min, tof_min) :=
    e_minimize ev tof_at k_left k_right (pymax atol (nlit 1 10000000000000)) in
  if negb success then Err (RuntimeError "Failed to find multi-revolution minimum")
  else if tof <? tof_min - atol then Err (ValueError "No feasible solution, try lower M!")
  else if nabs (tof - tof_min) <=? atol then Ok k_min
  else
    let '(lower, upper) := if is_low_path then (k_min, k_right) else (k_left, k_min) in
    let* (root, _) :=
      e_brentq ev (fun k => let* t := tof_at k in Ok (t - tof)) lower upper atol rtol 100 in
    Ok root.

(** arora.py:130-179, initial guess for an expected hyperbola.  [dpos] is
    [d == 1].  If neither comparison with [tof20] holds (NaN) [k] stays unset. *)
Definition aro_guess_hyperbolic (dpos : bool) (tof tof_p tau S : num) (M : Z) : res num :=
  if dpos then
    let k_n := nsqrt #2 in
    let k_m := #1 / tau in
    let k_i := (k_n + k_m) / #2 in
    let* W := aro_W k_i M in
    let F_i := aro_TOF k_i tau S W in
    let x_star := aro_x tof_p #0 F_i tof (#1 / nsqrt #2) sq in
    Ok (k_n + (k_m - k_n) * x_star)
  else
    let tof20 :=
      S * nsqrt (#1 - #20 * tau) * (tau + nlit 4940968903 100000000000 * (#1 - #20 * tau)) in
    let tof100 :=
      S * nsqrt (#1 - #100 * tau) * (tau + nlit 999209404 100000000000 * (#1 - #100 * tau)) in
    if tof >? tof20 then
      let k_n := nsqrt #2 in
      let k_m := #20 in
      let k_i := (#2 * k_n + k_m) / #3 in
      let* W := aro_W k_i M in
      let F_i := aro_TOF k_i tau S W in
      let x_star := aro_x tof_p tof20 F_i tof (#1 / #3) (fun x => x) in
      Ok (k_n + (k_m - k_n) * x_star)
    else if tof <=? tof20 then
      Ok (sq ((tof100 * (tof20 - tof) * #10 - tof20 * nsqrt #20 * (tof100 - tof))
              / (tof * (tof20 - tof100))))
    else Err (UnboundLocalError "k").

(** arora.py:235-238 and 252-255, the rational initial guess. *)
Definition aro_rational (c1 c2 c3 c4 : num) (alpha : Z) (F_n F_i F_star : num) : num :=
  let '(gamma1, gamma2, gamma3) := aro_gammas F_i F_n F_star in
  - c4 * npow (((gamma1 * c1 - c3 * gamma3) * c2 + c3 * c1 * gamma2)
               / (gamma3 * c1 - c3 * gamma1 - gamma2 * c2))
              (#1 / nofZ alpha).

(** arora.py:187-255, initial guess for an expected ellipse without revolutions. *)
Definition aro_guess_elliptic (tof tof_p tau S : num) : num :=
  let tof_m141 := aro_TOF (- nlit 141 100) tau S (nlit 4839684497246 1000000000) in
  let tof_m138 := aro_TOF (- nlit 138 100) tau S (nlit 212087279879 1000000000) in
  let tof_m1 := aro_TOF (- #1) tau S (nlit 5712388981 1000000000) in
  let tof_m1half := aro_TOF (- #1 / #2) tau S (nlit 1954946607 1000000000) in
  let tof_0 := aro_TOF #0 tau S (nlit 1110720735 1000000000) in
  let tof_1oversq2 := aro_TOF (#1 / nsqrt #2) tau S (nlit 6686397730 10000000000) in
  if tof <=? tof_0 then
    let x_star := aro_x tof_0 tof_p tof_1oversq2 tof (#1 / #2) (fun x => x) in
    #0 + (nsqrt #2 - #0) * x_star
  else if (tof_0 <=? tof) && (tof <=? tof_m1) then
    let x_star := aro_x tof_0 tof_m1 tof_m1half tof (#1 / #2) (fun x => x) in
    #0 + (- #1 - #0) * x_star
  else if (tof_m1 <=? tof) && (tof <=? tof_m138) then
    aro_rational (#540649 / #3125) #256 #1 #1 16 (#1 / tof_m1) (#1 / tof_m138) (#1 / tof)
  else
    aro_rational (#49267 / #27059) (#67286 / #17897) (#2813 / #287443) (#4439 / #3156)
      243 (#1 / tof_m138) (#1 / tof_m141) (#1 / tof).

(** arora.py:297-308, bounds on the new iterate. *)
Definition aro_bound (dpos : bool) (tof tof_p tau k : num) : num :=
  let k := if k <? - nsqrt #2 then - nsqrt #2 + nlit 1 1000000000000 else k in
  let k := if (k <? nsqrt #2) && (tof <? tof_p)
           then nsqrt #2 + nlit 1 1000000000000 else k in
  let k := if (k >? nsqrt #2) && (tof >? tof_p)
           then nsqrt #2 - nlit 1 1000000000000 else k in
  if (tof <? tof_p) && dpos && (#1 - tau * k <? #0)
  then #1 / tau - nlit 1 1000000000000 else k.

(** arora.py:269-308, one pass of Halley's iteration; state [k], result
    [(numiter, k)]. *)
Definition aro_body (dpos : bool) (tof tof_p tau S : num) (M : Z) (atol : num)
  (numiter : Z) (k : num) : flow (Z * num) num :=
  match aro_W k M with
  | Err e => Raise e
  | Ok W =>
      let Wp := aro_Wprime k W M in
      let Wpp := aro_W2prime k W Wp M in
      let c := (#1 - k * tau) / tau in
      let tofc := aro_TOF k tau S W in
      if nabs (tof - tofc) <=? atol then Break (numiter, k)
      else
        let tofc_p :=
          (- tofc / (#2 * c)) + S * tau * nsqrt (c * tau) * (Wp * c - W) in
        let tofc_pp :=
          (- tofc / (#4 * sq c))
          + S * tau * nsqrt (c * tau) * (W / c + c * Wpp - #3 * Wp) in
        let deltak :=
          - (tofc - tof) / (tofc_p - (tofc - tof) * tofc_pp / (#2 * tofc_p)) in
        Next (aro_bound dpos tof tof_p tau (k + deltak))
  end.

(** arora.py:317-324, velocities. *)
Definition aro_velocities (mu_hat L_ref T_ref : num) (r1_hat r2_hat : vec num)
  (r1hat_norm r2hat_norm tau S k : num) : vec num * vec num :=
  let f := #1 - (#1 - k * tau) * (r1hat_norm + r2hat_norm) / r1hat_norm in
  let g := S * tau * nsqrt ((#1 - k * tau) * mu_hat) in
  let g_dot := #1 - (#1 - k * tau) * (r1hat_norm + r2hat_norm) / r2hat_norm in
  let scale (v : vec num) := vmap (fun a => a * (L_ref / T_ref)) v in
  (scale (vdivs (vsub r2_hat (vscale f r1_hat)) g),
   scale (vdivs (vsub (vscale g_dot r2_hat) r1_hat) g)).

(** arora.py:17-326 [arora2013] *)
Definition arora2013 (ev : env) (a : args) : res out :=
  validated a (fun r1 r2 =>
    let mu := a_mu a in
    let M := a_M a in
    let r1_norm := norm r1 in
    let dtheta := get_transfer_angle r1 r2 (a_is_prograde a) in
    check assert_transfer_angle_not_zero dtheta in
    let dpos := dtheta <=? npi in
    let d := if dpos then #1 else - #1 in
    let L_ref := r1_norm in
    let T_ref := nsqrt (cube L_ref / mu) in
    let r1_hat := vdivs r1 L_ref in
    let r2_hat := vdivs r2 L_ref in
    let r1hat_norm := norm r1_hat in
    let r2hat_norm := norm r2_hat in
    let tof := a_tof a / T_ref in
    let mu_hat := mu * (sq T_ref / cube L_ref) in
    let S := nsqrt (cube (r1hat_norm + r2hat_norm) / mu_hat) in
    let tau :=
      d * nsqrt (r1hat_norm * r2hat_norm * (#1 + ncos dtheta)) / (r1hat_norm + r2hat_norm) in
    let tof_p := S * nsqrt (#1 - nsqrt #2 * tau) * (tau + nsqrt #2) / #3 in
    let* k0 :=
      (if tof <=? tof_p then aro_guess_hyperbolic dpos tof tof_p tau S M
       else if (M =? 0)%Z then Ok (aro_guess_elliptic tof tof_p tau S)
       else aro_multirev_k_guess ev tof tau S M (a_is_low_path a) (a_atol a) (a_rtol a)) in
    match for_range (aro_body dpos tof tof_p tau S M (a_atol a))
            (Z.to_nat (a_maxiter a)) 1 k0 with
    | Raise e => Err e
    | Next _ => Err (RuntimeError "Failed to converge")
    | Break (numiter, k) =>
        let* tpi := time_per_iteration (e_clock ev) (a_full_output a) numiter in
        let '(v1, v2) :=
          aro_velocities mu_hat L_ref T_ref r1_hat r2_hat r1hat_norm r2hat_norm tau S k in
        Ok (mk_out (a_full_output a) v1 v2 numiter tpi)
    end).

End Arora.
