(** * Model of /repo/src/lamberthub/utils/elements.py *)
From Coq Require Import ZArith Bool String.
From Verif Require Import Num MLinalg MAngles.

Section Elements.
Context {N : Num}.
Local Open Scope num_scope.

(** 3x3 matrices by rows. *)
Definition mat : Type := vec (vec num).

(** [m @ v] for a column vector. *)
Definition mvmul (m : mat) (v : vec num) : vec num := vmap (fun row => dot row v) m.
Definition mcol (f : forall T, vec T -> T) (m : mat) : vec num :=
  vmap (fun row => f _ row) m.
Definition mtrans (m : mat) : mat :=
  V3 (mcol (@vx) m) (mcol (@vy) m) (mcol (@vz) m).
(** [a @ b] *)
Definition mmul (a b : mat) : mat :=
  vmap (fun row => V3 (dot row (mcol (@vx) b)) (dot row (mcol (@vy) b))
                      (dot row (mcol (@vz) b))) a.

(** elements.py:27-71 [rv_pqw] *)
Definition rv_pqw (k p ecc nu : num) : vec num * vec num :=
  let a := p / (#1 + ecc * ncos nu) in
  let b := nsqrt (k / p) in
  (V3 (ncos nu * a) (nsin nu * a) (#0 * a),
   V3 (- nsin nu * b) ((ecc + ncos nu) * b) (#0 * b)).

(** elements.py:280-300 [rotation_matrix]; line 296 has [s] where a rotation
    about the second axis has [-s]. *)
Definition rotation_matrix (angle : num) (axis : Z) : res mat :=
  let c := ncos angle in
  let s := nsin angle in
  if (axis =? 0)%Z then
    Ok (V3 (V3 #1 #0 #0) (V3 #0 c (- s)) (V3 #0 s c))
  else if (axis =? 1)%Z then
    Ok (V3 (V3 c #0 s) (V3 #0 #1 #0) (V3 s #0 c))
  else if (axis =? 2)%Z then
    Ok (V3 (V3 c (- s) #0) (V3 s c #0) (V3 #0 #0 #1))
  else Err (ValueError "Invalid axis: must be one of 'x', 'y' or 'z'").

(** elements.py:75-80 [coe_rotation_matrix] *)
Definition coe_rotation_matrix (inc raan argp : num) : res mat :=
  let* r := rotation_matrix raan 2 in
  let* m := rotation_matrix inc 0 in
  let r := mmul r m in
  let* m := rotation_matrix argp 2 in
  Ok (mmul r m).

(** elements.py:84-144 [coe2rv]; [pqw @ rm.T] applies the matrix to each row. *)
Definition coe2rv (k p ecc inc raan argp nu : num) : res (vec num * vec num) :=
  let '(r, v) := rv_pqw k p ecc nu in
  let* rm := coe_rotation_matrix inc raan argp in
  Ok (mvmul rm r, mvmul rm v).

(** Classical orbital elements in the order of the returned tuple. *)
Record coe : Type := Coe {
  e_p : num; e_ecc : num; e_inc : num; e_raan : num; e_argp : num; e_nu : num }.

(** elements.py:148-276 [rv2coe] *)
Definition rv2coe (k : num) (r v : vec num) (tol : num) : coe :=
  let h := cross r v in
  let n := cross (V3 #0 #0 #1) h in
  let r_norm := nsqrt (dot r r) in
  let v_norm := nsqrt (dot v v) in
  let h_norm := nsqrt (dot h h) in
  let e := vdivs (vsub (vscale (dot v v - k / r_norm) r) (vscale (dot r v) v)) k in
  let ecc := nsqrt (dot e e) in
  let p := dot h h / k in
  let inc := nacos (vz h / h_norm) in
  let circular := ecc <? tol in
  let equatorial := nabs inc <? tol in
  let '(raan, argp, nu) :=
    if equatorial && negb circular then
      (#0,
       nmod (natan2 (vy e) (vx e)) (#2 * npi),
       natan2 (dot h (cross e r) / h_norm) (dot r e))
    else if negb equatorial && circular then
      (nmod (natan2 (vy n) (vx n)) (#2 * npi),
       #0,
       natan2 (dot r (cross h n) / h_norm) (dot r n))
    else if equatorial && circular then
      (#0, #0, nmod (natan2 (vy r) (vx r)) (#2 * npi))
    else
      let a := p / (#1 - sq ecc) in
      let ka := k * a in
      let nu :=
        if a >? #0 then
          let e_se := dot r v / nsqrt ka in
          let e_ce := r_norm * dot v v / k - #1 in
          E_to_nu (natan2 e_se e_ce) ecc
        else
          let e_sh := dot r v / nsqrt (- ka) in
          let e_ch := r_norm * sq v_norm / k - #1 in
          H_to_nu (nln ((e_ch + e_sh) / (e_ch - e_sh)) / #2) ecc in
      let raan := nmod (natan2 (vy n) (vx n)) (#2 * npi) in
      let px := dot r n in
      let py := dot r (cross h n) / h_norm in
      let argp := nmod (natan2 py px - nu) (#2 * npi) in
      (raan, argp, nu) in
  let nu := nmod (nu + npi) (#2 * npi) - npi in
  Coe p ecc inc raan argp nu.

End Elements.
