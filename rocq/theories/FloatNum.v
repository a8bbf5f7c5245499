(** * Binary64 instance of [Num], to run the model.

    The four operations, square root, comparison and conversion of literals are
    the correctly rounded IEEE 754 operations of the standard library's
    [SpecFloat].  The elementary functions are series evaluated in that
    arithmetic and accurate to a few units in the last place; numpy's own
    functions may differ in the last digits.  Nothing is proved about this
    instance: it is used to run the model on the repository's test data. *)
From Coq Require Import ZArith Bool List.
From Coq Require Import Floats.SpecFloat.
Import ListNotations.
From Verif Require Import Num.

Definition prec64 : Z := 53.
Definition emax64 : Z := 1024.
Notation f64 := spec_float.

Definition fadd (x y : f64) : f64 := SFadd prec64 emax64 x y.
Definition fsub (x y : f64) : f64 := SFsub prec64 emax64 x y.
Definition fmul (x y : f64) : f64 := SFmul prec64 emax64 x y.
Definition fdiv (x y : f64) : f64 := SFdiv prec64 emax64 x y.
Definition fsqrt (x : f64) : f64 := SFsqrt prec64 emax64 x.
Definition fopp (x : f64) : f64 := SFopp x.
Definition fabs (x : f64) : f64 := SFabs x.
Definition fofZ (z : Z) : f64 := binary_normalize prec64 emax64 z 0 false.
Definition flit (n : Z) (d : positive) : f64 := fdiv (fofZ n) (fofZ (Zpos d)).
Definition fldexp (x : f64) (e : Z) : f64 := SFldexp prec64 emax64 x e.
Definition fisfinite (x : f64) : bool :=
  match x with S754_zero _ => true | S754_finite _ _ _ => true | _ => false end.
Definition fnan : f64 := S754_nan.

(** Nearest integer and floor of a finite number. *)
Definition fZfloor (x : f64) : Z :=
  match x with
  | S754_finite s m e =>
      let z := if s then Zneg m else Zpos m in
      if (0 <=? e)%Z then (z * 2 ^ e)%Z else (z / 2 ^ (- e))%Z
  | _ => 0%Z
  end.
Definition fZround (x : f64) : Z := fZfloor (fadd x (flit 1 2)).
Definition ffloor (x : f64) : f64 :=
  match x with S754_finite _ _ _ => fofZ (fZfloor x) | _ => x end.

(** [sum_(k < n) c_k x^k] by Horner's rule, coefficients from the lowest. *)
Fixpoint horner (cs : list f64) (x : f64) : f64 :=
  match cs with
  | [] => fofZ 0
  | c :: cs => fadd c (fmul x (horner cs x))
  end.

Fixpoint factZ (k : nat) : Z :=
  match k with O => 1%Z | S n => (Z.of_nat k * factZ n)%Z end.
Definition ifact (k : nat) : f64 := fdiv (fofZ 1) (fofZ (factZ k)).
Definition alternate (k : nat) (x : f64) : f64 := if Nat.even k then x else fopp x.

Definition exp_coeffs : list f64 := Eval vm_compute in map ifact (seq 0 20).
Definition sin_coeffs : list f64 :=
  Eval vm_compute in map (fun k => alternate k (ifact (2 * k + 1))) (seq 0 11).
Definition cos_coeffs : list f64 :=
  Eval vm_compute in map (fun k => alternate k (ifact (2 * k))) (seq 0 11).
Definition sinh_coeffs : list f64 :=
  Eval vm_compute in map (fun k => ifact (2 * k + 1)) (seq 0 11).
Definition atan_coeffs : list f64 :=
  Eval vm_compute in
  map (fun k => alternate k (fdiv (fofZ 1) (fofZ (Z.of_nat (2 * k + 1))))) (seq 0 16).
Definition atanh_coeffs : list f64 :=
  Eval vm_compute in
  map (fun k => fdiv (fofZ 1) (fofZ (Z.of_nat (2 * k + 1)))) (seq 0 16).

(** pi and ln 2 as sums of two doubles *)
Definition fpi : f64 := Eval vm_compute in fldexp (fofZ 7074237752028440) (-51).
Definition fpi_2 : f64 := Eval vm_compute in fldexp fpi (-1).
Definition fpi_2_lo : f64 :=
  Eval vm_compute in fldexp (fofZ 4967757600021511) (-106).
Definition fln2_hi : f64 := Eval vm_compute in fldexp (fofZ 6243314768165359) (-53).
Definition fln2_lo : f64 :=
  Eval vm_compute in fdiv (fofZ 23190468138462996) (fofZ (10 ^ 33)).

Definition fexp (x : f64) : f64 :=
  match x with
  | S754_nan => fnan
  | S754_infinity s => if s then fofZ 0 else x
  | S754_zero _ => fofZ 1
  | _ =>
      if SFltb (fofZ 800) x then S754_infinity false
      else if SFltb x (fofZ (-800)) then fofZ 0
      else
        let k := fZround (fdiv x fln2_hi) in
        let r := fsub (fsub x (fmul (fofZ k) fln2_hi)) (fmul (fofZ k) fln2_lo) in
        fldexp (horner exp_coeffs r) k
  end.

(** [atanh s] for small [s] *)
Definition fatanh_small (s : f64) : f64 := fmul s (horner atanh_coeffs (fmul s s)).

Definition fln (x : f64) : f64 :=
  match x with
  | S754_nan => fnan
  | S754_zero _ => S754_infinity true
  | S754_infinity s => if s then fnan else x
  | S754_finite true _ _ => fnan
  | S754_finite false _ _ =>
      let '(m, e) := SFfrexp prec64 emax64 x in
      let '(m, e) :=
        if SFltb m (flit 70710678 100000000) then (fadd m m, (e - 1)%Z) else (m, e) in
      let s := fdiv (fsub m (fofZ 1)) (fadd m (fofZ 1)) in
      fadd (fmul (fofZ e) fln2_hi)
           (fadd (fmul (fofZ 2) (fatanh_small s)) (fmul (fofZ e) fln2_lo))
  end.

Definition fsin_small (r : f64) : f64 := fmul r (horner sin_coeffs (fmul r r)).
Definition fcos_small (r : f64) : f64 := horner cos_coeffs (fmul r r).

(** Argument reduction modulo pi/2. *)
Definition freduce (x : f64) : Z * f64 :=
  let k := fZround (fdiv x fpi_2) in
  (Z.modulo k 4, fsub (fsub x (fmul (fofZ k) fpi_2)) (fmul (fofZ k) fpi_2_lo)).

Definition fsin (x : f64) : f64 :=
  if negb (fisfinite x) then fnan
  else
    let '(q, r) := freduce x in
    if (q =? 0)%Z then fsin_small r
    else if (q =? 1)%Z then fcos_small r
    else if (q =? 2)%Z then fopp (fsin_small r)
    else fopp (fcos_small r).

Definition fcos (x : f64) : f64 :=
  if negb (fisfinite x) then fnan
  else
    let '(q, r) := freduce x in
    if (q =? 0)%Z then fcos_small r
    else if (q =? 1)%Z then fopp (fsin_small r)
    else if (q =? 2)%Z then fopp (fcos_small r)
    else fsin_small r.

(** [atan x] for [0 <= x <= 1]: three half-angle steps, then the series. *)
Definition fatan_half (x : f64) : f64 :=
  fdiv x (fadd (fofZ 1) (fsqrt (fadd (fofZ 1) (fmul x x)))).
Definition fatan_unit (x : f64) : f64 :=
  let y := fatan_half (fatan_half x) in
  fmul (fofZ 4) (fmul y (horner atan_coeffs (fmul y y))).
Definition fatan (x : f64) : f64 :=
  match x with
  | S754_nan => fnan
  | S754_zero _ => x
  | S754_infinity s => if s then fopp fpi_2 else fpi_2
  | S754_finite s _ _ =>
      let a := fabs x in
      let r := if SFltb (fofZ 1) a then fsub fpi_2 (fatan_unit (fdiv (fofZ 1) a))
               else fatan_unit a in
      if s then fopp r else r
  end.

Definition fatan2 (y x : f64) : f64 :=
  match y, x with
  | S754_nan, _ | _, S754_nan => fnan
  | _, _ =>
      if SFltb (fofZ 0) x then fatan (fdiv y x)
      else if SFltb x (fofZ 0) then
        (if SFltb y (fofZ 0) then fsub (fatan (fdiv y x)) fpi
         else fadd (fatan (fdiv y x)) fpi)
      else if SFltb (fofZ 0) y then fpi_2
      else if SFltb y (fofZ 0) then fopp fpi_2
      else fofZ 0
  end.

Definition fone : f64 := Eval vm_compute in fofZ 1.
Definition facos (x : f64) : f64 :=
  if SFleb (fabs x) fone
  then fatan2 (fsqrt (fmul (fsub fone x) (fadd fone x))) x else fnan.
Definition fasin (x : f64) : f64 :=
  if SFleb (fabs x) fone
  then fatan2 x (fsqrt (fmul (fsub fone x) (fadd fone x))) else fnan.

Definition fsinh (x : f64) : f64 :=
  if SFltb (fabs x) (flit 1 2) then fmul x (horner sinh_coeffs (fmul x x))
  else fdiv (fsub (fexp x) (fexp (fopp x))) (fofZ 2).
Definition fcosh (x : f64) : f64 := fdiv (fadd (fexp x) (fexp (fopp x))) (fofZ 2).
Definition ftanh (x : f64) : f64 := fdiv (fsinh x) (fcosh x).
Definition fatanh (x : f64) : f64 :=
  if SFltb (fabs x) (flit 1 8) then fatanh_small x
  else fdiv (fln (fdiv (fadd fone x) (fsub fone x))) (fofZ 2).
Definition fasinh (x : f64) : f64 :=
  let a := fabs x in
  let h := fsqrt (fadd fone (fmul a a)) in
  let r := if SFltb a (flit 1 8) then fatanh_small (fdiv a h) else fln (fadd a h) in
  if SFltb x (fofZ 0) then fopp r else r.
Definition facosh (x : f64) : f64 :=
  if SFleb fone x then fasinh (fsqrt (fmul (fsub x fone) (fadd x fone))) else fnan.

Definition fpow (x y : f64) : f64 :=
  if SFeqb y (flit 1 2) then fsqrt x
  else match x with
       | S754_zero _ => if SFltb (fofZ 0) y then fofZ 0 else S754_infinity false
       | _ => fexp (fmul y (fln x))
       end.

Definition fmod (x y : f64) : f64 :=
  let r := fsub x (fmul (ffloor (fdiv x y)) y) in
  if SFltb r (fofZ 0) then fadd r y else r.

(** First value of [u k], [u (k+1)], ... equal to its successor, at most [n] tries. *)
Fixpoint fstable (u : nat -> f64) (n k : nat) : f64 :=
  match n with
  | O => u k
  | S n' => let a := u k in if SFeqb a (u (S k)) then a else fstable u n' (S k)
  end.

Definition F64 : Num := {|
  num := f64;
  nofZ := fofZ; nlit := flit;
  nadd := fadd; nsub := fsub; nmul := fmul; ndiv := fdiv; nopp := fopp; nabs := fabs;
  neqb := SFeqb; nltb := SFltb; nleb := SFleb; nisfinite := fisfinite;
  npi := fpi; nsqrt := fsqrt; npow := fpow; nexp := fexp; nln := fln;
  ncos := fcos; nsin := fsin; ntan := fun x => fdiv (fsin x) (fcos x);
  nacos := facos; nasin := fasin; natan := fatan; natan2 := fatan2;
  ncosh := fcosh; nsinh := fsinh; ntanh := ftanh;
  nacosh := facosh; nasinh := fasinh; natanh := fatanh;
  nfloor := ffloor; nmod := fmod;
  nuntil_stable := fun u => fstable u 200 0
|}.
