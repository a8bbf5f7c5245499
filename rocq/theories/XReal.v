(** * The exact-arithmetic instance: reals with one undefined value. *)
From Coq Require Import Reals ZArith Bool Lra Lia.
From Coquelicot Require Import Coquelicot.
From Verif Require Import Num.
Local Open Scope R_scope.

(** A finite real, or the undefined value that stands for NaN, the infinities
    and Python's [ZeroDivisionError] alike. *)
Inductive xr : Type := Fin (r : R) | NaN.

Definition xlift1 (f : R -> R) (x : xr) : xr :=
  match x with Fin a => Fin (f a) | NaN => NaN end.
Definition xlift2 (f : R -> R -> R) (x y : xr) : xr :=
  match x, y with Fin a, Fin b => Fin (f a b) | _, _ => NaN end.
(** Partial functions: defined where the test holds. *)
Definition xpart1 {P : R -> Prop} (dec : forall a, {P a} + {~ P a}) (f : R -> R)
  (x : xr) : xr :=
  match x with Fin a => if dec a then Fin (f a) else NaN | NaN => NaN end.

Definition xadd := xlift2 Rplus.
Definition xsub := xlift2 Rminus.
Definition xmul := xlift2 Rmult.
Definition xdiv (x y : xr) : xr :=
  match x, y with
  | Fin a, Fin b => if Req_EM_T b 0 then NaN else Fin (a / b)
  | _, _ => NaN
  end.
Definition xopp := xlift1 Ropp.
Definition xabs := xlift1 Rabs.

Definition xeqb (x y : xr) : bool :=
  match x, y with Fin a, Fin b => if Req_EM_T a b then true else false | _, _ => false end.
Definition xltb (x y : xr) : bool :=
  match x, y with Fin a, Fin b => if Rlt_dec a b then true else false | _, _ => false end.
Definition xleb (x y : xr) : bool :=
  match x, y with Fin a, Fin b => if Rle_dec a b then true else false | _, _ => false end.

Definition xsqrt := xpart1 (Rle_dec 0) sqrt.
Definition xln := xpart1 (Rlt_dec 0) ln.
Lemma tan_dom_dec (a : R) : {cos a <> 0} + {~ cos a <> 0}.
Proof. destruct (Req_EM_T (cos a) 0); [right; lra | left; assumption]. Defined.
Definition xtan := xpart1 tan_dom_dec tan.
Lemma unit_dec (a : R) : {-1 <= a <= 1} + {~ -1 <= a <= 1}.
Proof.
  destruct (Rle_dec (-1) a), (Rle_dec a 1); [left; split; assumption | right; lra ..].
Defined.
Definition xacos := xpart1 unit_dec acos.
Definition xasin := xpart1 unit_dec asin.
(** Inverse hyperbolic functions. *)
Definition arcosh (x : R) : R := ln (x + sqrt (x ^ 2 - 1)).
Definition artanh (x : R) : R := ln ((1 + x) / (1 - x)) / 2.
Definition xacosh := xpart1 (Rle_dec 1) arcosh.
Lemma open_unit_dec (a : R) : {-1 < a < 1} + {~ -1 < a < 1}.
Proof.
  destruct (Rlt_dec (-1) a), (Rlt_dec a 1); [left; split; assumption | right; lra ..].
Defined.
Definition xatanh := xpart1 open_unit_dec artanh.

(** [x ** y] for a real exponent: [0 ** y = 0] for [y > 0]. *)
Definition xpow (x y : xr) : xr :=
  match x, y with
  | Fin a, Fin b =>
      if Rlt_dec 0 a then Fin (Rpower a b)
      else if Req_EM_T a 0 then (if Rlt_dec 0 b then Fin 0 else NaN) else NaN
  | _, _ => NaN
  end.

(** Four-quadrant arc tangent, [atan2 0 0 = 0]; signed zeros do not exist here. *)
Definition Ratan2 (y x : R) : R :=
  if Rlt_dec 0 x then atan (y / x)
  else if Rlt_dec x 0 then
         (if Rle_dec 0 y then atan (y / x) + PI else atan (y / x) - PI)
       else if Rlt_dec 0 y then PI / 2
            else if Rlt_dec y 0 then - (PI / 2) else 0.

Definition Rfloor (x : R) : R := IZR (Int_part x).
Definition xmod (x y : xr) : xr :=
  match x, y with
  | Fin a, Fin b => if Req_EM_T b 0 then NaN else Fin (a - b * Rfloor (a / b))
  | _, _ => NaN
  end.

Definition xisfinite (x : xr) : bool := match x with Fin _ => true | NaN => false end.

Definition xget (x : xr) : R := match x with Fin a => a | NaN => 0 end.

(** Limit of a sequence of finite values, undefined otherwise. *)
Lemma xr_nan_dec (x : xr) : x = NaN \/ x <> NaN.
Proof. destruct x; [right; discriminate | left; reflexivity]. Qed.
Definition xlim (u : nat -> xr) : xr :=
  match LPO (fun n => u n = NaN) (fun n => xr_nan_dec (u n)) with
  | inleft _ => NaN
  | inright _ =>
      if ex_finite_lim_seq_dec (fun n => xget (u n))
      then Fin (real (Lim_seq (fun n => xget (u n)))) else NaN
  end.

#[global] Instance XR : Num := {|
  num := xr;
  nofZ := fun z => Fin (IZR z);
  nlit := fun n d => Fin (IZR n / IZR (Zpos d));
  nadd := xadd; nsub := xsub; nmul := xmul; ndiv := xdiv; nopp := xopp;
  nabs := xabs;
  neqb := xeqb; nltb := xltb; nleb := xleb;
  nisfinite := xisfinite;
  npi := Fin PI;
  nsqrt := xsqrt; npow := xpow; nexp := xlift1 exp; nln := xln;
  ncos := xlift1 cos; nsin := xlift1 sin; ntan := xtan;
  nacos := xacos; nasin := xasin; natan := xlift1 atan; natan2 := xlift2 Ratan2;
  ncosh := xlift1 cosh; nsinh := xlift1 sinh; ntanh := xlift1 tanh;
  nacosh := xacosh; nasinh := xlift1 arcsinh; natanh := xatanh;
  nfloor := xlift1 Rfloor; nmod := xmod;
  nuntil_stable := xlim
|}.

(** Vectors of finite reals. *)
Definition vfin (v : vec R) : vec xr := vmap Fin v.
