(** * The model run on the repository's own test data.

    Binary64 runs of every modelled solver on the cases of
    /repo/tests/test_all_solvers.py, test_multirev_solvers.py and
    test_robust_solvers.py, with the expected values and tolerances written
    there.  These runs check that the model says what the code does on the
    cases its authors test; they are tests of the model, not proofs about it. *)
From Coq Require Import ZArith Bool List String.
From Coq Require Import Floats.SpecFloat.
Import ListNotations.
From Verif Require Import Num FloatNum MApi MScipy MInit.

(** Stand-ins for the scipy routines: bisection and golden section. *)
Fixpoint bisect (f : f64 -> res f64) (n : nat) (lo hi flo : f64) : res f64 :=
  match n with
  | O => Ok (fdiv (fadd lo hi) (fofZ 2))
  | S k =>
      let m := fdiv (fadd lo hi) (fofZ 2) in
      match f m with
      | Err e => Err e
      | Ok fm =>
          if SFltb (fmul flo fm) (fofZ 0) then bisect f k lo m flo else bisect f k m hi fm
      end
  end.
Definition test_brentq (f : f64 -> res f64) (lo hi xtol rtol : f64) (maxiter : Z)
  : res (f64 * Z) :=
  match f lo, f hi with
  | Ok flo, Ok fhi =>
      if SFltb (fofZ 0) (fmul flo fhi)
      then Err (ValueError "f(a) and f(b) must have different signs")
      else match bisect f 80 lo hi flo with Ok x => Ok (x, 10%Z) | Err e => Err e end
  | Err e, _ | _, Err e => Err e
  end.
Fixpoint golden (f : f64 -> res f64) (n : nat) (lo hi : f64) : res (bool * f64 * f64) :=
  match n with
  | O => let m := fdiv (fadd lo hi) (fofZ 2) in
         match f m with Ok v => Ok (true, m, v) | Err e => Err e end
  | S k =>
      let w := fmul (flit 381966 1000000) (fsub hi lo) in
      let a := fadd lo w in
      let b := fsub hi w in
      match f a, f b with
      | Ok fa, Ok fb => if SFltb fa fb then golden f k lo b else golden f k a hi
      | Err e, _ | _, Err e => Err e
      end
  end.

Definition test_env : @env F64 :=
  @Env F64 (fun k => fofZ (Z.of_nat k)) 200%nat test_brentq
    (fun f lo hi _ => golden f 80 lo hi).

(** The default values of [maxiter], [atol] and [rtol] in the signatures. *)
Definition default_maxiter (s : solver) : Z :=
  match s with
  | Gauss => 250 | Pan | Vallado => 100 | Thorne => 60 | Delatorre => 50
  | Negrete => 64 | _ => 35
  end%Z.
Definition default_atol (s : solver) : f64 :=
  match s with Delatorre => flit 1 1000000000000 | _ => flit 1 100000 end.
Definition default_rtol (s : solver) : f64 :=
  match s with Delatorre => flit 1 1000000000000 | _ => flit 1 10000000 end.

(** Decimal number with [d] digits after the point. *)
Definition dec (n : Z) (d : nat) : f64 := fdiv (fofZ n) (fofZ (10 ^ Z.of_nat d)).
Definition dec3 (d : nat) (a b c : Z) : list f64 := [dec a d; dec b d; dec c d].

Definition call_default (s : solver) (mu : f64) (r1 r2 : list f64) (tof : f64) (M : Z)
  (prograde low : bool) : res (@out F64) :=
  @run F64 s test_env
    (@Args F64 mu r1 r2 tof M prograde low (default_maxiter s) (default_atol s)
       (default_rtol s) false).

(** [assert_allclose(v, w, atol, rtol)] *)
Definition allclose (atol rtol : f64) (v w : list f64) : bool :=
  forallb (fun ab => SFleb (fabs (fsub (fst ab) (snd ab)))
                       (fadd atol (fmul rtol (fabs (snd ab))))) (combine v w).
Definition agrees (atol rtol : f64) (r : res (@out F64)) (v1 v2 : list f64) : bool :=
  match r with
  | Ok o => allclose atol rtol (@of_vec F64 (out_v1 o)) v1
            && allclose atol rtol (@of_vec F64 (out_v2 o)) v2
  | Err _ => false
  end.

Definition mu_earth : f64 := dec 3986004418 4.
Definition ATOL : f64 := flit 2 100.
Definition RTOL : f64 := flit 1 1000.

(** test_all_solvers.py:20-43 *)
Definition vallado_book (s : solver) : bool :=
  agrees ATOL RTOL
    (call_default s mu_earth (dec3 5 1594534000 0 0) (dec3 5 1221483899 1024946731 0)
       (fofZ 4560) 0 true true)
    (dec3 6 2058913 2915965 0) (dec3 6 (-3451565) 910315 0).

(** test_all_solvers.py:46-67 *)
Definition curtis_r1 : list f64 := dec3 0 5000 10000 2100.
Definition curtis_r2 : list f64 := dec3 0 (-14600) 2500 7000.
Definition curtis_book (s : solver) : bool :=
  agrees ATOL RTOL
    (call_default s mu_earth curtis_r1 curtis_r2 (fofZ 3600) 0 true true)
    (dec3 4 (-59925) 19254 32456) (dec3 5 (-331250) (-419660) (-38529)).

(** test_all_solvers.py:70-92 (only v1 is compared) *)
Definition battin_book (s : solver) : bool :=
  match call_default s (dec 3947692641 8) (dec3 9 159321004 579266185 52359607)
          (dec3 9 57594337 605750797 68345246) (dec 10794065 9) 0 true true with
  | Ok o => allclose ATOL RTOL (@of_vec F64 (out_v1 o))
              (dec3 9 (-9303603251) 3018641330 1536362143)
  | Err _ => false
  end.

(** test_all_solvers.py:95-150 *)
Definition gmat_prograde (s : solver) : bool :=
  agrees ATOL RTOL
    (call_default s mu_earth (dec3 0 7100 200 1300)
       (dec3 4 (-381135870) 672741946 293095799) (fofZ 12000) 0 true true)
    (dec3 2 0 1035 550) (dec3 4 (-36379) 44932 17735).
Definition gmat_retrograde (s : solver) : bool :=
  agrees ATOL RTOL
    (call_default s mu_earth (dec3 0 7100 200 1300)
       (dec3 5 (-4733274990) (-5484020270) (-3710017067)) (fofZ 12000) 0 false true)
    (dec3 2 0 (-1035) (-550)) (dec3 4 (-43016) (-34314) (-25467)).

(** test_all_solvers.py:153-198 *)
Definition der_article_I (prograde low : bool) (v1 v2 : list f64) (s : solver) : bool :=
  agrees ATOL RTOL
    (call_default s mu_earth (dec3 6 2249171260 1898007100 5639599193)
       (dec3 6 1744495443 (-4601556054) 4043864391) (dec 161850 2) 0 prograde low) v1 v2.
Definition der_I_prograde : solver -> bool :=
  der_article_I true true (dec3 8 (-209572809) 392602196 (-494516810))
    (dec3 8 246309613 84490197 610890863).
Definition der_I_retrograde : solver -> bool :=
  der_article_I false false (dec3 8 194312182 (-435300015) 454630439)
    (dec3 8 (-238885563) (-142519647) (-595772225)).

(** test_all_solvers.py:201-245, test_multirev_solvers.py:33-60 *)
Definition der_article_II (atol rtol : f64) (M : Z) (prograde low : bool)
  (v1 v2 : list f64) (s : solver) : bool :=
  agrees atol rtol
    (call_default s mu_earth (dec3 6 22592145603 (-1599915239) (-19783950506))
       (dec3 6 1922067697 4054157051 (-8925727465)) (fofZ 36000) M prograde low) v1 v2.
Definition der_II_prograde : solver -> bool :=
  der_article_II ATOL RTOL 0 true false (dec3 9 2000652697 387688615 (-2666947760))
    (dec3 9 (-3792466190) (-1777076410) 6856814395).
Definition der_II_retrograde : solver -> bool :=
  der_article_II ATOL RTOL 0 false false (dec3 8 296616042 (-127577231) (-75545632))
    (dec3 8 584374550 (-20047673) (-548615883)).
Definition MRTOL : f64 := flit 5 1000000.
Definition multi_prograde_high : solver -> bool :=
  der_article_II (fofZ 0) MRTOL 1 true false (dec3 8 50335770 61869408 (-157176904))
    (dec3 8 (-418334626) (-113262727) 613307091).
Definition multi_prograde_low : solver -> bool :=
  der_article_II (fofZ 0) MRTOL 1 true true (dec3 8 (-245759553) 116945801 43161258)
    (dec3 8 (-553841370) 1822220 549641054).
Definition multi_retrograde_high : solver -> bool :=
  der_article_II (fofZ 0) MRTOL 1 false false (dec3 8 133645655 (-94654565) 30211211)
    (dec3 8 493628678 39863416 (-561593092)).
Definition multi_retrograde_low : solver -> bool :=
  der_article_II (fofZ 0) MRTOL 1 false true (dec3 8 (-138861608) (-47836611) 221280154)
    (dec3 8 392901545 150871943 (-652926969)).

(** test_multirev_solvers.py:63-75 *)
Definition infeasible (s : solver) : bool :=
  match call_default s mu_earth (dec3 6 22592145603 (-1599915239) (-19783950506))
          (dec3 6 1922067697 4054157051 (-8925727465)) (fofZ 18000) 1 true true with
  | Err (ValueError m) => String.eqb m "No feasible solution, try lower M!"
  | _ => false
  end.

(** test_robust_solvers.py:39-71 *)
Definition hard_case (M : Z) (low : bool) (v1 v2 : list f64) (s : solver) : bool :=
  agrees (fofZ 0) (flit 1 1000000)
    (call_default s mu_earth
       [dec 723158074563487 11; dec 21802523761425 11; dec 1179251215952 11]
       [dec 735706485698842 11; dec 25355724281562 11; dec 3881222241557 11]
       (fofZ 12300) M true low) v1 v2.
Definition hard_0_high : solver -> bool :=
  hard_case 0 false (dec3 8 879257809 27867677 2581527)
    (dec3 8 (-868383320) (-28592643) (-3453010)).
Definition hard_1_high : solver -> bool :=
  hard_case 1 false (dec3 8 763353091 24582764 2569470)
    (dec3 8 (-750840227) (-24335652) (-2658981)).
Definition hard_1_low : solver -> bool :=
  hard_case 1 true (dec3 8 819519089 230595215 175229388)
    (dec3 8 807984345 230222567 175189559).
Definition hard_2_high : solver -> bool :=
  hard_case 2 false (dec3 8 651890385 21496104 2618989)
    (dec3 8 (-637230007) (-20150975) (-1832295)).
Definition hard_2_low : solver -> bool :=
  hard_case 2 true (dec3 8 700660748 196687296 149423471)
    (dec3 8 687133644 196250281 149376762).
