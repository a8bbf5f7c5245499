(** * Output flags, the clock and unused arguments do not influence the physics: C21.

    Everything here holds in every number system [N] and for every environment. *)
From Coq Require Import String ZArith List Bool Lia.
Import ListNotations.
From Verif Require Import Num MApi ApiFacts MScipy MAssertions MVallado MGauss MIzzo MBattin
  MArora MDelatorre MGooding MJiang MPan MDer MThorne MAvanzini MMcelreath MNegrete MInit Loops.

Section Flags.
Context {N : Num}.

(** The same call with other flags, tolerances, or another clock. *)
Definition with_full (b : bool) (a : args) : args :=
  Args (a_mu a) (a_r1 a) (a_r2 a) (a_tof a) (a_M a) (a_is_prograde a) (a_is_low_path a)
    (a_maxiter a) (a_atol a) (a_rtol a) b.
Definition with_low_path (b : bool) (a : args) : args :=
  Args (a_mu a) (a_r1 a) (a_r2 a) (a_tof a) (a_M a) (a_is_prograde a) b
    (a_maxiter a) (a_atol a) (a_rtol a) (a_full_output a).
Definition with_atol (t : num) (a : args) : args :=
  Args (a_mu a) (a_r1 a) (a_r2 a) (a_tof a) (a_M a) (a_is_prograde a) (a_is_low_path a)
    (a_maxiter a) t (a_rtol a) (a_full_output a).
Definition with_rtol (t : num) (a : args) : args :=
  Args (a_mu a) (a_r1 a) (a_r2 a) (a_tof a) (a_M a) (a_is_prograde a) (a_is_low_path a)
    (a_maxiter a) (a_atol a) t (a_full_output a).
Definition with_clock (c : nat -> num) (ev : env) : env :=
  Env c (e_fuel ev) (e_brentq ev) (e_minimize ev).

(** [verbose] is a call with [full_output=True], [quiet] the same call without:
    same velocities and same exceptions; [Z] says whether a ZeroDivisionError
    of the timing code is tolerated. *)
Definition same_physics (Z : Prop) (verbose quiet : res out) : Prop :=
  match verbose with
  | Ok o => quiet = Ok (Pair (out_v1 o) (out_v2 o))
  | Err e => (Z /\ e = ZeroDivisionError) \/ quiet = Err e
  end.

Lemma sp_err Z e : same_physics Z (Err e) (Err e).
Proof. right; reflexivity. Qed.

Lemma sp_bind {A} Z (m : res A) (k k' : A -> res out) :
  (forall x, m = Ok x -> same_physics Z (k x) (k' x)) -> same_physics Z (bind m k) (bind m k').
Proof. destruct m; simpl; [auto|]. intros _. apply sp_err. Qed.

Lemma sp_tpi (Z : Prop) c c' n (k k' : num -> res out) : (n = 0%Z -> Z) ->
  (forall t t', same_physics Z (k t) (k' t')) ->
  same_physics Z (bind (time_per_iteration c true n) k) (bind (time_per_iteration c' false n) k').
Proof.
  intros HZ H. unfold time_per_iteration. destruct (n =? 0)%Z eqn:E; simpl; [|auto].
  left. split; [|reflexivity]. apply HZ. now apply Z.eqb_eq.
Qed.

Lemma sp_out Z v1 v2 n n' t t' : same_physics Z (Ok (mk_out true v1 v2 n t)) (Ok (mk_out false v1 v2 n' t')).
Proof. reflexivity. Qed.

Lemma sp_weaken (Z Z' : Prop) x y : (Z -> Z') -> same_physics Z x y -> same_physics Z' x y.
Proof. destruct x; simpl; tauto. Qed.

Lemma sp_validated Z b b' a (k k' : vec num -> vec num -> res out) :
  (forall r1 r2, same_physics Z (k r1 r2) (k' r1 r2)) ->
  same_physics Z (validated (with_full b a) k) (validated (with_full b' a) k').
Proof.
  intros H. unfold validated. cbn [with_full a_mu a_r1 a_r2 a_tof a_M].
  apply sp_bind. intros _ _. apply sp_bind. intros r1 _. apply sp_bind. intros r2 _. apply H.
Qed.

Ltac opn := cbn [with_full with_clock a_mu a_r1 a_r2 a_tof a_M a_is_prograde a_is_low_path
   a_maxiter a_atol a_rtol a_full_output e_clock e_fuel e_brentq e_minimize].

Lemma counted {A S} (body : Z -> S -> flow A S) n i s a (num : A -> Z) :
  (forall j t b, body j t = Break b -> num b = j) ->
  for_range body n i s = Break a -> (i <= num a < i + Z.of_nat n)%Z.
Proof.
  intros Hb H. destruct (for_range_inv body (fun _ _ => True) n i s a I (fun _ _ _ _ _ _ => I) H) as (j & t & Hj & _ & E).
  apply Hb in E. lia.
Qed.

Lemma ok_inj {A} (a b : A) : Ok a = Ok b -> a = b.
Proof. intros H; inversion H; reflexivity. Qed.

Lemma Break_some_inj {A S} (x y : A) : @Break (option A) S (Some x) = Break (Some y) -> x = y.
Proof. intros H; inversion H; reflexivity. Qed.

Lemma gau_counted s w atol n y r : for_range (gau_body s w atol) n 1 y = Break r ->
  (1 <= fst (fst r) < 1 + Z.of_nat n)%Z.
Proof.
  apply (counted (gau_body s w atol) n 1 y r (fun r => fst (fst r))).
  intros j t b. unfold gau_body. destruct (nleb _ _); [|discriminate]. intros H; inversion H; reflexivity.
Qed.

Lemma bat_counted ll m atol n y r : for_range (bat_body ll m atol) n 1 y = Break r ->
  (1 <= fst (fst r) < 1 + Z.of_nat n)%Z.
Proof.
  apply (counted (bat_body ll m atol) n 1 y r (fun r => fst (fst r))).
  intros j t b. unfold bat_body. destruct (bat_h_coefficients t ll m). destruct (nleb _ _); [|discriminate]. intros H; inversion H; reflexivity.
Qed.

Lemma val_counted mu tof rtol n1 n2 A fuel n s r : for_range (val_body mu tof rtol n1 n2 A fuel) n 1 s = Break r ->
  (1 <= fst (fst r) < 1 + Z.of_nat n)%Z.
Proof.
  apply (counted (val_body mu tof rtol n1 n2 A fuel) n 1 s r (fun r => fst (fst r))).
  intros j [[psi lo] up] b. unfold val_body. destruct (nltb (nofZ 0) A).
  - destruct (val_readjust _ _ _ _ _ _ _) as [[[l p] y]|?|?]; try discriminate.
    destruct (nltb _ _); [|discriminate]. intros H; inversion H; reflexivity.
  - destruct (nltb _ _); [|discriminate]. intros H; inversion H; reflexivity.
Qed.

Lemma aro_counted dpos tof tof_p tau S M atol n k r : for_range (aro_body dpos tof tof_p tau S M atol) n 1 k = Break r ->
  (1 <= fst r < 1 + Z.of_nat n)%Z.
Proof.
  apply (counted (aro_body dpos tof tof_p tau S M atol) n 1 k r fst).
  intros j t b. unfold aro_body. destruct (aro_W t M); [|discriminate].
  destruct (nleb _ _); [|discriminate]. intros H; inversion H; reflexivity.
Qed.

Lemma ava_counted f atol rtol n s r : for_range (ava_secant_body f atol rtol) n 1 s = Break r ->
  (1 <= snd r < 1 + Z.of_nat n)%Z.
Proof.
  apply (counted (ava_secant_body f atol rtol) n 1 s r snd).
  intros j [[[x0 f0] x1] f1] b. unfold ava_secant_body. destruct (neqb _ _); [intros H; inversion H; reflexivity|].
  destruct (nleb _ _); [intros H; inversion H; reflexivity|]. destruct (f _); discriminate.
Qed.

Lemma mce_desired_counted tof s m t lo hi tol n x r : for_range (mce_desired_body tof s m t lo hi tol) n 1 x = Break r ->
  (1 <= snd r < 1 + Z.of_nat n)%Z.
Proof.
  apply (counted (mce_desired_body tof s m t lo hi tol) n 1 x r snd).
  intros j y b. unfold mce_desired_body. destruct (nltb _ _); [|discriminate]. intros H; inversion H; reflexivity.
Qed.

Lemma mce_minimum_counted tof s m t lo hi n x r : for_range (mce_minimum_body tof s m t lo hi) n 1 x = Break r ->
  (1 <= snd r < 1 + Z.of_nat n)%Z.
Proof.
  apply (counted (mce_minimum_body tof s m t lo hi) n 1 x r snd).
  intros j [y tol] b. unfold mce_minimum_body. destruct (mce_tof_equation_full y s m) as [[[a0 a1] a2] a3].
  match goal with |- (if ?b then _ else _) = _ -> _ => destruct b end; [|discriminate]. intros H; inversion H; reflexivity.
Qed.

Lemma jia_counted f atol rtol n x r : for_range (jia_newton_body f atol rtol) n 1 x = Break r ->
  (1 <= snd r < 1 + Z.of_nat n)%Z.
Proof.
  apply (counted (jia_newton_body f atol rtol) n 1 x r snd).
  intros j [[[y lo] up] fl] b. unfold jia_newton_body. destruct (nleb (nabs (f y)) atol); [intros H; inversion H; reflexivity|].
  destruct (nleb (_ * _)%num _); destruct (_ || _); try discriminate; try (intros H; inversion H; reflexivity).
  all: destruct (_ || _); try discriminate; intros H; inversion H; reflexivity.
Qed.

Lemma tor_counted f d tol n x r : for_range (tor_newton_body f d tol) n 1 x = Break r ->
  (1 <= snd r < 1 + Z.of_nat n)%Z.
Proof.
  apply (counted (tor_newton_body f d tol) n 1 x r snd).
  intros j [[[y lo] up] fl] b. unfold tor_newton_body. destruct (nleb (nabs (f y)) tol); [intros H; inversion H; reflexivity|].
  destruct (nleb _ _); discriminate.
Qed.

Lemma mce_find_counted tof n1 n2 m th M lp mi atol rtol x n :
  mce_find_x tof n1 n2 m th M lp mi atol rtol = Ok (x, n) -> (1 <= n)%Z.
Proof.
  unfold mce_find_x. destruct (M =? 0)%Z.
  - unfold mce_find_single_revolution_x. destruct (nleb _ _); [intros H; inversion H; lia|].
    match goal with |- match ?t with _ => _ end = _ -> _ => destruct t as [[x0 lo] hi] end. unfold mce_solve_desired_x.
    destruct (for_range _ _ _ _) as [r|?|?] eqn:E; try discriminate. apply mce_desired_counted in E.
    intros H; inversion H; subst r. cbn [snd] in E. lia.
  - unfold mce_find_multi_revolution_x. intros H. apply bind_ok in H. destruct H as ([xm mi0] & _ & H).
    destruct (nltb _ (_ - _)%num); [discriminate|]. destruct (nleb _ _).
    + inversion H. destruct (mi0 <? 1)%Z eqn:E; [lia|]. apply Z.ltb_ge in E. lia.
    + destruct (mce_initial_guesses _ _ _ _ _ _ _) as [g1 g2]. apply bind_ok in H. destruct H as ([x' d] & _ & H).
      inversion H. destruct (mi0 + d <? 1)%Z eqn:E; [lia|]. apply Z.ltb_ge in E. lia.
Qed.

Lemma tor_find_counted fuel P Q mu tof M lp mi atol rtol x n :
  tor_find_z fuel P Q mu tof M lp mi atol rtol = Ok (x, n) -> (1 <= n)%Z.
Proof.
  unfold tor_find_z. intros H. apply bind_ok in H. destruct H as ([lo hi] & _ & H). unfold tor_solve_bracketed in H.
  destruct (neqb _ _); [inversion H; lia|]. destruct (neqb _ _); [inversion H; lia|]. destruct (nltb _ _); [discriminate|].
  destruct (for_range _ _ _ _) as [r|?|?] eqn:E; try discriminate. apply tor_counted in E.
  inversion H; subst r. cbn [snd] in E. lia.
Qed.

Lemma sp_gauss c c' a : same_physics False (gauss1809 c (with_full true a)) (gauss1809 c' (with_full false a)).
Proof.
  unfold gauss1809. apply sp_validated. intros r1 r2. opn.
  apply sp_bind. intros _ _. apply sp_bind. intros _ _.
  destruct (for_range _ _ _ _) as [[[n x] y]|?|?] eqn:E; try apply sp_err. apply gau_counted in E. cbn [fst] in E.
  apply sp_tpi; [lia|]. intros t t'. apply sp_bind. intros d _. destruct (gau_velocities _ _ _ _ _ _ _). apply sp_out.
Qed.

Lemma sp_battin c c' a : same_physics False (battin1984 c (with_full true a)) (battin1984 c' (with_full false a)).
Proof.
  unfold battin1984. apply sp_validated. intros r1 r2. opn.
  destruct (for_range _ _ _ _) as [[[n x] y]|?|?] eqn:E; try apply sp_err. apply bat_counted in E. cbn [fst] in E.
  apply sp_tpi; [lia|]. intros t t'. destruct (bat_velocities _ _ _ _ _ _ _ _ _ _). apply sp_out.
Qed.

Lemma sp_vallado c c' fuel a : same_physics False (vallado2013 c fuel (with_full true a)) (vallado2013 c' fuel (with_full false a)).
Proof.
  unfold vallado2013. apply sp_validated. intros r1 r2. opn.
  destruct (neqb _ _); [apply sp_err|].
  destruct (for_range _ _ _ _) as [[[n x] y]|?|?] eqn:E; try apply sp_err. apply val_counted in E. cbn [fst] in E.
  apply sp_tpi; [lia|]. intros t t'. destruct (val_velocities _ _ _ _ _ _ _). apply sp_out.
Qed.

Lemma sp_jiang ev c a : same_physics False (jiang2016 ev (with_full true a)) (jiang2016 (with_clock c ev) (with_full false a)).
Proof.
  unfold jiang2016. opn. apply sp_bind. intros _ _. apply sp_validated. intros r1 r2. opn.
  apply sp_bind. intros _ _. apply sp_bind. intros _ _. apply sp_bind. intros [p n] _.
  destruct (n =? 0)%Z eqn:E.
  - cbn [bind]. destruct (jia_velocities _ _ _ _ _ _ _). apply sp_out.
  - apply sp_tpi; [intros ->; discriminate|]. intros t t'. destruct (jia_velocities _ _ _ _ _ _ _). apply sp_out.
Qed.

Lemma pan_find_clock ev c mu g tof mi atol rtol :
  pan_find_omega (with_clock c ev) mu g tof mi atol rtol = pan_find_omega ev mu g tof mi atol rtol.
Proof.
  unfold pan_find_omega. generalize 720%nat. intros k. destruct (pan_first_bracket _ _ _) as [[lo hi]|]; reflexivity.
Qed.

Lemma sp_pan ev c a : same_physics (a_maxiter a = 0%Z) (pan2016 ev (with_full true a)) (pan2016 (with_clock c ev) (with_full false a)).
Proof.
  unfold pan2016. opn. apply sp_bind. intros _ _. apply sp_validated. intros r1 r2. opn.
  apply sp_bind. intros _ _. apply sp_bind. intros _ _.
  pose proof (sp_weaken False (a_maxiter a = 0%Z) _ _ ltac:(tauto) (sp_vallado (e_clock ev) c (e_fuel ev) a)) as V.
  destruct (np_isclose _ _ _ _); [exact V|].
  set (g := pan_planar_geometry _ _ _ _).
  rewrite pan_find_clock.
  destruct (pan_find_omega _ _ _ _ _ _ _) as [[om n]|e] eqn:E.
  - apply sp_tpi.
    + intros ->. revert E. unfold pan_find_omega. generalize 720%nat. intros k0. destruct (pan_first_bracket _ _ _) as [[lo hi]|]; [|discriminate].
      unfold pan_bezier_root. intros E. apply bind_ok in E. destruct E as (f1 & _ & E). apply bind_ok in E. destruct E as (f2 & _ & E).
      destruct (for_range _ _ _ _) as [r|[[[[pr lo'] hi'] fl] fh]|?] eqn:L; try discriminate.
      * exfalso. inversion E; subst r. clear E.
        assert (K : (1 <= snd (om, 0) < 1 + Z.of_nat (Z.to_nat (a_maxiter a)))%Z); [|cbn in K; lia].
        apply (counted _ _ _ _ _ snd) in L; [exact L|].
        intros j [[[[p1 p2] p3] p4] p5] b. unfold pan_bezier_body. destruct (pan_residual _ _ _ _); [|discriminate].
        destruct (_ || _); [intros H; inversion H; reflexivity|]. destruct (nleb _ _); discriminate.
      * apply bind_ok in E. destruct E as ([rt k] & _ & E). inversion E. reflexivity.
    + intros t t'. apply sp_bind. intros el _. apply sp_bind. intros [v1 v2] _. apply sp_out.
  - destruct e; try apply sp_err. exact V.
Qed.

Lemma sp_gooding ev c a : same_physics (a_maxiter a = 0%Z) (gooding1990 ev (with_full true a)) (gooding1990 (with_clock c ev) (with_full false a)).
Proof.
  unfold gooding1990. apply sp_validated. intros r1 r2. opn. apply sp_bind. intros _ _. unfold vlamb. opn.
  destruct (goo_reduce _ _) as [[thr m]|?|?]; try apply sp_err.
  destruct (goo_geometry _ _ _ _) as [[[[[mus s] qq] q] rho] sig].
  set (t := (_ / _)%num).
  assert (G : forall m n q qq x xp tin,
    match goo_finish (e_clock ev) m n q qq x xp tin (a_maxiter a) (a_atol a) (a_rtol a) true with
    | Ok (n1, x1, x2, ni, tp) => exists tp', goo_finish c m n q qq x xp tin (a_maxiter a) (a_atol a) (a_rtol a) false = Ok (n1, x1, x2, ni, tp')
    | Err e => (a_maxiter a = 0%Z /\ e = ZeroDivisionError) \/ goo_finish c m n q qq x xp tin (a_maxiter a) (a_atol a) (a_rtol a) false = Err e
    end).
  { clear. intros m n q qq x xp tin. unfold goo_finish. destruct (xlamb_iter _ _ _ _ _ _ _ _) as [x' ni] eqn:E.
    unfold time_per_iteration. destruct (ni =? 0)%Z eqn:Z0; cbn [bind]; [|eexists; reflexivity].
    left. split; [|reflexivity]. apply Z.eqb_eq in Z0. subst ni. revert E. unfold xlamb_iter.
    destruct (for_range _ _ _ _) as [r|[y yo]|?] eqn:L.
    - intros ->. apply (counted _ _ _ _ _ snd) in L; [cbn in L; lia|].
      intros j [y yo] b. unfold goo_iter_body. destruct (tlamb _ _ _ _ _) as [[[t0 t1] t2] t3].
      destruct (nneqb _ _); destruct (_ && _); try discriminate; intros H; inversion H; reflexivity.
    - intros H; inversion H; reflexivity.
    - intros H; inversion H; reflexivity. }
  assert (X :
    match xlamb (e_clock ev) m q qq t (a_maxiter a) (a_atol a) (a_rtol a) true with
    | Ok (n1, x1, x2, ni, tp) => exists tp', xlamb c m q qq t (a_maxiter a) (a_atol a) (a_rtol a) false = Ok (n1, x1, x2, ni, tp')
    | Err e => (a_maxiter a = 0%Z /\ e = ZeroDivisionError) \/ xlamb c m q qq t (a_maxiter a) (a_atol a) (a_rtol a) false = Err e
    end).
  { unfold xlamb. destruct (m =? 0)%Z.
    - destruct (tlamb _ _ _ _ _) as [[[t0 t1] t2] t3]. apply G.
    - destruct (a_maxiter a <=? 0)%Z; [right; reflexivity|].
      destruct (for_range _ _ _ _) as [[[[ni xm] tm] d2]|[[[ni xm] tm] d2]|?]; try (right; reflexivity).
      all: destruct (ni + 1 =? a_maxiter a)%Z; [right; reflexivity|]; destruct (nltb _ _); [right; reflexivity|];
        destruct (neqb _ _); [right; reflexivity|].
      all: match goal with |- match (if ?b then _ else _) with _ => _ end => destruct b end.
      all: try (destruct (xlamb_iter _ _ _ _ _ _ _ _) as [xp k]); destruct (goo_second_starter _ _ _ _ _ _ _ _ _ _ _) as [n' x']; apply G. }
  destruct (xlamb (e_clock ev) _ _ _ _ _ _ _ _) as [[[[[n1 x1] x2] ni] tp]|e].
  - destruct X as (tp' & ->). cbn [bind]. destruct (goo_components _ _ _ _ _ _ _ _ _) as [[[a1 a2] a3] a4]. cbn [bind]. apply sp_out.
  - destruct X as [[X1 X2]| ->]; [left; auto|right; reflexivity].
Qed.

Lemma sp_thorne ev c a : same_physics True (thorne2004 ev (with_full true a)) (thorne2004 (with_clock c ev) (with_full false a)).
Proof.
  unfold thorne2004. opn. apply sp_bind. intros _ _. apply sp_validated. intros r1 r2. opn.
  change (tho_semimajor_axis (with_clock c ev)) with (tho_semimajor_axis ev).
  apply sp_bind. intros [[sma br] n] _. apply sp_tpi; [tauto|]. intros t t'.
  destruct (tho_reconstruct _ _ _ _ _ _ _ _). apply sp_out.
Qed.

Lemma der_elliptic_counted sigma tau M atol rtol n x0 r :
  for_range (der_elliptic_body sigma tau M atol rtol) n 1 x0 = Break (Some r) -> (1 <= snd r < 1 + Z.of_nat n)%Z.
Proof.
  intros L. destruct (for_range_inv _ (fun _ _ => True) _ _ _ _ I (fun _ _ _ _ _ _ => I) L) as (j & t & Hj & _ & E).
  revert E. unfold der_elliptic_body. cbv zeta. destruct (nleb _ (_ + _)%num).
  - intros E; apply Break_some_inj in E. subst r. cbn [snd]. lia.
  - destruct (nleb _ _); discriminate.
Qed.

Lemma der_hyperbolic_counted sigma tau atol rtol n x0 r :
  for_range (der_hyperbolic_body sigma tau atol rtol) n 1 x0 = Break (Some r) -> (1 <= snd r < 1 + Z.of_nat n)%Z.
Proof.
  intros L. destruct (for_range_inv _ (fun _ _ => True) _ _ _ _ I (fun _ _ _ _ _ _ => I) L) as (j & t & Hj & _ & E).
  revert E. unfold der_hyperbolic_body. cbv zeta. destruct (nleb _ (_ + _)%num).
  - intros E; apply Break_some_inj in E. subst r. cbn [snd]. lia.
  - destruct (der_hyperbolic_derivatives _ _ _). destruct (nleb _ _); discriminate.
Qed.

(** The count of der2011: at least 1 when Laguerre succeeds, [maxiter] after the fallback. *)
Lemma der_find_counted ev sigma tau tau_p M lp mi atol rtol r :
  der_find_path_parameter ev sigma tau tau_p M lp mi atol rtol = Ok r -> (1 <= snd r)%Z \/ snd r = mi.
Proof.
  unfold der_find_path_parameter. destruct (_ && _); [intros H; apply ok_inj in H; subst r; left; cbn; lia|]. cbv zeta.
  assert (EB : forall x0, der_solve_elliptic_bracketed ev sigma tau M x0 mi atol rtol = Ok r -> snd r = mi).
  { intros x0. unfold der_solve_elliptic_bracketed. destruct (if nltb x0 _ then _ else _) as [lo hi].
    intros H. apply bind_ok in H. destruct H as ([x k] & _ & H). apply ok_inj in H. subst r. reflexivity. }
  assert (HB : der_solve_hyperbolic_bracketed ev sigma tau mi atol rtol = Ok r -> snd r = mi).
  { unfold der_solve_hyperbolic_bracketed. cbv zeta. destruct (while_true _ _ _); try discriminate.
    intros H. apply bind_ok in H. destruct H as ([x k] & _ & H). apply ok_inj in H. subst r. reflexivity. }
  match goal with |- (if ?b then _ else _) = _ -> _ => destruct b end.
  - unfold der_solve_elliptic. match goal with |- context [for_range ?b ?n ?i ?s] => destruct (for_range b n i s) as [[r'|]|?|?] eqn:L end.
    + intros H; apply ok_inj in H; subst r'. apply der_elliptic_counted in L. left; lia.
    + intros H; right; exact (EB _ H).
    + intros H; right; exact (EB _ H).
    + intros H; right; exact (EB _ H).
  - unfold der_solve_hyperbolic. match goal with |- context [for_range ?b ?n ?i ?s] => destruct (for_range b n i s) as [[r'|]|?|?] eqn:L end.
    + intros H; apply ok_inj in H; subst r'. apply der_hyperbolic_counted in L. left; lia.
    + intros H; right; exact (HB H).
    + intros H; right; exact (HB H).
    + intros H; right; exact (HB H).
Qed.

Lemma sp_der ev c a : same_physics (a_maxiter a = 0%Z) (der2011 ev (with_full true a)) (der2011 (with_clock c ev) (with_full false a)).
Proof.
  unfold der2011. apply sp_validated. intros r1 r2. opn.
  apply sp_bind. intros _ _. apply sp_bind. intros _ _. apply sp_bind. intros _ _.
  change (der_minimum_time (with_clock c ev)) with (der_minimum_time ev).
  change (der_find_path_parameter (with_clock c ev)) with (der_find_path_parameter ev).
  apply sp_bind. intros _ _. apply sp_bind. intros [[x y] n] E. apply der_find_counted in E. cbn [snd] in E. apply sp_tpi.
  - lia.
  - intros t t'. destruct (der_velocities _ _ _ _ _ _ _ _ _ _). apply sp_out.
Qed.

Lemma sp_avanzini ev c a : same_physics False (avanzini2008 ev (with_full true a)) (avanzini2008 (with_clock c ev) (with_full false a)).
Proof.
  unfold avanzini2008. opn. apply sp_bind. intros _ _. apply sp_validated. intros r1 r2. opn.
  apply sp_bind. intros g _. cbv zeta. apply sp_bind. intros [x n] E. apply sp_tpi.
  - intros ->. revert E. unfold ava_secant. intros E. apply bind_ok in E. destruct E as (f0 & _ & E). apply bind_ok in E. destruct E as (f1 & _ & E).
    destruct (for_range _ _ _ _) as [r|?|?] eqn:L; try discriminate. apply ava_counted in L. apply ok_inj in E. subst r. cbn [snd] in L. lia.
  - intros t t'. apply sp_bind. intros [v1 v2] _. apply sp_out.
Qed.

Lemma sp_arora ev c a : same_physics False (arora2013 ev (with_full true a)) (arora2013 (with_clock c ev) (with_full false a)).
Proof.
  unfold arora2013. apply sp_validated. intros r1 r2. opn. cbv zeta.
  apply sp_bind. intros _ _. change (aro_multirev_k_guess (with_clock c ev)) with (aro_multirev_k_guess ev).
  apply sp_bind. intros k0 _.
  destruct (for_range _ _ _ _) as [[n k]|?|?] eqn:E; try apply sp_err. apply aro_counted in E. cbn [fst] in E.
  apply sp_tpi; [lia|]. intros t t'. destruct (aro_velocities _ _ _ _ _ _ _ _ _ _). apply sp_out.
Qed.

Lemma sp_negrete ev c a : same_physics False (negrete2024 ev (with_full true a)) (negrete2024 (with_clock c ev) (with_full false a)).
Proof.
  unfold negrete2024. apply sp_validated. intros r1 r2. opn. cbv zeta.
  apply sp_bind. intros _ _. apply sp_bind. intros _ _. apply sp_bind. intros z _. apply sp_tpi; [lia|].
  intros t t'. destruct (neg_velocities _ _ _ _ _ _ _). apply sp_out.
Qed.

Lemma sp_mcelreath ev c a : same_physics False (mcelreath2025 ev (with_full true a)) (mcelreath2025 (with_clock c ev) (with_full false a)).
Proof.
  unfold mcelreath2025. apply sp_validated. intros r1 r2. opn. cbv zeta.
  apply sp_bind. intros _ _. apply sp_bind. intros _ _. apply sp_bind. intros [x n] E. apply mce_find_counted in E. apply sp_tpi; [lia|].
  intros t t'. destruct (mce_velocities _ _ _ _ _ _ _ _). apply sp_out.
Qed.

Lemma sp_delatorre ev c a : same_physics False (delatorre2018 ev (with_full true a)) (delatorre2018 (with_clock c ev) (with_full false a)).
Proof.
  unfold delatorre2018. apply sp_validated. intros r1 r2. opn. cbv zeta.
  apply sp_bind. intros [z n] E. apply tor_find_counted in E. destruct (tor_velocities _ _ _ _ _ _ _ _ _).
  unfold time_per_iteration. destruct (n =? 0)%Z eqn:Z0; [apply Z.eqb_eq in Z0; lia|]. cbn [andb bind]. apply sp_out.
Qed.
End Flags.

(** ** C21 *)

(** Where a verbose call may end in the ZeroDivisionError of
    [(time.perf_counter() - tic) / numiter]. *)
Definition timing_may_fail {N : Num} (s : solver) (a : args) : Prop :=
  s = Thorne \/ (In s [Gooding; Pan; Der] /\ a_maxiter a = 0%Z).

Lemma sp_run {N : Num} s ev c a : s <> Izzo ->
  same_physics (timing_may_fail s a) (run s ev (with_full true a)) (run s (with_clock c ev) (with_full false a)).
Proof.
  intros Hs. destruct s; try congruence; cbn [run e_clock e_fuel with_clock].
  1: eapply sp_weaken; [|apply sp_gauss]; tauto.
  1: eapply sp_weaken; [|apply sp_battin]; tauto.
  1: eapply sp_weaken; [|apply sp_jiang]; tauto.
  1: eapply sp_weaken; [|apply sp_pan]; unfold timing_may_fail; cbn; tauto.
  1: eapply sp_weaken; [|apply sp_gooding]; unfold timing_may_fail; cbn; tauto.
  1: eapply sp_weaken; [|apply sp_der]; unfold timing_may_fail; cbn; tauto.
  1: eapply sp_weaken; [|apply sp_thorne]; unfold timing_may_fail; cbn; tauto.
  1: eapply sp_weaken; [|apply sp_avanzini]; tauto.
  1: eapply sp_weaken; [|apply sp_arora]; tauto.
  1: eapply sp_weaken; [|apply sp_vallado]; tauto.
  1: eapply sp_weaken; [|apply sp_negrete]; tauto.
  1: eapply sp_weaken; [|apply sp_mcelreath]; tauto.
  1: eapply sp_weaken; [|apply sp_delatorre]; tauto.
Qed.

(** Asking for the full output, under any behaviour of the clock, returns the
    velocities that the plain call returns. *)
Theorem C21_full_output {N : Num} (s : solver) (ev : env) (c : nat -> num) (a : args) (o : out) :
  s <> Izzo ->
  run s ev (with_full true a) = Ok o ->
  run s (with_clock c ev) (with_full false a) = Ok (Pair (out_v1 o) (out_v2 o)).
Proof. intros Hs H. pose proof (sp_run s ev c a Hs) as S. rewrite H in S. exact S. Qed.
Print Assumptions C21_full_output.

(** It raises what the plain call raises, up to the ZeroDivisionError. *)
Theorem C21_exceptions {N : Num} (s : solver) (ev : env) (c : nat -> num) (a : args) (e : exn) :
  s <> Izzo ->
  run s ev (with_full true a) = Err e ->
  run s (with_clock c ev) (with_full false a) = Err e
  \/ e = ZeroDivisionError /\ timing_may_fail s a.
Proof. intros Hs H. pose proof (sp_run s ev c a Hs) as S. rewrite H in S. cbn in S. tauto. Qed.
Print Assumptions C21_exceptions.

(** And when the plain call raises, so does the verbose one. *)
Theorem C21_plain_exceptions {N : Num} (s : solver) (ev : env) (c : nat -> num) (a : args) (e : exn) :
  s <> Izzo ->
  run s (with_clock c ev) (with_full false a) = Err e ->
  run s ev (with_full true a) = Err e
  \/ run s ev (with_full true a) = Err ZeroDivisionError /\ timing_may_fail s a.
Proof.
  intros Hs H. pose proof (sp_run s ev c a Hs) as S. destruct (run s ev _) as [o|e']; cbn in S.
  - rewrite H in S. discriminate.
  - destruct S as [[S ->]|S]; [right; auto|]. rewrite H in S. left. inversion S. reflexivity.
Qed.
Print Assumptions C21_plain_exceptions.

(** Without [full_output] the clock is irrelevant altogether. *)
Theorem C21_clock {N : Num} (s : solver) (ev : env) (c : nat -> num) (a : args) :
  run s (with_clock c ev) (with_full false a) = run s ev (with_full false a).
Proof.
  destruct s; lazymatch goal with |- run Pan _ _ = _ => idtac | |- run Delatorre _ _ = _ => idtac | _ => reflexivity end.
  all: cbn [run].
  - unfold pan2016. cbn [with_full with_clock a_mu a_r1 a_r2 a_tof a_M a_is_prograde a_is_low_path
   a_maxiter a_atol a_rtol a_full_output e_clock e_fuel]. 
    destruct (raise_if _ _); cbn [bind]; [|reflexivity]. unfold validated.
    destruct (assert_parameters_are_valid _ _ _ _ _); cbn [bind]; [|reflexivity].
    destruct (as_vec _) as [r1|]; cbn [bind]; [|reflexivity].
    destruct (as_vec _) as [r2|]; cbn [bind]; [|reflexivity]. cbv zeta.
    destruct (assert_transfer_angle_not_zero _); cbn [bind]; [|reflexivity].
    destruct (assert_transfer_angle_not_pi _); cbn [bind]; [|reflexivity].
    destruct (np_isclose _ _ _ _); [reflexivity|]. rewrite pan_find_clock.
    destruct (pan_find_omega _ _ _ _ _ _ _) as [[om n]|e]; [reflexivity|destruct e; reflexivity].
  - unfold delatorre2018, validated. cbn [with_full with_clock a_mu a_r1 a_r2 a_tof a_M a_is_prograde a_is_low_path
   a_maxiter a_atol a_rtol a_full_output e_clock e_fuel]. 
    destruct (assert_parameters_are_valid _ _ _ _ _); [|reflexivity]. cbn [bind]. destruct (as_vec _) as [r1|]; [|reflexivity]. cbn [bind].
    destruct (as_vec _) as [r2|]; [|reflexivity]. cbn [bind]. cbv zeta. destruct (tor_find_z _ _ _ _ _ _ _ _ _ _) as [[z n]|] eqn:E; [|reflexivity].
    apply tor_find_counted in E. cbn [bind]. destruct (tor_velocities _ _ _ _ _ _ _ _ _). unfold time_per_iteration.
    destruct (n =? 0)%Z eqn:Z0; [apply Z.eqb_eq in Z0; lia|]. reflexivity.
Qed.
Print Assumptions C21_clock.

(** Arguments the solvers accept and never use. *)
Theorem C21_unused {N : Num} (ev : env) (a : args) (low : bool) (tol : num) :
  run Gauss ev (with_rtol tol a) = run Gauss ev a
  /\ run Battin ev (with_rtol tol a) = run Battin ev a
  /\ run Vallado ev (with_atol tol a) = run Vallado ev a
  /\ Forall (fun s => run s ev (with_low_path low a) = run s ev a)
       [Gauss; Battin; Jiang; Thorne; Avanzini; Vallado].
Proof. repeat split. repeat constructor. Qed.
Print Assumptions C21_unused.
