(** * Which calls terminate: C53. *)
From Coq Require Import String ZArith List Bool Lia.
Import ListNotations.
From Verif Require Import Num MApi ApiFacts MLinalg MScipy MAssertions MAngles MVallado MGauss MIzzo MBattin
  MArora MDelatorre MGooding MJiang MPan MDer MThorne MAvanzini MMcelreath MNegrete MInit Loops
  PropertiesFlags PropertiesBudget PropertiesExceptions.

(** The same environment with another bound on the passes of the [while] loops. *)
Definition with_fuel {N : Num} (n : nat) (ev : env) : env :=
  Env (e_clock ev) n (e_brentq ev) (e_minimize ev).

(** A call that ends: some number of passes is enough for every loop, whatever
    the clock and the scipy routines do. *)
Definition terminates {N : Num} (s : solver) (a : args) : Prop :=
  exists n, forall ev, (n <= e_fuel ev)%nat -> scipy_exceptions ev -> run s ev a <> Err OutOfFuel.
(** A call that never ends: no number of passes is enough. *)
Definition hangs {N : Num} (s : solver) (a : args) : Prop :=
  forall ev, run s ev a = Err OutOfFuel.

(** ** More passes change nothing once a call has ended *)
Section Fuel.
Context {N : Num}.
Definition ext {A} (r r' : res A) : Prop := r = Err OutOfFuel \/ r' = r.
Definition fext {A S} (f f' : flow A S) : Prop := f = Raise OutOfFuel \/ f' = f.

Lemma ext_refl {A} (r : res A) : ext r r. Proof. right. reflexivity. Qed.
Lemma ext_bind {A B} (m m' : res A) (k k' : A -> res B) : ext m m' -> (forall x, m = Ok x -> ext (k x) (k' x)) -> ext (bind m k) (bind m' k').
Proof. intros [->| ->] H; [left; reflexivity|]. destruct m; cbn [bind]; [now apply H|apply ext_refl]. Qed.
Lemma ext_validated {A} a (k k' : vec num -> vec num -> res A) : (forall r1 r2, ext (k r1 r2) (k' r1 r2)) -> ext (validated a k) (validated a k').
Proof. intros H. unfold validated. apply ext_bind; [apply ext_refl|]. intros _ _. apply ext_bind; [apply ext_refl|]. intros r1 _. apply ext_bind; [apply ext_refl|]. intros r2 _. apply H. Qed.
Lemma fext_while {A S} (body : S -> flow A S) n m s : (n <= m)%nat -> fext (while_true body n s) (while_true body m s).
Proof.
  intros H. destruct (while_true body n s) as [x|t|e] eqn:E.
  - right. now apply (while_true_mono body n).
  - exfalso. exact (while_true_not_next _ _ _ _ E).
  - destruct e; try (right; now apply (while_true_mono body n)). left. reflexivity.
Qed.
Lemma fext_for {A S} (b b' : Z -> S -> flow A S) n : (forall i s, fext (b i s) (b' i s)) -> forall i s, fext (for_range b n i s) (for_range b' n i s).
Proof.
  intros H. induction n as [|n IH]; intros i s; cbn [for_range]; [right; reflexivity|].
  destruct (H i s) as [->| ->]; [left; reflexivity|]. destruct (b i s); [right; reflexivity|apply IH|right; reflexivity].
Qed.
Lemma ext_fext {A S B} (f f' : flow A S) (kb : A -> res B) (kn : S -> res B) :
  fext f f' -> ext (match f with Break x => kb x | Next s => kn s | Raise e => Err e end)
                   (match f' with Break x => kb x | Next s => kn s | Raise e => Err e end).
Proof. intros [->| ->]; [left; reflexivity|apply ext_refl]. Qed.

Section Bounds.
Variables n m : nat.
Hypothesis Hnm : (n <= m)%nat.

Lemma ext_vallado c a : ext (vallado2013 c n a) (vallado2013 c m a).
Proof.
  unfold vallado2013. apply ext_validated. intros r1 r2. cbv zeta. destruct (neqb _ _); [apply ext_refl|].
  match goal with |- ext (match ?f with _ => _ end) (match ?f' with _ => _ end) => assert (HX : fext f f'); [|destruct HX as [->| ->]; [left; reflexivity|apply ext_refl]] end.
  apply fext_for. intros i [[psi lo] up]. unfold val_body.
  match goal with |- fext (match ?f with _ => _ end) (match ?f' with _ => _ end) => assert (HX : fext f f'); [|destruct HX as [->| ->]; [left; reflexivity|right; reflexivity]] end.
  destruct (nltb _ _); [|right; reflexivity]. now apply fext_while.
Qed.
Lemma ext_tho_expand cond b : ext (tho_expand n cond b) (tho_expand m cond b).
Proof. unfold tho_expand. apply ext_fext. now apply fext_while. Qed.

Ltac er := lazymatch goal with |- ext ?x ?x => exact (ext_refl x) | |- ext ?x ?y => fail "not the same" end.
Ltac eb := lazymatch goal with
  | |- ext (bind ?m _) (bind ?m _) => apply ext_bind; [exact (ext_refl m)|intros ? _; cbv beta]
  | |- ext (bind _ _) (bind _ _) => apply ext_bind; [|intros [? ?] _; er] end.

Lemma ext_jia_ell mu tof am s c th lp mi at_ rt : ext (jia_find_and_solve_elliptic n mu tof am s c th lp mi at_ rt) (jia_find_and_solve_elliptic m mu tof am s c th lp mi at_ rt).
Proof.
  unfold jia_find_and_solve_elliptic. eb. unfold jia_elliptic_bracket. cbv zeta. apply ext_fext. unfold jia_expand_elliptic. now apply fext_while.
Qed.
Lemma ext_jia_hyp mu tof s c th mi at_ rt : ext (jia_find_and_solve_hyperbolic n mu tof s c th mi at_ rt) (jia_find_and_solve_hyperbolic m mu tof s c th mi at_ rt).
Proof.
  unfold jia_find_and_solve_hyperbolic. eb. unfold jia_hyperbolic_bracket. cbv zeta. apply ext_fext. unfold jia_expand_hyperbolic. now apply fext_while.
Qed.
Lemma ext_jia a r1 r2 c s th : ext (jia_solve_p n a r1 r2 c s th) (jia_solve_p m a r1 r2 c s th).
Proof.
  unfold jia_solve_p. cbv zeta. destruct (np_isclose _ _ _ _); [er|]. destruct (nltb _ _); eb; [apply ext_jia_ell|apply ext_jia_hyp].
Qed.
Lemma ext_jiang ev a : ext (jiang2016 (with_fuel n ev) a) (jiang2016 (with_fuel m ev) a).
Proof.
  unfold jiang2016. eb. apply ext_validated. intros r1 r2. cbv zeta.
  change (e_clock (with_fuel m ev)) with (e_clock (with_fuel n ev)). change (e_fuel (with_fuel m ev)) with m. change (e_fuel (with_fuel n ev)) with n.
  eb. eb. eb. apply ext_jia.
Qed.
Lemma pan_omega_fuel ev mu g tof mi at_ rt : pan_find_omega (with_fuel m ev) mu g tof mi at_ rt = pan_find_omega (with_fuel n ev) mu g tof mi at_ rt.
Proof. unfold pan_find_omega. destruct (pan_first_bracket _ _ _) as [[? ?]|]; reflexivity. Qed.
Lemma ext_pan ev a : ext (pan2016 (with_fuel n ev) a) (pan2016 (with_fuel m ev) a).
Proof.
  unfold pan2016. eb. apply ext_validated. intros r1 r2. cbv zeta.
  change (e_clock (with_fuel m ev)) with (e_clock (with_fuel n ev)). change (e_fuel (with_fuel m ev)) with m. change (e_fuel (with_fuel n ev)) with n.
  eb. eb. destruct (np_isclose _ _ _ _); [apply ext_vallado|].
  rewrite pan_omega_fuel.
  destruct (pan_find_omega _ _ _ _ _ _ _) as [[? ?]|[]]; try er. apply ext_vallado.
Qed.
Lemma ext_gooding ev a : ext (gooding1990 (with_fuel n ev) a) (gooding1990 (with_fuel m ev) a).
Proof.
  unfold gooding1990. apply ext_validated. intros r1 r2. cbv zeta. eb.
  apply ext_bind; [|intros [[[[[? ?] ?] ?] ?] ?] _; er]. unfold vlamb.
  change (e_clock (with_fuel m ev)) with (e_clock (with_fuel n ev)). change (e_fuel (with_fuel m ev)) with m. change (e_fuel (with_fuel n ev)) with n.
  match goal with |- ext (match ?f with _ => _ end) (match ?f' with _ => _ end) => assert (HX : fext f f'); [|destruct HX as [->| ->]; [left; reflexivity|er]] end.
  unfold goo_reduce. now apply fext_while.
Qed.
Lemma ext_der ev a : ext (der2011 (with_fuel n ev) a) (der2011 (with_fuel m ev) a).
Proof.
  unfold der2011. apply ext_validated. intros r1 r2. cbv zeta.
  change (e_clock (with_fuel m ev)) with (e_clock (with_fuel n ev)).
  change (der_minimum_time (with_fuel m ev)) with (der_minimum_time (with_fuel n ev)).
  do 4 eb. apply ext_bind; [|intros [[? ?] ?] _; er].
  unfold der_find_path_parameter. cbv zeta.
  change (der_solve_elliptic (with_fuel m ev)) with (der_solve_elliptic (with_fuel n ev)).
  match goal with |- ext (if ?b then _ else _) _ => destruct b; [er|] end.
  match goal with |- ext (if ?b then _ else _) _ => destruct b; [er|] end.
  unfold der_solve_hyperbolic.
  match goal with |- ext (match ?f with _ => _ end) _ => destruct f as [[?|]|?|?]; [er| | |] end.
  all: unfold der_solve_hyperbolic_bracketed; cbv zeta; change (e_fuel (with_fuel m ev)) with m; change (e_fuel (with_fuel n ev)) with n;
    change (e_brentq (with_fuel m ev)) with (e_brentq (with_fuel n ev)); apply ext_fext; now apply fext_while.
Qed.
Lemma ext_thorne ev a : ext (thorne2004 (with_fuel n ev) a) (thorne2004 (with_fuel m ev) a).
Proof.
  unfold thorne2004. eb. apply ext_validated. intros r1 r2. cbv zeta.
  change (e_clock (with_fuel m ev)) with (e_clock (with_fuel n ev)).
  apply ext_bind; [|intros [[? ?] ?] _; er]. unfold tho_semimajor_axis. cbv zeta.
  change (e_fuel (with_fuel m ev)) with m. change (e_fuel (with_fuel n ev)) with n.
  change (e_brentq (with_fuel m ev)) with (e_brentq (with_fuel n ev)).
  destruct (np_isclose _ _ _ _); [er|].
  apply ext_bind; [|intros [[? ?] ?] _; er].
  match goal with |- ext (if ?b then _ else _) _ => destruct b end.
  - apply ext_bind; [|intros ? _; er]. apply ext_tho_expand.
  - apply ext_bind; [|intros ? _; er]. unfold tho_expand_upper. match goal with |- ext (match ?b with _ => _ end) _ => destruct b end; apply ext_tho_expand.
Qed.
Lemma ext_delatorre ev a : ext (delatorre2018 (with_fuel n ev) a) (delatorre2018 (with_fuel m ev) a).
Proof.
  unfold delatorre2018. apply ext_validated. intros r1 r2. cbv zeta.
  change (e_clock (with_fuel m ev)) with (e_clock (with_fuel n ev)). change (e_fuel (with_fuel m ev)) with m. change (e_fuel (with_fuel n ev)) with n.
  eb. unfold tor_find_z. eb.
  destruct (_ =? _)%Z; [|er]. unfold tor_initial_bracket. cbv zeta. apply ext_fext. unfold tor_expand. now apply fext_while.
Qed.
(** Once a number of passes is enough for a call, a larger number gives the same
    result: the bound is no part of what is computed. *)
Theorem C53_fuel_irrelevant (s : solver) (ev : env) (a : args) :
  run s (with_fuel n ev) a <> Err OutOfFuel ->
  run s (with_fuel m ev) a = run s (with_fuel n ev) a.
Proof.
  assert (H : ext (run s (with_fuel n ev) a) (run s (with_fuel m ev) a)); [|destruct H as [H|H]; [congruence|auto]].
  destruct s; cbn [run with_fuel e_clock e_fuel]; try apply ext_refl.
  - apply ext_jiang.
  - apply ext_pan.
  - apply ext_gooding.
  - apply ext_der.
  - apply ext_thorne.
  - apply ext_vallado.
  - apply ext_delatorre.
Qed.
End Bounds.
End Fuel.
Print Assumptions C53_fuel_irrelevant.

(** ** The solvers without an open-ended loop *)
Definition bounded_solver (s : solver) : Prop :=
  s = Gauss \/ s = Battin \/ s = Avanzini \/ s = Arora \/ s = Izzo \/ s = Negrete \/ s = McElreath.

Theorem C53_bounded_solvers {N : Num} (s : solver) : bounded_solver s ->
  forall a ev, scipy_exceptions ev -> run s ev a <> Err OutOfFuel.
Proof.
  intros B a ev HE H. apply (C54_exceptions s ev a _ HE) in H. cbn in H.
  destruct B as [->|[->|[->|[->|[->|[->| ->]]]]]]; repeat (destruct H as [H|H]; [discriminate|]); exact H.
Qed.
Print Assumptions C53_bounded_solvers.

(** vallado2013 has no open-ended loop on the long way either. *)
Theorem C53_vallado_long_way {N : Num} (a : args) (r1 r2 : vec num) :
  as_vec (a_r1 a) = Ok r1 -> as_vec (a_r2 a) = Ok r2 ->
  nltb (nofZ 0) (val_get_A (norm r1) (norm r2) (get_transfer_angle r1 r2 (a_is_prograde a))) = false ->
  forall ev, run Vallado ev a <> Err OutOfFuel.
Proof.
  intros E1 E2 HA ev. cbn [run]. unfold vallado2013, validated. rewrite E1, E2.
  set (P := fun e => e <> OutOfFuel).
  assert (PV : forall m, P (ValueError m)) by (intros m; discriminate).
  assert (PR : forall m, P (RuntimeError m)) by (intros m; discriminate).
  destruct (assert_parameters_are_valid _ _ _ _ _) as [[]|e] eqn:EV; cbn [bind].
  2: { assert (V := ro_validated (N := N) P PV (A := unit) a (fun _ _ => Ok tt)). unfold ro, validated in V. rewrite EV in V. cbn [bind] in V.
       intros H. apply (V (fun _ _ => ro_ok P tt) e eq_refl). congruence. }
  cbv zeta. destruct (neqb _ _); [discriminate|].
  match goal with |- (match ?f with _ => _ end) <> _ => assert (HX : fo P f) end.
  { apply fo_for. intros i [[psi lo] up]. unfold val_body. rewrite HA. cbv zeta.
    match goal with |- fo P (if ?b then _ else _) => destruct b end; [apply fo_break|apply fo_next]. }
  destruct (for_range _ _ _ _) as [[[? ?] ?]|?|e]; [|discriminate|].
  - unfold time_per_iteration. destruct (a_full_output a); [destruct (_ =? _)%Z|]; cbn [bind]; try discriminate;
      match goal with |- (match ?x with pair _ _ => _ end) <> _ => destruct x end; discriminate.
  - intros H. apply (HX e eq_refl). congruence.
Qed.
Print Assumptions C53_vallado_long_way.

(** ** What is left of termination: the open-ended loop itself *)
Ltac ro1 := lazymatch goal with
  | |- ro _ (bind _ _) => apply ro_bind; [|intros ? ?]
  | |- ro _ (Ok _) => apply ro_ok
  | |- ro _ (Err _) => first [apply ro_err; discriminate | exfalso; eapply while_true_not_next; eassumption]
  | |- ro _ (raise_if _ _) => apply ro_raise_if; discriminate
  | |- ro _ (time_per_iteration _ _ _) => apply ro_tpi; left; assumption
  | |- ro _ (assert_transfer_angle_not_zero _) => unfold assert_transfer_angle_not_zero
  | |- ro _ (assert_transfer_angle_not_pi _) => unfold assert_transfer_angle_not_pi
  | |- ro _ (if true then _ else _) => cbv iota
  | |- ro _ (if false then _ else _) => cbv iota
  | |- ro _ (if ?b then _ else _) => destruct b eqn:?
  | |- fo _ (if ?b then _ else _) => destruct b eqn:?
  | |- fo _ (Break _) => apply fo_break
  | |- fo _ (Next _) => apply fo_next
  | |- fo _ (Raise _) => apply fo_raise; discriminate
  | |- ro _ (match ?f with Break _ => _ | Next _ => _ | Raise _ => _ end) => apply ro_fo; [|reflexivity|intros ? ?|intros ? ?]
  | |- ro _ (match ?x with pair _ _ => _ end) => destruct x
  | |- fo _ (match ?x with pair _ _ => _ end) => destruct x
  | |- fo _ (for_range _ _ _ _) => apply fo_for; intros ? ?
  end.
Ltac ros := cbv zeta; repeat (ro1; cbv zeta).
Section Ends.
Context {N : Num}.
Let P (e : exn) : Prop := e <> OutOfFuel.
Let PV : forall m, P (ValueError m). Proof. intros m. discriminate. Qed.
Let PR : forall m, P (RuntimeError m). Proof. intros m. discriminate. Qed.
Variable ev : env.
Hypothesis HE : scipy_exceptions ev.

(** The output flag does not matter. *)
Lemma ends_plain s a : s <> Izzo -> run s ev (with_full false a) <> Err OutOfFuel -> run s ev a <> Err OutOfFuel.
Proof.
  intros HI H K. destruct (a_full_output a) eqn:EF; rewrite (with_full_id a), EF in K; [|contradiction].
  destruct (C21_exceptions s ev (e_clock ev) a _ HI K) as [K'|[E _]]; [|discriminate]. apply H. destruct ev. exact K'.
Qed.
Lemma validated_ends {A} a (k : vec num -> vec num -> res A) :
  (forall r1 r2, as_vec (a_r1 a) = Ok r1 -> as_vec (a_r2 a) = Ok r2 -> ro P (k r1 r2)) -> ro P (validated a k).
Proof.
  intros H. pose proof (ro_validated P PV a (fun _ _ => Ok tt) (fun _ _ => ro_ok P tt)) as V. unfold validated in *.
  destruct (assert_parameters_are_valid _ _ _ _ _); cbn [bind] in *; [|intros e' E; apply V; congruence].
  destruct (as_vec (a_r1 a)) eqn:E1; cbn [bind] in *; [|intros e' E; apply V; congruence].
  destruct (as_vec (a_r2 a)) eqn:E2; cbn [bind] in *; [|intros e' E; apply V; congruence]. now apply H.
Qed.

Lemma gooding_ends a :
  (forall r1 r2, as_vec (a_r1 a) = Ok r1 -> as_vec (a_r2 a) = Ok r2 ->
     goo_reduce (e_fuel ev) (nadd (nmul (nmul (nofZ 2) npi) (nofZ (a_M a))) (get_transfer_angle r1 r2 (a_is_prograde a))) <> Raise OutOfFuel) ->
  run Gooding ev a <> Err OutOfFuel.
Proof.
  intros H. apply ends_plain; [discriminate|]. cbn [run]. intros K. revert K.
  set (b := with_full false a). assert (HF : a_full_output b = false) by reflexivity.
  assert (HL : ro P (gooding1990 ev b)); [|intros K; exact (HL _ K eq_refl)].
  unfold gooding1990. rewrite HF. apply validated_ends. intros r1 r2 E1 E2. specialize (H r1 r2 E1 E2). ros.
  unfold vlamb. ros.
  - intros e E. destruct e; try discriminate. exfalso. apply H. exact E.
  - unfold xlamb. ros; try (unfold goo_finish; destruct (xlamb_iter _ _ _ _ _ _ _ _); ros; apply ro_tpi; now left).
    unfold goo_min_body. ros.
Qed.

Lemma delatorre_ends a :
  (forall r1 r2, as_vec (a_r1 a) = Ok r1 -> as_vec (a_r2 a) = Ok r2 -> a_M a = 0%Z ->
     ro P (tor_initial_bracket (nadd (norm r1) (norm r2))
       (nmul (nmul (nofZ 2) (nsqrt (nmul (norm r1) (norm r2)))) (ncos (ndiv (get_transfer_angle r1 r2 (a_is_prograde a)) (nofZ 2))))
       (a_mu a) (a_tof a) (e_fuel ev))) ->
  run Delatorre ev a <> Err OutOfFuel.
Proof.
  intros H. cbn [run]. assert (HL : ro P (delatorre2018 ev a)); [|intros K; exact (HL _ K eq_refl)].
  unfold delatorre2018. apply validated_ends. intros r1 r2 E1 E2. specialize (H r1 r2 E1 E2). ros.
  - unfold tor_find_z. ros.
    + apply H. now apply Z.eqb_eq.
    + unfold tor_solve_bracketed. ros. unfold tor_newton_body. ros.
  - apply ro_tpi. right. match goal with H : tor_find_z _ _ _ _ _ _ _ _ _ _ = Ok _ |- _ => apply tor_find_within in H; unfold within in H; lia end.
Qed.

Lemma der_ends a :
  (forall r1 r2, as_vec (a_r1 a) = Ok r1 -> as_vec (a_r2 a) = Ok r2 -> (a_M a <= 0)%Z ->
     let m := nadd (nadd (norm r1) (norm r2)) (norm (vsub r2 r1)) in
     let sigma := der_sigma (norm r1) (norm r2) m (get_transfer_angle r1 r2 (a_is_prograde a)) in
     let tau := der_normalized_time (a_mu a) m (a_tof a) in
     while_true (fun upper => if nltb (nofZ 0) (der_hyperbolic_equation sigma tau upper) then Next (nmul upper (nofZ 2)) else @Break num num upper)
       (e_fuel ev) (nofZ 2) <> Raise OutOfFuel) ->
  run Der ev a <> Err OutOfFuel.
Proof.
  intros H. apply ends_plain; [discriminate|]. cbn [run]. intros K. revert K.
  set (b := with_full false a). assert (HF : a_full_output b = false) by reflexivity.
  assert (HL : ro P (der2011 ev b)); [|intros K; exact (HL _ K eq_refl)].
  unfold der2011. apply validated_ends. intros r1 r2 E1 E2. specialize (H r1 r2 E1 E2). cbv zeta in H. ros.
  - unfold der_minimum_time.
    destruct (e_brentq _ _ _ _ _ _ _) as [[? ?]|e] eqn:E; [ros|]. apply (ro_brentq P PV PR ev HE) in E; [|intros ?; ros].
    destruct e; try (apply ro_err; exact E). ros. unfold der_minimum_body. ros.
  - unfold der_find_path_parameter. ros.
    + unfold der_solve_elliptic. destruct (for_range _ _ _ _) as [[|]| |]; ros;
      unfold der_solve_elliptic_bracketed; ros; apply (ro_reraise P PV), (ro_brentq P PV PR ev HE); intros ?; unfold der_elliptic_equation; ros.
    + assert (HM : (a_M b <= 0)%Z).
      { match goal with X : (0 <? a_M b)%Z || _ = false |- _ => apply orb_false_iff in X; destruct X as [X _]; now apply Z.ltb_ge in X end. }
      specialize (H HM). unfold der_solve_hyperbolic. destruct (for_range _ _ _ _) as [[|]| |]; ros;
      unfold der_solve_hyperbolic_bracketed; ros;
      lazymatch goal with
      | |- fo _ _ => intros e0 E EO; subst e0; exact (H E)
      | |- _ => apply (ro_reraise P PV), (ro_brentq P PV PR ev HE); intros ?; ros
      end.
Qed.

Lemma thorne_ends a :
  (forall r1 r2, as_vec (a_r1 a) = Ok r1 -> as_vec (a_r2 a) = Ok r2 -> (a_M a <= 0)%Z ->
     let s := ndiv (nadd (nadd (norm r1) (norm r2)) (norm (vsub r2 r1))) (nofZ 2) in
     let c := norm (vsub r2 r1) in
     let mp := if nltb (get_transfer_angle r1 r2 (a_is_prograde a)) npi then nopp (nofZ 1) else nofZ 1 in
     let t_p := tho_parabolic_tof (a_mu a) s c mp in
     np_isclose (a_tof a) t_p (a_rtol a) (a_atol a) = false ->
     if nltb (a_tof a) t_p then ro P (tho_expand_lower (e_fuel ev) (a_mu a) s c (a_tof a) mp (ndiv (nopp s) (nofZ 2)))
     else ro P (tho_expand_upper (e_fuel ev) (a_mu a) s c (a_tof a) mp (if nltb (a_tof a) (tho_minimum_energy_tof (a_mu a) s c mp) then ThA else ThB) s)) ->
  run Thorne ev a <> Err OutOfFuel.
Proof.
  intros H. apply ends_plain; [discriminate|]. cbn [run]. intros K. revert K.
  set (b := with_full false a). assert (HF : a_full_output b = false) by reflexivity.
  assert (HL : ro P (thorne2004 ev b)); [|intros K; exact (HL _ K eq_refl)].
  unfold thorne2004. apply ro_bind; [ros|]. intros [] HM. 
  assert (HM' : (a_M a <= 0)%Z). { unfold raise_if in HM. change (a_M b) with (a_M a) in HM. destruct (0 <? a_M a)%Z eqn:E; [discriminate|]. now apply Z.ltb_ge in E. }
  apply validated_ends. intros r1 r2 E1 E2. specialize (H r1 r2 E1 E2 HM'). cbv zeta in H.
  ros. unfold tho_semimajor_axis. cbv zeta. 
  change (a_tof b) with (a_tof a). change (a_rtol b) with (a_rtol a). change (a_atol b) with (a_atol a). change (a_is_prograde b) with (a_is_prograde a). change (a_mu b) with (a_mu a).
  destruct (np_isclose _ _ _ _) eqn:EC; [ros|]. specialize (H eq_refl).
  apply ro_bind.
  - match type of H with if ?x then _ else _ => destruct x end; ros; exact H.
  - intros [[br lo] hi] _. ros. apply (ro_brentq P PV PR ev HE). intros ?. ros. apply (ro_lagrange P PV).
Qed.
End Ends.
