(** * Which exceptions leave a call: C54.

    Everything here holds in every number system. *)
From Coq Require Import String ZArith List Bool Lia.
Import ListNotations.
From Verif Require Import Num MApi ApiFacts MLinalg MScipy MAssertions MAngles MVallado MGauss MIzzo MBattin
  MArora MDelatorre MGooding MJiang MPan MDer MThorne MAvanzini MMcelreath MNegrete MInit Loops
  PropertiesFlags PropertiesBudget.

(** The scipy routines raise nothing but ValueError, RuntimeError and what the
    function they are given raises. *)
Definition scipy_exceptions {N : Num} (ev : env) : Prop :=
  forall P : exn -> Prop, (forall m, P (ValueError m)) -> (forall m, P (RuntimeError m)) ->
  forall f, (forall x e, f x = Err e -> P e) ->
  (forall lo hi xtol rtol n e, e_brentq ev f lo hi xtol rtol n = Err e -> P e) /\
  (forall lo hi xtol e, e_minimize ev f lo hi xtol = Err e -> P e).

Section Exceptions.
Context {N : Num}.
Variable P : exn -> Prop.
Hypothesis PV : forall m, P (ValueError m).
Hypothesis PR : forall m, P (RuntimeError m).

Definition ro {A} (r : res A) : Prop := forall e, r = Err e -> P e.
Definition fo {A S} (f : flow A S) : Prop := forall e, f = Raise e -> P e.

Lemma ro_ok {A} (x : A) : ro (Ok x). Proof. intros e H. discriminate. Qed.
Lemma ro_err {A} e : P e -> ro (@Err A e). Proof. intros H e' E. inversion E. subst. exact H. Qed.
Lemma ro_bind {A B} (m : res A) (k : A -> res B) : ro m -> (forall x, m = Ok x -> ro (k x)) -> ro (bind m k).
Proof. destruct m; cbn [bind]; intros H K; [now apply K|]. intros e' E. apply H. inversion E. reflexivity. Qed.
Lemma ro_raise_if c e : P e -> ro (raise_if c e).
Proof. intros H. destruct c; [now apply ro_err|apply ro_ok]. Qed.
Lemma fo_for {A S} (body : Z -> S -> flow A S) n : (forall i s, fo (body i s)) -> forall i s, fo (for_range body n i s).
Proof.
  intros H. induction n as [|n IH]; intros i s; cbn [for_range]; [intros e E; discriminate|].
  destruct (body i s) eqn:E; [intros e' E'; discriminate|apply IH|]. intros e' E'. apply (H i s). congruence.
Qed.
Lemma fo_while {A S} (body : S -> flow A S) n : P OutOfFuel -> (forall s, fo (body s)) -> forall s, fo (while_true body n s).
Proof.
  intros HP H. induction n as [|n IH]; intros s; cbn [while_true]; [intros e E; inversion E; subst; exact HP|].
  destruct (body s) eqn:E; [intros e' E'; discriminate|apply IH|]. intros e' E'. apply (H s). congruence.
Qed.
Lemma fo_break {A S} (a : A) : fo (@Break A S a). Proof. intros e H. discriminate. Qed.
Lemma fo_next {A S} (s : S) : fo (@Next A S s). Proof. intros e H. discriminate. Qed.
Lemma fo_raise {A S} e : P e -> fo (@Raise A S e). Proof. intros H e' E. inversion E. subst. exact H. Qed.
Lemma ro_fo {A S B} (f : flow A S) (kb : A -> res B) (kn : S -> res B) (ke : exn -> res B) :
  fo f -> (forall e, ke e = Err e) -> (forall x, f = Break x -> ro (kb x)) -> (forall s, f = Next s -> ro (kn s)) ->
  ro (match f with Break x => kb x | Next s => kn s | Raise e => ke e end).
Proof. intros H E HB HN. destruct f; [now apply HB|now apply HN|]. rewrite E. apply ro_err. now apply H. Qed.
Lemma ro_as_vec r : ro (as_vec r).
Proof. unfold as_vec. destruct r as [|? [|? [|? [|? ?]]]]; first [apply ro_ok|apply ro_err, PV]. Qed.
Lemma ro_validated {A} a (k : vec num -> vec num -> res A) : (forall r1 r2, ro (k r1 r2)) -> ro (validated a k).
Proof.
  intros H. unfold validated. apply ro_bind.
  - unfold assert_parameters_are_valid, assert_gravitational_parameter_is_positive, assert_position_vectors_are_valid,
      assert_position_vector_is_valid, assert_time_of_flight_is_positive, assert_number_of_revolutions_not_negative, all_equal.
    repeat first [ apply ro_bind; [|intros ? _] | apply ro_raise_if, PV | apply ro_ok | apply ro_err, PV
                 | match goal with |- ro (if ?b then _ else _) => destruct b end
                 | match goal with |- ro (match ?b with _ => _ end) => destruct b end ].
  - intros _ _. apply ro_bind; [apply ro_as_vec|]. intros r1 _. apply ro_bind; [apply ro_as_vec|]. intros r2 _. apply H.
Qed.
Lemma ro_tpi c full n : full = false \/ n <> 0%Z -> ro (time_per_iteration c full n).
Proof.
  unfold time_per_iteration. intros H. destruct full; [|apply ro_ok]. destruct (Z.eqb_spec n 0); [destruct H; [discriminate|contradiction]|apply ro_ok].
Qed.

Ltac ro1 := lazymatch goal with
  | |- ro (validated _ _) => apply ro_validated; intros ? ?
  | |- ro (bind _ _) => apply ro_bind; [|intros ? ?]
  | |- ro (Ok _) => apply ro_ok
  | |- ro (Err _) => apply ro_err; solve [auto]
  | |- ro (raise_if _ _) => apply ro_raise_if; solve [auto]
  | |- ro (time_per_iteration _ _ _) => apply ro_tpi; left; assumption
  | |- ro (as_vec _) => apply ro_as_vec
  | |- ro (assert_transfer_angle_not_zero _) => unfold assert_transfer_angle_not_zero
  | |- ro (assert_transfer_angle_not_pi _) => unfold assert_transfer_angle_not_pi
  | |- ro (if true then _ else _) => cbv iota
  | |- ro (if false then _ else _) => cbv iota
  | |- ro (if ?b then _ else _) => destruct b
  | |- fo (if ?b then _ else _) => destruct b
  | |- fo (Break _) => apply fo_break
  | |- fo (Next _) => apply fo_next
  | |- fo (Raise _) => apply fo_raise; solve [auto]
  | |- ro (match ?f with Break _ => _ | Next _ => _ | Raise _ => _ end) => apply ro_fo; [|reflexivity|intros ? ?|intros ? ?]
  | |- ro (match ?x with pair _ _ => _ end) => destruct x
  | |- fo (match ?x with pair _ _ => _ end) => destruct x
  | |- fo (for_range _ _ _ _) => apply fo_for; intros ? ?
  end.
Ltac ros := cbv zeta; repeat (ro1; cbv zeta).

Lemma ro_gauss c a : a_full_output a = false -> P (UnboundLocalError "deltaAnomaly") -> ro (gauss1809 c a).
Proof.
  intros HF PU. unfold gauss1809. ros.
  - unfold gau_body. ros.
  - unfold gau_delta_anomaly. ros.
Qed.
Lemma ro_battin c a : a_full_output a = false -> ro (battin1984 c a).
Proof. intros HF. unfold battin1984. ros. unfold bat_body. ros. Qed.
Lemma ro_izzo a : P AssertionError -> (a_full_output a = true -> P (TypeError "got an unexpected keyword argument 'full_output'")) -> ro (izzo2015 a).
Proof.
  intros PA PT. unfold izzo2015. apply ro_bind; [destruct (a_full_output a); [now apply ro_err, PT|apply ro_ok]|]. intros _ _. ros.
  unfold izzo_find_xy. ros.
  - unfold izzo_T_min. ros. unfold izzo_halley. ros. unfold izzo_halley_body. ros.
  - unfold izzo_householder. ros. unfold izzo_householder_body. ros.
Qed.
Lemma ro_geometry r1 r2 p : ro (get_geometry r1 r2 p).
Proof. unfold get_geometry. ros. Qed.
Lemma ro_rotation x k : ro (MElements.rotation_matrix x k).
Proof. unfold MElements.rotation_matrix. ros. Qed.
Lemma ro_coe2rv k p ecc inc raan argp nu : ro (MElements.coe2rv k p ecc inc raan argp nu).
Proof. unfold MElements.coe2rv, MElements.coe_rotation_matrix. ros; apply ro_rotation. Qed.
Lemma ro_ava_f x h mu g t : ro (ava_f x h mu g t).
Proof. unfold ava_f, kepler_tof_at_eccT, MKepler.kepler_from_nu. ros. Qed.
Lemma ro_avanzini ev a : a_full_output a = false -> ro (avanzini2008 ev a).
Proof.
  intros HF. unfold avanzini2008. ros.
  - apply ro_geometry.
  - unfold ava_secant. ros; try apply ro_ava_f. unfold ava_secant_body. ros.
    match goal with |- fo (match ?r with Ok _ => _ | Err _ => _ end) => destruct r eqn:E end; [apply fo_next|apply fo_raise; exact (ro_ava_f _ _ _ _ _ _ E)].
  - unfold ava_velocities, coe_at_eccT. ros; first [apply ro_geometry|apply ro_coe2rv].
Qed.
Lemma ro_aro_W k M : ro (aro_W k M).
Proof. unfold aro_W. ros. Qed.
Lemma ro_neg_real z at_ rt : ro (neg_real_solution z at_ rt).
Proof. unfold neg_real_solution. ros. Qed.
Lemma ro_neg_refine z zl zh mu n1 n2 A t n at_ rt : ro (neg_refine_single_root z zl zh mu n1 n2 A t n at_ rt).
Proof. unfold neg_refine_single_root, neg_refine_once. ros; apply ro_neg_real. Qed.
Lemma ro_mce_desired x t s m M lo hi n rt : ro (mce_solve_desired_x x t s m M lo hi n rt).
Proof. unfold mce_solve_desired_x. ros. unfold mce_desired_body. ros. Qed.
Variable ev : @env N.
Hypothesis HE : scipy_exceptions ev.
Lemma ro_brentq f lo hi xt rt n : (forall x, ro (f x)) -> ro (e_brentq ev f lo hi xt rt n).
Proof. intros H e. apply (proj1 (HE P PV PR f H)). Qed.
Lemma ro_minimize f lo hi xt : (forall x, ro (f x)) -> ro (e_minimize ev f lo hi xt).
Proof. intros H e. apply (proj2 (HE P PV PR f H)). Qed.
Lemma ro_arora a : a_full_output a = false -> P (UnboundLocalError "k") -> ro (arora2013 ev a).
Proof.
  intros HF PU. unfold arora2013. ros.
  - unfold aro_guess_hyperbolic. ros; apply ro_aro_W.
  - unfold aro_multirev_k_guess. ros.
    + apply ro_minimize. intros ?. ros. apply ro_aro_W.
    + apply ro_brentq. intros ?. ros. apply ro_aro_W.
  - unfold aro_body. destruct (aro_W _ _) eqn:E; [|apply fo_raise; exact (ro_aro_W _ _ _ E)]. ros.
Qed.
Lemma ro_negrete a : a_full_output a = false -> ro (negrete2024 ev a).
Proof.
  intros HF. unfold negrete2024. ros. unfold neg_find_z. ros.
  - unfold neg_find_single. ros; try apply ro_neg_real; try apply ro_neg_refine.
    destruct (neg_hyperbolic_contour _ _ _ _ _) as [[? ?]|]; ros.
  - unfold neg_find_multi. ros; try apply ro_neg_refine.
Qed.
Lemma ro_mcelreath a : a_full_output a = false -> ro (mcelreath2025 ev a).
Proof.
  intros HF. unfold mcelreath2025. ros. unfold mce_find_x. ros.
  - unfold mce_find_single_revolution_x. ros. apply ro_mce_desired.
  - unfold mce_find_multi_revolution_x. ros; try apply ro_mce_desired.
    unfold mce_solve_minimum_x. ros. unfold mce_minimum_body. ros.
Qed.
Hypothesis PO : P OutOfFuel.
Lemma ro_vallado c n a : a_full_output a = false -> ro (vallado2013 c n a).
Proof.
  intros HF. unfold vallado2013. ros. unfold val_body. ros.
  match goal with |- fo (match ?f with Break _ => _ | Next _ => _ | Raise _ => _ end) => assert (HX : fo f); [|destruct f eqn:E; [|apply fo_next|apply fo_raise; now apply HX]] end.
  - ros. unfold val_readjust. apply fo_while; [exact PO|]. intros [[? ?] ?]. ros.
  - ros.
Qed.
Lemma ro_jia_solve f lo hi n at_ rt : ro (jia_solve_semimajor_axis f lo hi n at_ rt).
Proof. unfold jia_solve_semimajor_axis. ros. unfold jia_newton_body. ros. Qed.
Lemma ro_jiang a : a_full_output a = false -> ro (jiang2016 ev a).
Proof.
  intros HF. unfold jiang2016. ros. unfold jia_solve_p. ros.
  - unfold jia_find_and_solve_elliptic. ros; [|apply ro_jia_solve]. unfold jia_elliptic_bracket. ros.
    unfold jia_expand_elliptic. apply fo_while; [exact PO|]. intros ?. ros.
  - unfold jia_find_and_solve_hyperbolic. ros; [|apply ro_jia_solve]. unfold jia_hyperbolic_bracket. ros.
    unfold jia_expand_hyperbolic. apply fo_while; [exact PO|]. intros ?. ros.
Qed.
Lemma ro_lagrange mu s c x mp b : ro (tho_lagrange_tof mu s c x mp b).
Proof. unfold tho_lagrange_tof. destruct b; ros. Qed.
Lemma ro_tho_expand n cond b : (forall x, ro (cond x)) -> ro (tho_expand n cond b).
Proof.
  intros H. unfold tho_expand. ros. apply fo_while; [exact PO|]. intros x. specialize (H x).
  destruct (cond x) as [[]|]; ros.
Qed.
Lemma ro_thorne a : a_full_output a = false -> ro (thorne2004 ev a).
Proof.
  intros HF. unfold thorne2004. ros. unfold tho_semimajor_axis. ros.
  - unfold tho_expand_lower. apply ro_tho_expand. intros ?. ros; apply ro_lagrange.
  - unfold tho_expand_upper. match goal with |- ro (match ?b with _ => _ end) => destruct b end; apply ro_tho_expand; intros ?; ros; apply ro_lagrange.
  - apply ro_brentq. intros ?. ros. apply ro_lagrange.
Qed.
Lemma ro_delatorre a : ro (delatorre2018 ev a).
Proof.
  unfold delatorre2018. ros.
  - unfold tor_find_z. ros.
    + unfold tor_initial_bracket. ros. unfold tor_expand. apply fo_while; [exact PO|]. intros ?. ros.
    + unfold tor_solve_bracketed. ros. unfold tor_newton_body. ros.
  - apply ro_tpi. right. match goal with H : tor_find_z _ _ _ _ _ _ _ _ _ _ = Ok _ |- _ => apply tor_find_within in H; unfold within in H; lia end.
Qed.
Lemma ro_gooding a : a_full_output a = false -> ((a_maxiter a <= 0)%Z -> P (UnboundLocalError "numiter")) -> ro (gooding1990 ev a).
Proof.
  intros HF PU. unfold gooding1990. rewrite HF. ros. unfold vlamb. ros.
  - unfold goo_reduce. apply fo_while; [exact PO|]. intros [? ?]. ros.
  - unfold xlamb. destruct (a_maxiter a <=? 0)%Z eqn:EM; [apply Z.leb_le in EM; specialize (PU EM)|clear PU].
    all: ros; try (unfold goo_finish; destruct (xlamb_iter _ _ _ _ _ _ _ _); ros; apply ro_tpi; now left).
    unfold goo_min_body. ros.
Qed.
Lemma ro_reraise {A} (r : res A) : ro r -> ro (der_reraise r).
Proof. intros H. unfold der_reraise. destruct r as [|[]]; try exact H. apply ro_err, PV. Qed.
Lemma ro_der a : a_full_output a = false -> ro (der2011 ev a).
Proof.
  intros HF. unfold der2011. ros.
  - unfold der_minimum_time. 
    destruct (e_brentq _ _ _ _ _ _ _) as [[? ?]|e] eqn:E; [ros|]. apply ro_brentq in E; [|intros ?; ros].
    destruct e; try (apply ro_err; exact E). ros. unfold der_minimum_body. ros.
  - unfold der_find_path_parameter. ros.
    + unfold der_solve_elliptic. destruct (for_range _ _ _ _) as [[|]| |]; ros;
      unfold der_solve_elliptic_bracketed; ros; apply ro_reraise, ro_brentq; intros ?; unfold der_elliptic_equation; ros.
    + unfold der_solve_hyperbolic. destruct (for_range _ _ _ _) as [[|]| |]; ros;
      unfold der_solve_hyperbolic_bracketed; ros; 
      first [apply fo_while; [exact PO|]; intros ?; ros | apply ro_reraise, ro_brentq; intros ?; ros].
Qed.
Lemma ro_pan_elements g w : ro (pan_elements g w).
Proof. unfold pan_elements. ros. Qed.
Lemma ro_pan_residual mu g t w : ro (pan_residual mu g t w).
Proof.
  unfold pan_residual, pan_tof_at_omega. ros; [apply ro_pan_elements|]. unfold pan_tof_from_elements. ros.
  - unfold pan_parabolic_tof. ros.
  - unfold pan_hyperbolic_tof, pan_hyperbolic_anomaly. ros.
Qed.
Lemma ro_pan a : a_full_output a = false -> ro (pan2016 ev a).
Proof.
  intros HF. unfold pan2016. ros; [now apply ro_vallado|].
  match goal with |- ro (match ?r with Ok _ => _ | Err _ => _ end) => assert (HX : ro r); [|destruct r as [[? ?]|[]] eqn:E] end;
    try (apply ro_err; now apply HX); [| |now apply ro_vallado].
  - unfold pan_find_omega. destruct (pan_first_bracket _ _ _) as [[? ?]|]; ros. unfold pan_bezier_root. ros; try apply ro_pan_residual.
    + unfold pan_bezier_body. ros. match goal with |- fo (match ?r with Ok _ => _ | Err _ => _ end) => destruct r eqn:E end;
        [|apply fo_raise; exact (ro_pan_residual _ _ _ _ _ E)]. ros.
    + apply ro_brentq. intros ?. apply ro_pan_residual.
  - ros; [apply ro_pan_elements|]. unfold pan_velocities. ros.
Qed.
End Exceptions.

(** ** C54 *)

(** What a call may raise: ValueError and RuntimeError, the two documented
    exceptions, and the internal errors listed here.  [OutOfFuel] stands for a
    loop without a bound on its passes (C53). *)
Definition may_raise {N : Num} (s : solver) (a : args) (e : exn) : Prop :=
  match e with
  | ValueError _ | RuntimeError _ => True
  | AssertionError => s = Izzo
  | TypeError m => s = Izzo /\ a_full_output a = true /\ m = "got an unexpected keyword argument 'full_output'"%string
  | UnboundLocalError v =>
      (s = Gauss /\ v = "deltaAnomaly"%string) \/ (s = Arora /\ v = "k"%string)
      \/ (s = Gooding /\ v = "numiter"%string /\ (a_maxiter a <= 0)%Z)
  | ZeroDivisionError => a_full_output a = true /\ timing_may_fail s a
  | OutOfFuel => In s [Jiang; Pan; Gooding; Der; Thorne; Vallado; Delatorre]
  end.

Lemma solver_izzo s : s = Izzo \/ s <> Izzo.
Proof. destruct s; (left; reflexivity) || (right; discriminate). Qed.
Lemma with_full_id {N : Num} (a : args) : a = with_full (a_full_output a) a.
Proof. destruct a. reflexivity. Qed.

Theorem C54_exceptions {N : Num} (s : solver) (ev : env) (a : args) (e : exn) :
  scipy_exceptions ev -> run s ev a = Err e -> may_raise s a e.
Proof.
  intros HE H.
  assert (PLAIN : forall e, s <> Izzo -> run s ev (with_full false a) = Err e -> may_raise s (with_full false a) e).
  { clear e H. intros e HI H. set (b := with_full false a) in *. assert (HF : a_full_output b = false) by reflexivity.
    set (P := may_raise s b). change (P e). assert (PV : forall m, P (ValueError m)) by (intros; exact I).
    assert (PR : forall m, P (RuntimeError m)) by (intros; exact I).
    destruct s; cbn [run] in H; try congruence.
    - revert H. apply ro_gauss; auto. left. auto.
    - revert H. now apply ro_battin.
    - revert H. apply ro_jiang; auto. cbn. auto.
    - revert H. apply ro_pan; auto. cbn. auto.
    - revert H. apply ro_gooding; auto. { cbn. auto. } intros HM. right. right. auto.
    - revert H. apply ro_der; auto 10. cbn. auto.
    - revert H. apply ro_thorne; auto. cbn. auto 10.
    - revert H. now apply ro_avanzini.
    - revert H. apply ro_arora; auto. right. left. auto.
    - revert H. apply ro_vallado; auto. cbn. auto 10.
    - revert H. now apply ro_negrete.
    - revert H. now apply ro_mcelreath.
    - revert H. apply ro_delatorre; auto. cbn. auto 10. }
  assert (LIFT : forall e, may_raise s (with_full false a) e -> may_raise s a e).
  { intros e' H'. destruct e'; cbn in H' |- *; try exact H'; destruct H' as [H1 H2]; [destruct H2; discriminate|discriminate]. }
  destruct (solver_izzo s) as [->|HI].
  - revert H. cbn [run]. apply ro_izzo; cbn; auto.
  - destruct (a_full_output a) eqn:EF.
    + rewrite (with_full_id a) in H. rewrite EF in H.
      destruct (C21_exceptions s ev (e_clock ev) a e HI H) as [K|[-> K]]; [|split; assumption].
      apply LIFT, PLAIN; [exact HI|]. destruct ev. exact K.
    + apply LIFT, PLAIN; [exact HI|]. rewrite (with_full_id a) in H. rewrite EF in H. exact H.
Qed.
Print Assumptions C54_exceptions.
