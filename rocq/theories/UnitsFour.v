(** * Lemmas for C30, part 4: delatorre2018 and vallado2013. *)
From Coq Require Import Reals ZArith String List Bool Lra Lia FunctionalExtensionality.
Import ListNotations.
From Verif Require Import Num XReal XRealLemmas MApi MAssertions MLinalg MAngles MScipy MComplex MKepler MElements MGauss MBattin MJiang MPan
  MGooding MDer MThorne MAvanzini MArora MVallado MIzzo MNegrete MMcelreath MDelatorre MInit
  Spec VecFacts VecXR AnglesXR CallXR ScaleXR GodalXR PropertiesAngles PropertiesMotion PropertiesOrbit UnitsOne.
Local Open Scope R_scope.
Section R.
Variables (a T : R).
Hypothesis Ha : 0 < a.
Hypothesis HT : 0 < T.
Notation D2 := (dim a T 2 0).
Notation Dm := (dim a T 6 (-2)).
Notation Dt := (dim a T 0 1).

Lemma dim_isfinite i j x : @nisfinite XR (dim a T i j x) = @nisfinite XR x.
Proof. Transparent dim. unfold dim. destruct x; reflexivity. Qed.
#[local] Opaque dim.
Lemma tor_tof_units P Q m z M : @tor_tof XR (D2 P) (D2 Q) (Dm m) z M = Dt (@tor_tof XR P Q m z M).
Proof. unfold tor_tof. cbv zeta. scalew Ha HT. destruct (M =? 0)%Z; [reflexivity|]. scalew Ha HT. reflexivity. Qed.
Lemma tor_der_units P Q m z M lo hi : @tor_tof_derivative XR (D2 P) (D2 Q) (Dm m) z M lo hi = Dt (@tor_tof_derivative XR P Q m z M lo hi).
Proof.
  unfold tor_tof_derivative. cbv zeta. rewrite !tor_tof_units. scalew Ha HT. destruct (nleb _ _); [|reflexivity].
  apply dim_0.
Qed.
Definition flow_pair (i j : Z) (f : flow (xr * Z) (xr * xr * xr * xr)) : flow (xr * Z) (xr * xr * xr * xr) :=
  match f with Next (z, lo, hi, fl) => Next (z, lo, hi, dim a T i j fl) | x => x end.
Lemma tor_newton_units P Q m t M tol n z lo hi fl :
  @tor_newton_body XR (fun z => @nsub XR (@tor_tof XR (D2 P) (D2 Q) (Dm m) z M) (Dt t))
    (fun z lo hi => @tor_tof_derivative XR (D2 P) (D2 Q) (Dm m) z M lo hi) (Dt tol) n (z, lo, hi, Dt fl)
  = flow_pair 0 1 (@tor_newton_body XR (fun z => @nsub XR (@tor_tof XR P Q m z M) t)
    (fun z lo hi => @tor_tof_derivative XR P Q m z M lo hi) tol n (z, lo, hi, fl)).
Proof.
  unfold tor_newton_body. rewrite !tor_tof_units. scalew Ha HT.
  destruct (nleb _ _); [reflexivity|]. change (@num XR) with xr.
  match goal with |- context [if @nleb XR ?u ?v then _ else _] => destruct (@nleb XR u v) end;
  rewrite !tor_der_units, !dim_isfinite; scalew Ha HT; reflexivity.
Qed.
Lemma tor_min_units P Q m M at_ rt gr n z1 z2 z3 z4 t1 t2 :
  @tor_min_body XR (D2 P) (D2 Q) (Dm m) M at_ rt gr n (z1, z2, z3, z4, Dt t1, Dt t2)
  = match @tor_min_body XR P Q m M at_ rt gr n (z1, z2, z3, z4, t1, t2) with
    | Next (z1, z2, z3, z4, t1, t2) => Next (z1, z2, z3, z4, Dt t1, Dt t2) | Break x => Break x | Raise e => Raise e end.
Proof.
  unfold tor_min_body. scalew Ha HT. change (@num XR) with xr.
  match goal with |- context [if @nltb XR ?u ?v then _ else _] => destruct (@nltb XR u v) end;
  rewrite !tor_tof_units; match goal with |- context [if @nleb XR ?u ?v then _ else _] => destruct (@nleb XR u v) end; reflexivity.
Qed.
(** Loops over scaled states. *)
Lemma for_range_rel {A S S' : Type} (f : Z -> S -> flow A S) (g : Z -> S' -> flow A S') (h : S -> S') :
  (forall i s, g i (h s) = match f i s with Next s' => Next (h s') | Break x => Break x | Raise e => Raise e end) ->
  forall n i s, for_range g n i (h s) = match for_range f n i s with Next s' => Next (h s') | Break x => Break x | Raise e => Raise e end.
Proof.
  intros H n. induction n; intros i s; cbn [for_range]; [reflexivity|]. rewrite H. destruct (f i s); auto.
Qed.
Lemma tor_minimum_units P Q m M at_ rt : @tor_find_minimum_time XR (D2 P) (D2 Q) (Dm m) M at_ rt
  = let '(z, t) := @tor_find_minimum_time XR P Q m M at_ rt in (z, Dt t).
Proof.
  unfold tor_find_minimum_time. cbv zeta. rewrite !tor_tof_units.
  set (gr := @ndiv XR _ _). set (z1 := @nsub XR (@nsub XR _ _) _). set (z2 := @nadd XR _ _). set (hi := @nsub XR (@sq XR _) _).
  change (@tor_1em12 XR, hi, z1, z2, Dt (@tor_tof XR P Q m z1 M), Dt (@tor_tof XR P Q m z2 M))
    with ((fun s : xr * xr * xr * xr * xr * xr => let '(u, v, w, x, t1, t2) := s in (u, v, w, x, Dt t1, Dt t2))
      (@tor_1em12 XR, hi, z1, z2, @tor_tof XR P Q m z1 M, @tor_tof XR P Q m z2 M)).
  rewrite (for_range_rel (@tor_min_body XR P Q m M at_ rt gr)).
  - destruct (for_range _ _ _ _) as [[u v]|[[[[[u v] w] x] t1] t2]|e]; rewrite tor_tof_units; reflexivity.
  - intros i [[[[[u v] w] x] t1] t2]. rewrite tor_min_units.
    destruct (tor_min_body _ _ _ _ _ _ _ _ _) as [?|[[[[[? ?] ?] ?] ?] ?]|?]; reflexivity.
Qed.
Lemma tor_bracketed_units P Q m t M lo hi mi at_ rt : 
  @tor_solve_bracketed XR (D2 P) (D2 Q) (Dm m) (Dt t) M lo hi mi (Dt at_) rt = @tor_solve_bracketed XR P Q m t M lo hi mi at_ rt.
Proof.
  unfold tor_solve_bracketed. cbv zeta. rewrite !tor_tof_units. scalew Ha HT.
  destruct (neqb _ _); [reflexivity|]. destruct (neqb _ _); [reflexivity|]. destruct (nltb _ _); [reflexivity|].
  match goal with |- context [(?z0, lo, hi, Dt ?fl0)] => set (z := z0); set (fl := fl0) end.
  match goal with |- context [tor_newton_body _ _ (Dt ?t0) ] => set (tol := t0) end.
  change (z, lo, hi, Dt fl) with ((fun s : xr * xr * xr * xr => let '(u, v, w, x) := s in (u, v, w, Dt x)) (z, lo, hi, fl)).
  rewrite (for_range_rel (@tor_newton_body XR (fun z => @nsub XR (@tor_tof XR P Q m z M) t) (fun z lo hi => @tor_tof_derivative XR P Q m z M lo hi) tol)).
  - destruct (for_range _ _ _ _) as [?|[[[? ?] ?] ?]|?]; reflexivity.
  - intros i [[[u v] w] x]. rewrite tor_newton_units. unfold flow_pair.
    destruct (tor_newton_body _ _ _ _ _) as [?|[[[? ?] ?] ?]|?]; reflexivity.
Qed.
Lemma tor_find_units fuel P Q m t M l mi at_ rt : (M = 0%Z \/ Dt at_ = at_) ->
  @tor_find_z XR fuel (D2 P) (D2 Q) (Dm m) (Dt t) M l mi (Dt at_) rt = @tor_find_z XR fuel P Q m t M l mi at_ rt.
Proof.
  intros HM. unfold tor_find_z. destruct (Z.eqb_spec M 0) as [E|E].
  - assert (B : @tor_initial_bracket XR (D2 P) (D2 Q) (Dm m) (Dt t) fuel = @tor_initial_bracket XR P Q m t fuel).
    { unfold tor_initial_bracket. cbv zeta. scalew Ha HT. unfold tor_expand.
      match goal with |- match while_true ?f _ _ with _ => _ end = match while_true ?g _ _ with _ => _ end => assert (EF : f = g) end.
      { extensionality z. rewrite tor_tof_units. scalew Ha HT. reflexivity. }
      rewrite EF. destruct (while_true _ _ _); try reflexivity. rewrite tor_tof_units. scalew Ha HT. reflexivity. }
    rewrite B. clear B. destruct (@tor_initial_bracket XR P Q m t fuel) as [[lo hi]|]; [|reflexivity]. cbn [bind]. apply tor_bracketed_units.
  - destruct HM as [HM|HM]; [contradiction|]. 
    pose proof (fun lo hi => tor_bracketed_units P Q m t M lo hi mi at_ rt) as BU. rewrite HM in *. rewrite tor_minimum_units.
    destruct (tor_find_minimum_time _ _ _ _ _ _) as [zm tm]. scalew Ha HT.
    destruct (nltb _ _); [reflexivity|]. destruct l; cbn [bind]; apply BU.
Qed.
Variables (mu : R) (r1 r2 : rvec) (tof : R) (M : Z) (p l : bool) (mi : Z) (at_ rt : R) (fo : bool).
Notation K := (fac a T 2 (-1)).
Ltac start := apply (validated_scale a T Ha HT); intros (_ & H1 & _);
  cbn [call a_mu a_tof a_M a_is_prograde a_is_low_path a_maxiter a_atol a_rtol a_full_output]; rewrite ?dim_F.
Lemma validated_atol at1 at2 (k : vec xr -> vec xr -> res (@out XR)) m q1 q2 t :
  @validated XR _ (call m q1 q2 t M p l mi at1 rt fo) k = @validated XR _ (call m q1 q2 t M p l mi at2 rt fo) k.
Proof. reflexivity. Qed.
Lemma delatorre_units ev : (M = 0%Z \/ at_ = 0) -> 
  @delatorre2018 XR ev (call (fac a T 6 (-2) * mu) (vmult (fac a T 2 0) r1) (vmult (fac a T 2 0) r2) (fac a T 0 1 * tof) M p l mi (fac a T 0 1 * at_) rt fo)
  = res_scale K (@delatorre2018 XR ev (call mu r1 r2 tof M p l mi at_ rt fo)).
Proof.
  intros HM. unfold delatorre2018. rewrite (validated_atol _ at_). start. cbv zeta. scalew Ha HT.
  rewrite tor_find_units.
  2: { destruct HM as [HM|HM]; [left; exact HM|right]. subst at_. rewrite <- dim_F. apply (f_equal Fin). ring. }
  destruct (tor_find_z _ _ _ _ _ _ _ _ _ _) as [[z n]|]; [|reflexivity]. cbn [bind].
  unfold tor_velocities. cbv zeta. scalew Ha HT.
  destruct (time_per_iteration _ _ _); [|reflexivity]. cbn [bind]. apply out_dim.
Qed.
Notation c := (call mu r1 r2 tof M p l mi at_ rt fo).
Notation c' := (call (fac a T 6 (-2) * mu) (vmult (fac a T 2 0) r1) (vmult (fac a T 2 0) r2) (fac a T 0 1 * tof) M p l mi at_ rt fo).
Lemma vallado_units clock fuel : @nltb XR (@get_transfer_angle XR (vfin r1) (vfin r2) p) npi = false ->
  @vallado2013 XR clock fuel c' = res_scale K (@vallado2013 XR clock fuel c).
Proof.
  intros HP. unfold vallado2013. start. unfold val_get_A. cbv zeta. scalew Ha HT. rewrite HP.
  set (A := @nmul XR _ (@npow XR _ _)).
  assert (HA : @nltb XR (nofZ 0) A = false).
  { unfold A. rewrite pow_half_sqrt. match goal with |- context [@nsqrt XR ?x] => generalize x end. intros w. xunf. unfold xsqrt, xpart1. destruct w as [w|]; [|reflexivity].
    destruct (Rle_dec 0 w); cbn; [|reflexivity]. unfold xltb. destruct (Rlt_dec _ _) as [L|]; [exfalso|reflexivity].
    pose proof (sqrt_pos w). lra. }
  clearbody A. destruct (neqb _ _); [reflexivity|].
  set (n1 := @norm XR (vfin r1)). set (n2 := @norm XR (vfin r2)). clearbody n1 n2.
  assert (E : forall n i s, for_range (@val_body XR (Dm (Fin mu)) (Dt (Fin tof)) (Fin rt) (D2 n1) (D2 n2) (D2 A) fuel) n i s
      = match for_range (@val_body XR (Fin mu) (Fin tof) (Fin rt) n1 n2 A fuel) n i s with
        | Break (k, ps, y) => Break (k, ps, D2 y) | Next x => Next x | Raise e => Raise e end).
  { induction n; intros i [[ps lo] up]; cbn [for_range]; [reflexivity|].
    assert (B : @val_body XR (Dm (Fin mu)) (Dt (Fin tof)) (Fin rt) (D2 n1) (D2 n2) (D2 A) fuel i (ps, lo, up)
      = match @val_body XR (Fin mu) (Fin tof) (Fin rt) n1 n2 A fuel i (ps, lo, up) with
        | Break (k, ps, y) => Break (k, ps, D2 y) | Next x => Next x | Raise e => Raise e end).
    { clear HP. unfold val_body. cbv zeta. scalew Ha HT. rewrite HA.
      unfold val_y_at_psi, val_X_at_psi, val_tof. scalew Ha HT. destruct (@nltb XR (@nabs XR _) _); reflexivity. }
    rewrite B. clear B. destruct (@val_body XR _ _ _ _ _ _ _ _ _) as [[[? ?] ?]| |]; auto. }
  rewrite E. destruct (for_range _ _ _ _) as [[[k ps] y]| |]; try reflexivity.
  destruct (time_per_iteration _ _ _); [|reflexivity]. cbn [bind]. unfold val_velocities. cbv zeta. scalew Ha HT. apply out_dim.
Qed.
End R.
