(** * Lemmas for C30, part 3: negrete2024. *)
From Coq Require Import Reals ZArith String List Bool Lra Lia FunctionalExtensionality.
Import ListNotations.
From Verif Require Import Num XReal XRealLemmas MApi MAssertions MLinalg MAngles MScipy MComplex MKepler MElements MGauss MBattin MJiang MPan
  MGooding MDer MThorne MAvanzini MArora MVallado MIzzo MNegrete MMcelreath MDelatorre MInit
  Spec VecFacts VecXR AnglesXR CallXR ScaleXR GodalXR PropertiesAngles PropertiesMotion PropertiesOrbit UnitsOne.
Local Open Scope R_scope.
Section R.
Variables (a T : R).
Hypothesis Ha : 0 < a.
Hypothesis HT : 0 < T.
Definition cdim (i j : Z) (z : @cplx XR) : @cplx XR := @C XR (dim a T i j (cre z)) (dim a T i j (cim z)).

Lemma cdim_00 z : cdim 0 0 z = z.
Proof. destruct z as [u v]. unfold cdim. cbn [cre cim]. now rewrite !dim_00. Qed.
Lemma cdim_cdim i j k l m n z : (i + k = m)%Z -> (j + l = n)%Z -> cdim i j (cdim k l z) = cdim m n z.
Proof. intros E1 E2. unfold cdim. cbn [cre cim]. now rewrite !(dim_dim a T Ha HT i j k l m n). Qed.
Lemma cdim_re i j z : cre (cdim i j z) = dim a T i j (cre z). Proof. reflexivity. Qed.
Lemma cdim_im i j z : cim (cdim i j z) = dim a T i j (cim z). Proof. reflexivity. Qed.
Lemma cdim_real i j x : @creal XR (dim a T i j x) = cdim i j (@creal XR x).
Proof. unfold creal, cdim. cbn [cre cim]. f_equal. apply dim_0. Qed.
Lemma cdim_add i j x y : @cadd XR (cdim i j x) (cdim i j y) = cdim i j (@cadd XR x y).
Proof. unfold cadd, cdim. cbn [cre cim]. scalew Ha HT. reflexivity. Qed.
Lemma cdim_sub i j x y : @csub XR (cdim i j x) (cdim i j y) = cdim i j (@csub XR x y).
Proof. unfold csub, cdim. cbn [cre cim]. scalew Ha HT. reflexivity. Qed.
Lemma cdim_opp i j x : @copp XR (cdim i j x) = cdim i j (@copp XR x).
Proof. unfold copp, cdim. cbn [cre cim]. scalew Ha HT. reflexivity. Qed.
Lemma cdim_mul_l i j x y : @cmul XR (cdim i j x) y = cdim i j (@cmul XR x y).
Proof. unfold cmul, cdim. cbn [cre cim]. scalew Ha HT. reflexivity. Qed.
Lemma cdim_mul_r i j x y : @cmul XR x (cdim i j y) = cdim i j (@cmul XR x y).
Proof. unfold cmul, cdim. cbn [cre cim]. scalew Ha HT. reflexivity. Qed.
Lemma cdim_scale_l i j x y : @cscale XR (dim a T i j x) y = cdim i j (@cscale XR x y).
Proof. unfold cscale, cdim. cbn [cre cim]. scalew Ha HT. reflexivity. Qed.
Lemma cdim_scale_r i j x y : @cscale XR x (cdim i j y) = cdim i j (@cscale XR x y).
Proof. unfold cscale, cdim. cbn [cre cim]. scalew Ha HT. reflexivity. Qed.
Lemma cdim_div_l i j x y : @cdiv XR (cdim i j x) y = cdim i j (@cdiv XR x y).
Proof. unfold cdiv, cdim. cbn [cre cim]. scalew Ha HT. reflexivity. Qed.
Lemma cdim_div_r i j m n x y : (- i = m)%Z -> (- j = n)%Z -> @cdiv XR x (cdim i j y) = cdim m n (@cdiv XR x y).
Proof.
  intros E1 E2. unfold cdiv, cdim. cbn [cre cim]. cbv zeta.
  rewrite !dim_mul_l, !dim_mul_r, !(dim_dim a T Ha HT i j i j _ _ _ eq_refl eq_refl), !dim_add, !dim_sub.
  rewrite !(dim_div_r a T Ha HT (i + i) (j + j) (- (i + i)) (- (j + j)) _ _ eq_refl eq_refl), !dim_div_l.
  rewrite !(dim_dim a T Ha HT _ _ _ _ m n) by lia. reflexivity.
Qed.
Lemma cdim_sqrt i j m n x : (m + m = i)%Z -> (n + n = j)%Z -> @csqrt XR (cdim i j x) = cdim m n (@csqrt XR x).
Proof.
  intros E1 E2. unfold csqrt, cabs, cdim. cbn [cre cim]. cbv zeta.
  rewrite !dim_mul_l, !dim_mul_r, !(dim_dim a T Ha HT i j i j _ _ _ eq_refl eq_refl), !dim_add.
  rewrite !(dim_sqrt a T Ha HT (i + i) (j + j) i j _ eq_refl eq_refl), !dim_add, !dim_sub, !dim_div_l.
  rewrite !(dim_sqrt a T Ha HT i j m n _ E1 E2), (dim_ltb0 a T Ha HT).
  destruct (nltb _ _); [|reflexivity]. now rewrite dim_opp.
Qed.
Lemma cdim_cube i j m n x : (i + i + i = m)%Z -> (j + j + j = n)%Z -> @ccube XR (cdim i j x) = cdim m n (@ccube XR x).
Proof.
  intros E1 E2. unfold ccube. rewrite !cdim_mul_l, !cdim_mul_r, !cdim_mul_l, !(cdim_cdim _ _ _ _ _ _ _ eq_refl eq_refl).
  f_equal; lia.
Qed.
Ltac c1 := match goal with
  | |- context [cdim 0 0 ?x] => rewrite (cdim_00 x)
  | |- context [cdim ?i ?j (cdim ?k ?l ?x)] =>
      let m := nz (i + k)%Z in let n := nz (j + l)%Z in rewrite (cdim_cdim i j k l m n x eq_refl eq_refl)
  | |- context [cre (cdim ?i ?j ?x)] => rewrite (cdim_re i j x)
  | |- context [cim (cdim ?i ?j ?x)] => rewrite (cdim_im i j x)
  | |- context [@creal XR (dim a T ?i ?j ?x)] => rewrite (cdim_real i j x)
  | |- context [@cadd XR (cdim ?i ?j ?x) (cdim ?i ?j ?y)] => rewrite (cdim_add i j x y)
  | |- context [@csub XR (cdim ?i ?j ?x) (cdim ?i ?j ?y)] => rewrite (cdim_sub i j x y)
  | |- context [@copp XR (cdim ?i ?j ?x)] => rewrite (cdim_opp i j x)
  | |- context [@cmul XR (cdim ?i ?j ?x) ?y] => rewrite (cdim_mul_l i j x y)
  | |- context [@cmul XR ?x (cdim ?i ?j ?y)] => rewrite (cdim_mul_r i j x y)
  | |- context [@cscale XR (dim a T ?i ?j ?x) ?y] => rewrite (cdim_scale_l i j x y)
  | |- context [@cscale XR ?x (cdim ?i ?j ?y)] => rewrite (cdim_scale_r i j x y)
  | |- context [@cdiv XR (cdim ?i ?j ?x) ?y] => rewrite (cdim_div_l i j x y)
  | |- context [@cdiv XR ?x (cdim ?i ?j ?y)] =>
      let m := nz (- i)%Z in let n := nz (- j)%Z in rewrite (cdim_div_r i j m n x y eq_refl eq_refl)
  | |- context [@csqrt XR (cdim ?i ?j ?x)] =>
      let m := nz (i / 2)%Z in let n := nz (j / 2)%Z in rewrite (cdim_sqrt i j m n x eq_refl eq_refl)
  | |- context [@ccube XR (cdim ?i ?j ?x)] =>
      let m := nz (i + i + i)%Z in let n := nz (j + j + j)%Z in rewrite (cdim_cube i j m n x eq_refl eq_refl)
  end.
Ltac cw := repeat first [scale1 Ha HT | c1].
Notation D2 := (dim a T 2 0).
Notation Dm := (dim a T 6 (-2)).
Notation Dt := (dim a T 0 1).

Lemma neg_y_units z x y A : @neg_y XR z (D2 x) (D2 y) (D2 A) = cdim 2 0 (@neg_y XR z x y A).
Proof. unfold neg_y. cw. reflexivity. Qed.
Lemma neg_scaled_units z x y A : @neg_scaled_tof XR z (D2 x) (D2 y) (D2 A) = cdim 3 0 (@neg_scaled_tof XR z x y A).
Proof. unfold neg_scaled_tof. rewrite neg_y_units. cbv zeta. cw. reflexivity. Qed.
Lemma neg_pole_units z m x y A t : @neg_pole XR z (Dm m) (D2 x) (D2 y) (D2 A) (Dt t) = cdim (-3) 0 (@neg_pole XR z m x y A t).
Proof. unfold neg_pole, cinv. rewrite neg_scaled_units. cw. reflexivity. Qed.
Lemma neg_tof_units z m x y A : @neg_tof_at_z XR z (Dm m) (D2 x) (D2 y) (D2 A) = Dt (@neg_tof_at_z XR z m x y A).
Proof. unfold neg_tof_at_z. rewrite neg_scaled_units. cw. reflexivity. Qed.
Lemma neg_acc_units f g n : (forall i, f i = cdim (-3) 0 (g i)) -> @neg_accumulate XR f n = cdim (-3) 0 (@neg_accumulate XR g n).
Proof.
  intros H. induction n; cbn [neg_accumulate].
  - rewrite <- cdim_real. f_equal. apply dim_0.
  - rewrite IHn, H. now rewrite cdim_add.
Qed.
Lemma neg_moment_units ce ra m x y A t n k :
  @neg_moment XR ce ra (Dm m) (D2 x) (D2 y) (D2 A) (Dt t) n k = cdim (-3) 0 (@neg_moment XR ce ra m x y A t n k).
Proof.
  unfold neg_moment. cbv zeta. rewrite (neg_acc_units _ (@neg_contribution XR ce ra m x y A t (@ndiv XR (nofZ 1) (nofZ n)) k)).
  - cw. reflexivity.
  - intros i. unfold neg_contribution. cbv zeta. rewrite neg_pole_units. cw. reflexivity.
Qed.
Lemma neg_once_units z lo hi m x y A t n at_ rt :
  @neg_refine_once XR z lo hi (Dm m) (D2 x) (D2 y) (D2 A) (Dt t) n at_ rt = @neg_refine_once XR z lo hi m x y A t n at_ rt.
Proof. unfold neg_refine_once. cbv zeta. rewrite !neg_moment_units. cw. reflexivity. Qed.
Lemma neg_single_units z lo hi m x y A t n at_ rt :
  @neg_refine_single_root XR z lo hi (Dm m) (D2 x) (D2 y) (D2 A) (Dt t) n at_ rt = @neg_refine_single_root XR z lo hi m x y A t n at_ rt.
Proof. 
  unfold neg_refine_single_root. rewrite neg_once_units. destruct (neg_refine_once _ _ _ _ _ _ _ _ _ _ _); [|reflexivity]. cbn [bind].
  apply neg_once_units.
Qed.
Lemma neg_hyp_units m x y A t : @neg_hyperbolic_contour XR (Dm m) (D2 x) (D2 y) (D2 A) (Dt t) = @neg_hyperbolic_contour XR m x y A t.
Proof.
  unfold neg_hyperbolic_contour.
  assert (E : @neg_hyperbolic_body XR (Dm m) (D2 x) (D2 y) (D2 A) (Dt t) = @neg_hyperbolic_body XR m x y A t).
  { extensionality i. extensionality z. unfold neg_hyperbolic_body. cbv zeta. rewrite neg_y_units, neg_tof_units. cw. reflexivity. }
  rewrite E. reflexivity.
Qed.
Lemma neg_roots_units i0 i1 i2 i3 : @neg_quadratic_roots XR (cdim (-3) 0 i0) (cdim (-3) 0 i1) (cdim (-3) 0 i2) (cdim (-3) 0 i3)
  = @neg_quadratic_roots XR i0 i1 i2 i3.
Proof. unfold neg_quadratic_roots, csq. cbv zeta. cw. reflexivity. Qed.
Lemma neg_find_units m x y A t M l n at_ rt :
  @neg_find_z XR (Dm m) (D2 x) (D2 y) (D2 A) (Dt t) M l n at_ rt = @neg_find_z XR m x y A t M l n at_ rt.
Proof.
  unfold neg_find_z. destruct (M =? 0)%Z.
  - unfold neg_find_single. cbv zeta. rewrite neg_tof_units, neg_hyp_units. cw.
    match goal with |- bind ?w _ = _ => destruct w as [[[[? ?] ?] ?]|]; [|reflexivity] end. cbn [bind].
    rewrite !neg_moment_units. cw. destruct (neg_real_solution _ _ _); [|reflexivity]. cbn [bind]. apply neg_single_units.
  - unfold neg_find_multi. cbv zeta. rewrite !neg_moment_units, neg_roots_units. destruct (neg_quadratic_roots _ _ _ _) as [ra rb].
    destruct (raise_if _ _); [|reflexivity]. cbn [bind]. 
    match goal with |- (let '(_, _) := ?w in _) = _ => destruct w as [r1r r2r] end. rewrite !neg_single_units. reflexivity.
Qed.
Variables (mu : R) (r1 r2 : rvec) (tof : R) (M : Z) (p l : bool) (mi : Z) (at_ rt : R) (fo : bool).
Notation c := (call mu r1 r2 tof M p l mi at_ rt fo).
Notation c' := (call (fac a T 6 (-2) * mu) (vmult (fac a T 2 0) r1) (vmult (fac a T 2 0) r2) (fac a T 0 1 * tof) M p l mi at_ rt fo).
Notation K := (fac a T 2 (-1)).
Ltac start := apply (validated_scale a T Ha HT); intros (_ & H1 & _);
  cbn [call a_mu a_tof a_M a_is_prograde a_is_low_path a_maxiter a_atol a_rtol a_full_output]; rewrite ?dim_F.
Lemma negrete_units ev : @negrete2024 XR ev c' = res_scale K (@negrete2024 XR ev c).
Proof.
  unfold negrete2024. start. unfold neg_A. cbv zeta. scalew Ha HT.
  destruct (assert_transfer_angle_not_zero _); [|reflexivity]. cbn [bind].
  destruct (raise_if _ _); [|reflexivity]. cbn [bind]. rewrite neg_find_units.
  destruct (neg_find_z _ _ _ _ _ _ _ _ _ _); [|reflexivity]. cbn [bind].
  destruct (time_per_iteration _ _ _); [|reflexivity]. cbn [bind].
  unfold neg_velocities. cbv zeta. rewrite !neg_y_units. cw. apply out_dim.
Qed.
End R.
