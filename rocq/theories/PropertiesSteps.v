(** * Every step is a step of the method the solver is named after: C60. *)
From Coq Require Import ZArith List Bool Lia Reals Lra Psatz.
From Coquelicot Require Import Coquelicot.
From Verif Require Import Num XReal XRealLemmas MApi MScipy Loops MComplex MIzzo MGooding MArora MMcelreath MAvanzini MPan MJiang MDelatorre
  RDerive UniversalKepler LambertUV LambertRev LambertZ DelatorreXR IzzoXR PropertiesDerivIzzo GoodingXR PropertiesGooding
  StumpffSmooth MinTime PropertiesDelatorre ComplexXR McelreathXR McelreathDeriv AroraW PropertiesAroraDeriv SpecSteps.
Local Open Scope R_scope.

(** ** Preparations *)

Lemma shift_derive (T : R -> R) c x d : is_derive T x d -> is_derive (fun t => T t - c) x d.
Proof. intros H. eapply rd_eq; [apply rd_minus; [exact H|apply rd_const]|apply Rminus_0_r]. Qed.

Lemma open_domain (P : Prop) (x : R) : -1 < x -> x <> 1 -> (P \/ x < 1) ->
  locally x (fun t => -1 < t /\ t <> 1 /\ (P \/ t < 1)).
Proof.
  intros H1 H2 H3.
  assert (A : locally x (fun t => -1 < t)) by exact (open_gt (-1) x H1).
  assert (B : locally x (fun t => t <> 1)) by exact (open_neq 1 x H2).
  assert (C : locally x (fun t => P \/ t < 1)).
  { destruct H3 as [p|H3].
    - apply filter_forall. intros t. left. exact p.
    - generalize (open_lt 1 x H3). apply filter_imp. intros t Ht. right. exact Ht. }
  generalize (filter_and _ _ A (filter_and _ _ B C)). apply filter_imp. tauto.
Qed.

(** ** izzo2015: Householder's method of order three *)
Section Izzo.
Variables (ll : R) (M : Z) (T0 : R).
Hypothesis Hl : -1 < ll < 1.
(** The residual solved for zero. *)
Let F (t : R) : R := xget (@izzo_tof XR (Fin t) (Fin T0) (Fin ll) (Fin (IZR M))).

Lemma izzo_tof_shift x y T l m : @izzo_tof_y XR x y T l m = @nsub XR (@izzo_tof_y XR x y (Fin 0) l m) T.
Proof.
  unfold izzo_tof_y. cbv zeta. set (A := if _ && _ && _ then _ else _). clearbody A. destruct A as [a|], T as [t|]; cbn; try reflexivity.
  apply (f_equal Fin). ring.
Qed.
Lemma izzo_F_F x : izzo_domain M x ->
  @izzo_tof_y XR (Fin x) (@izzo_y XR (Fin x) (Fin ll)) (Fin T0) (Fin ll) (Fin (IZR M)) = Fin (izzo_T ll M x - T0) /\ F x = izzo_T ll M x - T0.
Proof.
  intros D. destruct (izzo_T_F ll M Hl x D) as [E _]. unfold F, izzo_tof in *. rewrite izzo_tof_shift, E. split; reflexivity.
Qed.
Lemma izzo_F_loc x : izzo_domain M x -> locally x (fun t => izzo_T ll M t - T0 = F t).
Proof.
  intros (D1 & D2 & D3). generalize (open_domain _ x D1 D2 D3). apply filter_imp. intros t D. symmetry. now apply izzo_F_F.
Qed.
Lemma izzo_F_derive x : izzo_domain M x -> is_derive F x (d1 ll M x).
Proof.
  intros D. eapply is_derive_ext_loc; [apply (izzo_F_loc x D)|]. apply shift_derive. now apply izzo_T_derive.
Qed.

(** One pass of the loop of [_householder] (izzo.py:335-351). *)
Theorem C60_izzo_householder : forall atol rtol n x,
  -1 < x -> x <> 1 -> (M = 0%Z \/ x < 1) ->
  F x <> 0 -> Derive_n (fun t => / F t) 3 x <> 0 ->
  @izzo_householder_body XR (Fin T0) (Fin ll) (Fin (IZR M)) (Fin atol) (Fin rtol) n (Fin x) =
    let x' := householder 3 F x in
    if Rlt_dec (Rabs (x' - x)) (rtol * Rabs x + atol) then Break (Fin x') else Next (Fin x').
Proof.
  intros atol rtol n x X1 X2 X3 N0 N3. assert (D : izzo_domain M x) by (repeat split; assumption).
  assert (LD := open_domain _ x X1 X2 X3).
  assert (L1 : locally x (fun t => is_derive F t (d1 ll M t))) by (revert LD; apply filter_imp; intros t Dt; now apply izzo_F_derive).
  assert (L2 : locally x (fun t => is_derive (d1 ll M) t (d2 ll M t))) by (revert LD; apply filter_imp; intros t Dt; now apply d1_derive).
  assert (L3 : locally x (fun t => is_derive (d2 ll M) t (d3 ll M t))) by (revert LD; apply filter_imp; intros t Dt; now apply d2_derive).
  pose proof (householder_den F _ _ _ x L1 N0 L2 L3 N3) as N.
  cbv zeta. rewrite (householder_3 F _ _ _ x L1 N0 L2 L3 N).
  destruct (izzo_F_F x D) as [E0 EF]. rewrite EF in N |- *. unfold izzo_householder_body. cbv zeta. rewrite E0.
  replace (@nadd XR (Fin (izzo_T ll M x - T0)) (Fin T0)) with (Fin (izzo_T ll M x)) by (cbn; apply (f_equal Fin); ring).
  pose proof (izzo_tof_p_F ll M Hl x (izzo_T ll M x) D) as P1. change (T1 ll (izzo_T ll M x) x) with (d1 ll M x) in P1.
  pose proof (izzo_tof_p2_F ll M Hl x (izzo_T ll M x) D) as P2. change (T2 ll (izzo_T ll M x) x) with (d2 ll M x) in P2. change (T1 ll (izzo_T ll M x) x) with (d1 ll M x) in P2.
  pose proof (izzo_tof_p3_F ll M Hl x (izzo_T ll M x) D) as P3. change (T3 ll (izzo_T ll M x) x) with (d3 ll M x) in P3. change (T2 ll (izzo_T ll M x) x) with (d2 ll M x) in P3. change (T1 ll (izzo_T ll M x) x) with (d1 ll M x) in P3.
  rewrite P1, P2, P3. clear P1 P2 P3.
  set (f := izzo_T ll M x - T0) in *. set (f1 := d1 ll M x) in *. set (f2 := d2 ll M x) in *. set (f3 := d3 ll M x) in *. clearbody f f1 f2 f3.
  xunf. cbn [xadd xsub xmul xlift2]. rewrite (xdiv_F (f * f2) 2) by lra. rewrite (xdiv_F (f3 * (f * f)) 6) by lra. cbn [xadd xsub xmul xlift2].
  rewrite xdiv_F by lra. cbn [xadd xsub xmul xlift2 xabs xlift1].
  replace (x - f * ((f1 * f1 - f * f2 / 2) / (f1 * (f1 * f1 - f * f2) + f3 * (f * f) / 6))) with
    (x - 3 * f * (2 * f1 * f1 - f * f2) / (6 * f1 * f1 * f1 - 6 * f * f1 * f2 + f * f * f3)) by (field; repeat split; lra).
  cbn [xltb]. destruct (Rlt_dec _ _); reflexivity.
Qed.
End Izzo.
Print Assumptions C60_izzo_householder.

(** ** gooding1990: Halley's method, for the time and for its minimum *)
Section Gooding.
Variables (q : R) (m : Z).
Hypothesis Hq : -1 < q < 1.
Hypothesis Hm : (0 <= m)%Z.

Lemma goo_open x : -1 < x -> (m = 0%Z \/ x < 1) -> locally x (fun t => -1 < t /\ (m = 0%Z \/ t < 1)).
Proof.
  intros H1 H3. assert (A : locally x (fun t => -1 < t)) by exact (open_gt (-1) x H1).
  assert (C : locally x (fun t => m = 0%Z \/ t < 1)).
  { destruct H3 as [p|H3].
    - apply filter_forall. intros t. left. exact p.
    - generalize (open_lt 1 x H3). apply filter_imp. intros t Ht. right. exact Ht. }
  exact (filter_and _ _ A C).
Qed.
End Gooding.

(** One pass of [_xlamb_iter] (gooding.py:557-567), and of the search for the
    minimum (gooding.py:437-450), where [T] is the time [tlamb] returns. *)
Theorem C60_gooding_halley : forall (q : R) (m : Z), -1 < q < 1 -> (0 <= m)%Z ->
  exists T : R -> R, forall x : R, -1 < x -> (m = 0%Z \/ x < 1) ->
    @tlamb XR m (Fin q) (Fin (1 - q * q)) (Fin x) 0 = (Fin (T x), Fin 0, Fin 0, Fin 0) /\
    (forall tin atol rtol n xold, let F := fun t => T t - tin in
       F x <> 0 -> Derive_n (fun t => / F t) 1 x <> 0 -> Derive_n (fun t => / F t) 2 x <> 0 ->
       let x' := Fin (householder 2 F x) in
       @goo_iter_body XR m (Fin q) (Fin (1 - q * q)) (Fin tin) atol rtol n (Fin x, xold) =
         (if (nabs (x' - Fin x) <=? atol) && (nabs (x' / Fin x - #1) <=? rtol)
          then Break (x', n) else Next (x', Fin x))%num) /\
    (forall atol rtol n st, let F := Derive T in
       F x <> 0 -> Derive F x <> 0 -> Derive_n (fun t => / F t) 2 x <> 0 ->
       let x' := Fin (householder 2 F x) in
       @goo_min_body XR m (Fin q) (Fin (1 - q * q)) atol rtol n (st, Fin x, Fin 0, Fin 0) =
         (if nabs (Fin x - x') <? rtol * nabs (Fin x) + atol
          then Break (n, x', Fin (T x), Fin (Derive F x)) else Next (n, x', Fin (T x), Fin (Derive F x)))%num).
Proof.
  intros q m Hq Hm. exists (goo_T q m). intros x Hx HM.
  pose proof (goo_open m x Hx HM) as LD.
  assert (G : forall t, -1 < t -> (m = 0%Z \/ t < 1) -> is_derive (goo_T q m) t (goo_T1 q m t) /\ is_derive (goo_T1 q m) t (goo_T2 q m t) /\ is_derive (goo_T2 q m) t (goo_T3 q m t)).
  { intros t Ht HMt. assert (HM' : m = 0%Z \/ ((0 < m)%Z /\ t < 1)) by (destruct (Z.eq_dec m 0); [auto|right; split; [lia|destruct HMt; [contradiction|assumption]]]).
    now apply goo_derive. }
  assert (HM' : m = 0%Z \/ ((0 < m)%Z /\ x < 1)) by (destruct (Z.eq_dec m 0); [auto|right; split; [lia|destruct HM; [contradiction|assumption]]]).
  assert (L1 : locally x (fun t => is_derive (goo_T q m) t (goo_T1 q m t))) by (revert LD; apply filter_imp; intros t [A B]; now apply G).
  assert (L2 : locally x (fun t => is_derive (goo_T1 q m) t (goo_T2 q m t))) by (revert LD; apply filter_imp; intros t [A B]; now apply G).
  assert (L3 : locally x (fun t => is_derive (goo_T2 q m) t (goo_T3 q m t))) by (revert LD; apply filter_imp; intros t [A B]; now apply G).
  split; [|split].
  - rewrite tlamb_F by (assumption || lia). reflexivity.
  - intros tin atol rtol n xold F N0 N1 N2.
    assert (K1 : locally x (fun t => is_derive F t (goo_T1 q m t))) by (revert L1; apply filter_imp; intros t; apply shift_derive).
    pose proof (newton_den F _ x K1 N0 N1) as M1. pose proof (halley_den F _ _ x K1 N0 L2 N2) as M2.
    cbv zeta. rewrite (halley F _ _ x K1 N0 L2 M2). unfold goo_iter_body. rewrite tlamb_F by (assumption || lia).
    cbn [Z.leb Z.eqb Z.compare Pos.eqb Pos.compare Pos.compare_cont]. cbv zeta beta iota.
    replace (@nneqb XR (Fin (goo_T1 q m x)) (nofZ 0)) with true.
    2: { unfold nneqb. xunf. symmetry. apply negb_true_iff. apply xeqb_Ff. exact M1. }
    replace (@nadd XR (Fin x) _) with (Fin (x - 2 * F x * goo_T1 q m x / (2 * goo_T1 q m x * goo_T1 q m x - F x * goo_T2 q m x))); [reflexivity|].
    unfold F in *. set (f1 := goo_T1 q m x) in *. set (f2 := goo_T2 q m x) in *. set (f := goo_T q m x) in *. clearbody f f1 f2.
    xunf. cbn [xadd xsub xmul xlift2]. rewrite (xdiv_F _ 2) by lra. cbn [xadd xsub xmul xlift2]. rewrite xdiv_F by (intros E; apply M2; lra).
    cbn [xadd xlift2]. apply (f_equal Fin). field; repeat split; intros E; apply M2; nra.
  - intros atol rtol n st F N0 N1 N2.
    assert (EF : locally x (fun t => goo_T1 q m t = F t)) by (revert L1; apply filter_imp; intros t D; symmetry; now apply is_derive_unique).
    assert (K1 : locally x (fun t => is_derive F t (goo_T2 q m t))).
    { generalize (filter_and _ _ L2 (locally_locally _ _ EF)). apply filter_imp. intros t [D E]. eapply is_derive_ext_loc; [exact E|exact D]. }
    assert (E0 : F x = goo_T1 q m x) by (symmetry; exact (locally_singleton _ _ EF)).
    assert (E1 : Derive F x = goo_T2 q m x) by (apply is_derive_unique; exact (locally_singleton _ _ K1)).
    pose proof (halley_den F _ _ x K1 N0 L3 N2) as M2.
    cbv zeta. rewrite (halley F _ _ x K1 N0 L3 M2). rewrite E0, E1 in *. unfold goo_min_body. rewrite tlamb_F by (assumption || lia).
    cbn [Z.leb Z.eqb Z.compare Pos.eqb Pos.compare Pos.compare_cont]. cbv zeta beta iota.
    replace (@neqb XR (Fin (goo_T2 q m x)) (nofZ 0)) with false.
    2: { xunf. symmetry. apply xeqb_Ff. exact N1. }
    set (f1 := goo_T1 q m x) in *. set (f2 := goo_T2 q m x) in *. set (f3 := goo_T3 q m x) in *. clearbody f1 f2 f3.
    replace (@nsub XR (Fin x) (ndiv _ _)) with (Fin (x - 2 * f1 * f2 / (2 * f2 * f2 - f1 * f3))); [reflexivity|].
    xunf. cbn [xadd xsub xmul xlift2]. rewrite (xdiv_F _ 2) by lra. cbn [xadd xsub xmul xlift2]. rewrite xdiv_F by (intros E; apply M2; lra).
    cbn [xsub xlift2]. apply (f_equal Fin). field; repeat split; intros E; apply M2; nra.
Qed.
Print Assumptions C60_gooding_halley.

(** ** mcelreath2025: Householder's third-order method, falling back on Halley's
    and Newton's when the bounds are left *)

Lemma mce_outside_r lo hi a : @mce_outside_bounds XR (cr a) (Fin lo) (Fin hi) = negb (if Rle_dec lo a then if Rle_dec a hi then true else false else false).
Proof.
  unfold mce_outside_bounds, cr, cc. cbn [cre cim]. xunf. cbn [xadd xlift2]. rewrite Rplus_0_r.
  destruct (Rle_dec lo a), (Rle_dec a hi); cbn [negb]; apply orb_true_iff || apply orb_false_iff; rewrite ?xltb_Ff; try (split; lra).
  all: rewrite !xltb_F; lra.
Qed.
Lemma mce_outside_i lo hi a : @mce_outside_bounds XR (ci a) (Fin lo) (Fin hi) = negb (if Rle_dec lo a then if Rle_dec a hi then true else false else false).
Proof.
  rewrite <- mce_outside_r. unfold mce_outside_bounds, cr, ci, cc. cbn [cre cim]. xunf. cbn [xadd xlift2]. now rewrite Rplus_0_r, Rplus_0_l.
Qed.

Lemma sign_pos a : @nltb XR (@nofZ XR 0) (@nsign XR (Fin a)) = if Rlt_dec 0 a then true else false.
Proof.
  unfold nsign. xunf. destruct (Rlt_dec 0 a) as [L|L].
  - replace (xltb (Fin 0) (Fin a)) with true by (symmetry; now apply xltb_F). apply xltb_F. lra.
  - replace (xltb (Fin 0) (Fin a)) with false by (symmetry; apply xltb_Ff; lra).
    destruct (xltb (Fin a) (Fin 0)), (xeqb (Fin a) (Fin 0)); apply xltb_Ff; lra.
Qed.

Section McElreathStep.
Variables tof Rs m lo hi x t t1 t2 t3 : R.
Let f := t - tof.
Hypothesis D1 : t1 <> 0.
Hypothesis D2 : 2 * t1 * t1 - f * t2 <> 0.
Hypothesis D3 : 6 * t1 * t1 * t1 - 6 * f * t1 * t2 + f * f * t3 <> 0.
Let y3 := x - 3 * f * (2 * t1 * t1 - f * t2) / (6 * t1 * t1 * t1 - 6 * f * t1 * t2 + f * f * t3).
Let y2 := x - 2 * f * t1 / (2 * t1 * t1 - f * t2).
Let y1 := x - f / t1.

(** The update on either axis, given the values of the time equation there. *)
Lemma mce_step_r : @mce_tof_equation_full XR (cr x) (Fin Rs) (Fin m) = (cr t, cr t1, cr t2, cr t3) ->
  @mce_desired_update XR (Fin tof) (Fin Rs) (Fin m) (Fin lo) (Fin hi) (cr x) =
    match first_within lo hi (y3 :: y2 :: y1 :: nil) with
    | Some y => cr y
    | None => cr ((x + (if Rlt_dec 0 (y1 - x) then hi else lo)) / 2)
    end.
Proof.
  intros E. unfold mce_desired_update. rewrite E. cbv zeta. rewrite creal_F. unfold csq, ccube, csq.
  change (@nofZ XR 2) with (Fin 2). change (@nofZ XR 6) with (Fin 6). change (@nofZ XR 3) with (Fin 3). rewrite !cr_sub. fold f.
  cplx_eval. rewrite !cr_div by (assumption || (intros Z0; first [apply D2; lra | apply D3; lra])). cplx_eval.
  replace (x + - ((6 * f * (t1 * t1) - 3 * (f * f) * t2) / (6 * (t1 * t1 * t1) - 6 * f * t1 * t2 + f * f * t3))) with y3 by (unfold y3; field; repeat split; try assumption; intros Z0; apply D3; lra).
  replace (x - 2 * f * t1 / (2 * (t1 * t1) - f * t2)) with y2 by (unfold y2; field; repeat split; try assumption; intros Z0; apply D2; lra).
  change (x - f / t1) with y1. rewrite !mce_outside_r. cbn [first_within].
  destruct (Rle_dec lo y3), (Rle_dec y3 hi); cbn [negb]; try reflexivity;
  destruct (Rle_dec lo y2), (Rle_dec y2 hi); cbn [negb]; try reflexivity;
  destruct (Rle_dec lo y1), (Rle_dec y1 hi); cbn [negb]; try reflexivity;
  (change (@cre XR (cr (- (f / t1)))) with (Fin (- (f / t1))); change (@cim XR (cr (- (f / t1)))) with (Fin 0);
   change (@nadd XR (Fin (- (f / t1))) (Fin 0)) with (Fin (- (f / t1) + 0)); rewrite sign_pos;
   replace (- (f / t1) + 0) with (y1 - x) by (unfold y1; ring);
   change (@nlit XR 1 2) with (Fin (1 / 2)); destruct (Rlt_dec 0 (y1 - x)); rewrite creal_F; cplx_eval; (apply cc_eq; [field|reflexivity])).
Qed.

Lemma mce_step_i : @mce_tof_equation_full XR (ci x) (Fin Rs) (Fin m) = (cr t, ci (- t1), cr (- t2), ci t3) ->
  @mce_desired_update XR (Fin tof) (Fin Rs) (Fin m) (Fin lo) (Fin hi) (ci x) =
    match first_within lo hi (y3 :: y2 :: y1 :: nil) with
    | Some y => ci y
    | None => @MComplex.C XR (Fin ((if Rlt_dec 0 (y1 - x) then hi else lo) / 2)) (Fin (x / 2))
    end.
Proof.
  intros E. unfold mce_desired_update. rewrite E. cbv zeta. rewrite creal_F. unfold csq, ccube, csq.
  change (@nofZ XR 2) with (Fin 2). change (@nofZ XR 6) with (Fin 6). change (@nofZ XR 3) with (Fin 3). rewrite !cr_sub. fold f.
  cplx_eval. rewrite !cr_ci_div by (intros Z0; first [apply D1; lra | apply D3; lra]). rewrite !ci_cr_div by (intros Z0; apply D2; lra). cplx_eval.
  match goal with |- context [mce_outside_bounds (ci ?a) _ _] => replace a with y3 by (unfold y3; field; repeat split; intros Z0; apply D3; lra) end.
  rewrite !mce_outside_i. cbn [first_within].
  destruct (Rle_dec lo y3), (Rle_dec y3 hi); cbn [negb]; try reflexivity;
  (match goal with |- context [negb (negb (if Rle_dec lo ?a then _ else _))] => replace a with y2 by (unfold y2; field; repeat split; intros Z0; apply D2; lra) end;
  destruct (Rle_dec lo y2), (Rle_dec y2 hi); cbn [negb]; try reflexivity;
  (match goal with |- context [negb (negb (if Rle_dec lo ?a then _ else _))] => replace a with y1 by (unfold y1; field; assumption) end;
  destruct (Rle_dec lo y1), (Rle_dec y1 hi); cbn [negb]; try reflexivity;
  (match goal with |- context [@cre XR (ci ?a)] => replace a with (y1 - x) by (unfold y1; field; assumption) end;
   change (@cre XR (ci (y1 - x))) with (Fin 0); change (@cim XR (ci (y1 - x))) with (Fin (y1 - x));
   change (@nadd XR (Fin 0) (Fin (y1 - x))) with (Fin (0 + (y1 - x))); rewrite sign_pos, Rplus_0_l;
   change (@nlit XR 1 2) with (Fin (1 / 2)); destruct (Rlt_dec 0 (y1 - x)); unfold ci, cc, creal, cscale, csub, cadd; cbn [cre cim]; xunf; cbn [xadd xsub xmul xlift2];
   f_equal; f_equal; field))).
Qed.
End McElreathStep.

Lemma sin_half_open x : sin (x / 2) <> 0 -> locally x (fun t => sin (t / 2) <> 0).
Proof.
  intros H. assert (C : continuous (fun t => sin (t / 2)) x) by (apply (ex_derive_continuous (fun t => sin (t / 2))); auto_derive; exact I).
  exact (C _ (open_neq 0 _ H)).
Qed.
Lemma hyper_open Rs m w : w <> 0 -> 0 < Rs - 2 * m * cosh (w / 2) -> locally w (fun t => t <> 0 /\ 0 < Rs - 2 * m * cosh (t / 2)).
Proof.
  intros H1 H2. apply filter_and; [exact (open_neq 0 w H1)|].
  assert (C : continuous (fun t => Rs - 2 * m * cosh (t / 2)) w).
  { apply (ex_derive_continuous (fun t => Rs - 2 * m * cosh (t / 2))). unfold cosh. auto_derive. exact I. }
  exact (C _ (open_gt 0 _ H2)).
Qed.

(** One update of [_solve_desired_x] (mcelreath.py:281-306) on the real axis
    (ellipses). *)
Theorem C60_mcelreath_real : forall Rs m : R, - Rs < 2 * m < Rs ->
  exists T : R -> R, forall x : R, sin (x / 2) <> 0 ->
    @mce_tof_equation XR (creal (Fin x)) (Fin Rs) (Fin m) = creal (Fin (T x)) /\
    (forall tof lo hi, let F := fun t => T t - tof in
       F x <> 0 -> (forall d, (1 <= d <= 3)%nat -> Derive_n (fun t => / F t) d x <> 0) ->
       @mce_desired_update XR (Fin tof) (Fin Rs) (Fin m) (Fin lo) (Fin hi) (creal (Fin x)) =
         match first_within lo hi (householder 3 F x :: householder 2 F x :: householder 1 F x :: nil) with
         | Some y => creal (Fin y)
         | None => creal (Fin ((x + (if Rlt_dec x (householder 1 F x) then hi else lo)) / 2))
         end) /\
    (forall tof tpr lo hi n tol, let F := Derive T in
       F x <> 0 -> Derive F x <> 0 -> Derive_n (fun t => / F t) 2 x <> 0 ->
       let h2 := householder 2 F x in
       let x' := creal (Fin (if Rle_dec lo h2 then if Rle_dec h2 hi then h2 else householder 1 F x else householder 1 F x)) in
       let tol' := (if (tof - Fin (T x)) / tof <? nlit 1 10000 then nlit 1 100000000 else tol)%num in
       @mce_minimum_body XR tof (Fin Rs) (Fin m) tpr (Fin lo) (Fin hi) n (creal (Fin x), tol) =
         if (mce_step_size x' (creal (Fin x)) tpr <? tol')%num then Break (cre x', n) else Next (x', tol')).
Proof.
  intros Rs m Hm. exists (mt Rs m). intros x H. pose proof (sin_half_open x H) as LD. rewrite !creal_F.
  assert (L1 : locally x (fun t => is_derive (mt Rs m) t (et1 Rs m t))) by (revert LD; apply filter_imp; intros t A; now apply mt_deriv).
  assert (L2 : locally x (fun t => is_derive (et1 Rs m) t (et2 Rs m t))) by (revert LD; apply filter_imp; intros t A; now apply et1_deriv).
  assert (L3 : locally x (fun t => is_derive (et2 Rs m) t (et3 Rs m t))) by (revert LD; apply filter_imp; intros t A; now apply et2_deriv).
  split; [|split].
  - apply mce_tof_r; [now apply my_pos|assumption].
  - intros tof lo hi F N0 N.
    assert (K1 : locally x (fun t => is_derive F t (et1 Rs m t))) by (revert L1; apply filter_imp; intros t; apply shift_derive).
    pose proof (newton_den F _ x K1 N0 (N 1%nat ltac:(lia))) as M1. pose proof (halley_den F _ _ x K1 N0 L2 (N 2%nat ltac:(lia))) as M2.
    pose proof (householder_den F _ _ _ x K1 N0 L2 L3 (N 3%nat ltac:(lia))) as M3.
    rewrite (householder_3 F _ _ _ x K1 N0 L2 L3 M3), (halley F _ _ x K1 N0 L2 M2), (householder_1 F _ x K1 N0 M1).
    rewrite (mce_step_r tof Rs m lo hi x (mt Rs m x) _ _ _ M1 M2 M3 (mce_full_r Rs m Hm x H)).
    change (mt Rs m x - tof) with (F x).
    destruct (first_within _ _ _); [reflexivity|]. rewrite creal_F.
    destruct (Rlt_dec 0 _), (Rlt_dec x _); try reflexivity; exfalso; lra.
  - intros tof tpr lo hi n tol F N0 N1 N2.
    assert (EF : locally x (fun t => et1 Rs m t = F t)) by (revert L1; apply filter_imp; intros t D; symmetry; now apply is_derive_unique).
    assert (K1 : locally x (fun t => is_derive F t (et2 Rs m t))).
    { generalize (filter_and _ _ L2 (locally_locally _ _ EF)). apply filter_imp. intros t [D E]. eapply is_derive_ext_loc; [exact E|exact D]. }
    assert (E0 : F x = et1 Rs m x) by (symmetry; exact (locally_singleton _ _ EF)).
    assert (E1 : Derive F x = et2 Rs m x) by (apply is_derive_unique; exact (locally_singleton _ _ K1)).
    rewrite E1 in N1. pose proof (halley_den F _ _ x K1 N0 L3 N2) as M2.
    cbv zeta. rewrite (halley F _ _ x K1 N0 L3 M2), (householder_1 F _ x K1 N0 N1). rewrite E0 in *.
    unfold mce_minimum_body. rewrite (mce_full_r Rs m Hm x H).
    set (f := et1 Rs m x) in *. set (f1 := et2 Rs m x) in *. set (f2 := et3 Rs m x) in *. clearbody f f1 f2.
    assert (A : @cadd XR (cr x) (@cdiv XR (@cmul XR (@cscale XR (@nopp XR (@nofZ XR 2)) (cr f)) (cr f1)) (@csub XR (@cscale XR (@nofZ XR 2) (@csq XR (cr f1))) (@cmul XR (cr f) (cr f2)))) =
                cr (x - 2 * f * f1 / (2 * f1 * f1 - f * f2))).
    { change (@nopp XR (@nofZ XR 2)) with (Fin (- 2)). change (@nofZ XR 2) with (Fin 2). unfold csq. cplx_eval. rewrite cr_div by (intros Z0; apply M2; lra). cplx_eval.
      apply cc_eq; [|reflexivity]. field. repeat split; intros Z0; apply M2; lra. }
    cbv zeta. rewrite A, mce_outside_r, cr_div, cr_sub by assumption. cbn [cre cr cc].
    set (y := x - 2 * f * f1 / (2 * f1 * f1 - f * f2)). destruct (Rle_dec lo y), (Rle_dec y hi); reflexivity.
Qed.
Print Assumptions C60_mcelreath_real.

(** The same on the imaginary axis [x = i w] (hyperbolas): the methods are
    carried out in [w].  When all three leave the bounds the code goes half-way
    to the *real* boundary, off the axis: [x] becomes [boundary / 2 + i w / 2]. *)
Theorem C60_mcelreath_imaginary : forall Rs m : R,
  exists T : R -> R, forall w : R, w <> 0 -> 0 < Rs - 2 * m * cosh (w / 2) ->
    @mce_tof_equation XR (@MComplex.C XR (Fin 0) (Fin w)) (Fin Rs) (Fin m) = creal (Fin (T w)) /\
    (forall tof lo hi, let F := fun t => T t - tof in
       F w <> 0 -> (forall d, (1 <= d <= 3)%nat -> Derive_n (fun t => / F t) d w <> 0) ->
       @mce_desired_update XR (Fin tof) (Fin Rs) (Fin m) (Fin lo) (Fin hi) (@MComplex.C XR (Fin 0) (Fin w)) =
         match first_within lo hi (householder 3 F w :: householder 2 F w :: householder 1 F w :: nil) with
         | Some y => @MComplex.C XR (Fin 0) (Fin y)
         | None => @MComplex.C XR (Fin ((if Rlt_dec w (householder 1 F w) then hi else lo) / 2)) (Fin (w / 2))
         end).
Proof.
  intros Rs m. exists (ht Rs m). intros x H Hy. pose proof (hyper_open Rs m x H Hy) as LD. rewrite !creal_F. change (@MComplex.C XR (Fin 0) (Fin x)) with (ci x).
  assert (L1 : locally x (fun t => is_derive (ht Rs m) t (ht1 Rs m t))) by (revert LD; apply filter_imp; intros t [A B]; now apply ht_deriv).
  assert (L2 : locally x (fun t => is_derive (ht1 Rs m) t (ht2 Rs m t))) by (revert LD; apply filter_imp; intros t [A B]; now apply ht1_deriv).
  assert (L3 : locally x (fun t => is_derive (ht2 Rs m) t (ht3 Rs m t))) by (revert LD; apply filter_imp; intros t [A B]; now apply ht2_deriv).
  split.
  - now apply mce_tof_i.
  - intros tof lo hi F N0 N.
    assert (K1 : locally x (fun t => is_derive F t (ht1 Rs m t))) by (revert L1; apply filter_imp; intros t; apply shift_derive).
    pose proof (newton_den F _ x K1 N0 (N 1%nat ltac:(lia))) as M1. pose proof (halley_den F _ _ x K1 N0 L2 (N 2%nat ltac:(lia))) as M2.
    pose proof (householder_den F _ _ _ x K1 N0 L2 L3 (N 3%nat ltac:(lia))) as M3.
    rewrite (householder_3 F _ _ _ x K1 N0 L2 L3 M3), (halley F _ _ x K1 N0 L2 M2), (householder_1 F _ x K1 N0 M1).
    rewrite (mce_step_i tof Rs m lo hi x (ht Rs m x) _ _ _ M1 M2 M3 (mce_full_i Rs m x H Hy)).
    change (ht Rs m x - tof) with (F x).
    destruct (first_within _ _ _); [reflexivity|].
    destruct (Rlt_dec 0 _), (Rlt_dec x _); try reflexivity; exfalso; lra.
Qed.
Print Assumptions C60_mcelreath_imaginary.

(** ** arora2013: Halley's method *)
Lemma aro_open M tau k : - sqrt 2 < k -> ((0 < M)%Z -> k < sqrt 2) -> (M = 0%Z -> k <> sqrt 2 - 1 / 50 /\ k <> sqrt 2 + 1 / 50) ->
  0 < 1 - k * tau ->
  locally k (fun t => - sqrt 2 < t /\ ((0 < M)%Z -> t < sqrt 2) /\ (M = 0%Z -> t <> sqrt 2 - 1 / 50 /\ t <> sqrt 2 + 1 / 50) /\ 0 < 1 - t * tau).
Proof.
  intros H1 H2 H3 H4. apply filter_and; [exact (open_gt _ k H1)|]. apply filter_and; [|apply filter_and].
  - destruct (Z_lt_dec 0 M) as [p|p].
    + generalize (open_lt _ k (H2 p)). apply filter_imp. auto.
    + apply filter_forall. intros t ?. contradiction.
  - destruct (Z.eq_dec M 0) as [e|e].
    + destruct (H3 e) as [A B]. generalize (filter_and _ _ (open_neq _ k A) (open_neq _ k B)). apply filter_imp. auto.
    + apply filter_forall. intros t ?. contradiction.
  - assert (C : continuous (fun t => 1 - t * tau) k) by (apply (ex_derive_continuous (fun t => 1 - t * tau)); auto_derive; exact I).
    exact (C _ (open_gt 0 _ H4)).
Qed.

(** One pass of the loop (arora.py:269-308). *)
Theorem C60_arora_halley : forall (M : Z) (tau S : R), (0 <= M)%Z -> tau <> 0 ->
  exists T : R -> R, forall k : R,
    - sqrt 2 < k -> ((0 < M)%Z -> k < sqrt 2) -> (M = 0%Z -> k <> sqrt 2 - 1 / 50 /\ k <> sqrt 2 + 1 / 50) -> 0 < 1 - k * tau ->
    (exists W, @aro_W XR (Fin k) M = Ok W /\ @aro_TOF XR (Fin k) (Fin tau) (Fin S) W = Fin (T k)) /\
    forall dpos tof tof_p atol n, let F := fun t => T t - tof in
      F k <> 0 -> Derive_n (fun t => / F t) 1 k <> 0 -> Derive_n (fun t => / F t) 2 k <> 0 ->
      @aro_body XR dpos (Fin tof) (Fin tof_p) (Fin tau) (Fin S) M (Fin atol) n (Fin k) =
        if Rle_dec (Rabs (F k)) atol then Break (n, Fin k)
        else Next (@aro_bound XR dpos (Fin tof) (Fin tof_p) (Fin tau) (Fin (householder 2 F k))).
Proof.
  intros M tau S HM Ht. destruct (C27_arora_derivatives M tau S HM Ht) as (W & W1 & W2 & T & T1 & T2 & G).
  exists T. intros k K1 K2 K3 K4. pose proof (aro_open M tau k K1 K2 K3 K4) as LD.
  assert (L1 : locally k (fun t => is_derive T t (T1 t))) by (revert LD; apply filter_imp; intros t (A & B & C & D); destruct (G t A B C) as (_ & _ & _ & _ & _ & Q); now apply Q).
  assert (L2 : locally k (fun t => is_derive T1 t (T2 t))) by (revert LD; apply filter_imp; intros t (A & B & C & D); destruct (G t A B C) as (_ & _ & _ & _ & _ & Q); now apply Q).
  destruct (G k K1 K2 K3) as (Q1 & _ & _ & _ & _ & Q). destruct (Q K4) as (Q2 & _ & _ & Q3). clear G Q.
  split; [now exists (Fin (W k))|]. intros dpos tof tof_p atol n F N0 N1 N2.
  assert (J1 : locally k (fun t => is_derive F t (T1 t))) by (revert L1; apply filter_imp; intros t; apply shift_derive).
  pose proof (newton_den F _ k J1 N0 N1) as M1. pose proof (halley_den F _ _ k J1 N0 L2 N2) as M2.
  rewrite (halley F _ _ k J1 N0 L2 M2). unfold F in *.
  assert (M3 : T1 k - (T k - tof) * T2 k / (2 * T1 k) <> 0).
  { intros Z0. apply M2. replace (2 * T1 k * T1 k - (T k - tof) * T2 k) with (2 * T1 k * (T1 k - (T k - tof) * T2 k / (2 * T1 k))) by (field; assumption). rewrite Z0. ring. }
  rewrite Q3 by assumption. rewrite (Rabs_minus_sym tof).
  replace (k - (T k - tof) / (T1 k - (T k - tof) * T2 k / (2 * T1 k))) with (k - 2 * (T k - tof) * T1 k / (2 * T1 k * T1 k - (T k - tof) * T2 k)); [reflexivity|].
  field. repeat split; try assumption; intros Z0; apply M2; lra.
Qed.
Print Assumptions C60_arora_halley.

(** ** avanzini2008 and pan2016: the zero of the chord *)

(** [x] is where the line through [(a, fa)] and [(b, fb)] meets the axis. *)
Definition chord_zero (a fa b fb x : R) : Prop := fb <> fa /\ fb + (fb - fa) / (b - a) * (x - b) = 0.

Definition lifted (f : R -> R) (x : xr) : res xr := match x with Fin x => Ok (Fin (f x)) | NaN => Ok NaN end.

Lemma secant_pass f atol rtol i a b : a <> b -> 0 <= atol -> 0 <= rtol ->
  (f a = f b /\ @ava_secant_body XR (lifted f) (Fin atol) (Fin rtol) i (Fin a, Fin (f a), Fin b, Fin (f b)) = Break (Fin ((a + b) / 2), i)) \/
  exists c, chord_zero a (f a) b (f b) c /\
    ((Rabs (c - b) <= atol + rtol * Rabs c /\ @ava_secant_body XR (lifted f) (Fin atol) (Fin rtol) i (Fin a, Fin (f a), Fin b, Fin (f b)) = Break (Fin c, i)) \/
     (b <> c /\ @ava_secant_body XR (lifted f) (Fin atol) (Fin rtol) i (Fin a, Fin (f a), Fin b, Fin (f b)) = Next (Fin b, Fin (f b), Fin c, Fin (f c)))).
Proof.
  intros N T1 T2. unfold ava_secant_body. destruct (Req_dec (f a) (f b)) as [E|E].
  - left. split; [exact E|]. replace (@neqb XR (Fin (f b)) (Fin (f a))) with true by (symmetry; apply xeqb_F; now symmetry).
    change (@nlit XR 1 2) with (Fin (1 / 2)). xunf. cbn [xadd xmul xlift2]. do 3 f_equal. field.
  - right. replace (@neqb XR (Fin (f b)) (Fin (f a))) with false by (symmetry; apply xeqb_Ff; now apply not_eq_sym).
    exists (b - f b * (b - a) / (f b - f a)). split; [split; [now apply not_eq_sym|field; split; lra]|].
    replace (@nsub XR (Fin b) _) with (Fin (b - f b * (b - a) / (f b - f a))).
    2:{ xunf. cbn [xsub xmul xlift2]. rewrite xdiv_F by lra. reflexivity. }
    set (c := b - f b * (b - a) / (f b - f a)).
    change (@nleb XR _ _) with (xleb (Fin (Rabs (c - b))) (Fin (atol + rtol * Rabs c))).
    destruct (Rle_dec (Rabs (c - b)) (atol + rtol * Rabs c)) as [L|L].
    + left. split; [exact L|]. now rewrite (proj2 (xleb_F _ _) L).
    + right. rewrite (proj2 (xleb_Ff _ _)) by lra. split; [|reflexivity]. intros Z0. apply L. rewrite <- Z0, Rminus_diag_eq, Rabs_R0 by reflexivity.
      pose proof (Rabs_pos b). assert (0 <= rtol * Rabs b) by (apply Rmult_le_pos; lra). lra.
Qed.

(** What [_secant] (avanzini.py:206-219) returns: the zero of a chord of [f],
    not further from the chord's last point than the tolerance; or, when the
    chord is level, its midpoint. *)
Theorem C60_avanzini_secant : forall (f : R -> R) (x0 : R) maxiter atol rtol x n, 0 <= atol -> 0 <= rtol ->
  @ava_secant XR (fun x => match x with Fin x => Ok (Fin (f x)) | NaN => Ok NaN end) (Fin x0) maxiter (Fin atol) (Fin rtol) = Ok (x, n) ->
  exists a b r : R, x = Fin r /\ a <> b /\
    ((f a = f b /\ r = (a + b) / 2) \/
     (chord_zero a (f a) b (f b) r /\ Rabs (r - b) <= atol + rtol * Rabs r)).
Proof.
  intros f x0 maxiter atol rtol x n T1 T2. fold (lifted f). unfold ava_secant. cbn [lifted bind].
  change (@nlit XR 1 10000) with (Fin (1 / 10000)).
  assert (X1 : exists x1, x1 <> x0 /\ (if @nleb XR (nofZ 0) (Fin x0) then nadd (Fin x0) (Fin (1 / 10000)) else nsub (Fin x0) (Fin (1 / 10000))) = Fin x1).
  { destruct (@nleb XR (nofZ 0) (Fin x0)); eexists; (split; [|reflexivity]); lra. }
  destruct X1 as (x1 & N1 & E1). rewrite E1. cbn [lifted bind].
  set (body := @ava_secant_body XR (lifted f) (Fin atol) (Fin rtol)).
  set (P := fun (_ : Z) (s : xr * xr * xr * xr) => exists a b, a <> b /\ s = (Fin a, Fin (f a), Fin b, Fin (f b))).
  match goal with |- context [for_range ?b ?n ?i ?s] => change (for_range b n i s) with (for_range body (Z.to_nat maxiter) 1 (Fin x0, Fin (f x0), Fin x1, Fin (f x1))) end.
  destruct (for_range body (Z.to_nat maxiter) 1 (Fin x0, Fin (f x0), Fin x1, Fin (f x1))) as [r0|s0|e0] eqn:FR; try discriminate.
  intros H. change (Ok r0 = Ok (x, n)) in H. injection H as ->.
  assert (P0 : P 1%Z (Fin x0, Fin (f x0), Fin x1, Fin (f x1))) by (exists x0, x1; split; [now apply not_eq_sym|reflexivity]).
  assert (ST : forall k t t', (1 <= k < 1 + Z.of_nat (Z.to_nat maxiter))%Z -> P k t -> body k t = Next t' -> P (k + 1)%Z t').
  { intros k t t' _ (a & b & N & ->) B.
    destruct (secant_pass f atol rtol k a b N T1 T2) as [[_ E]|(c & _ & [[_ E]|[Nc E]])]; fold body in E; rewrite E in B; try discriminate.
    injection B as <-. now exists b, c. }
  destruct (for_range_inv body P (Z.to_nat maxiter) 1 _ _ P0 ST FR) as (j & t & _ & (a & b & N & ->) & B).
  destruct (secant_pass f atol rtol j a b N T1 T2) as [[F E]|(c & Hc & [[L E]|[Nc E]])]; fold body in E; rewrite E in B; try discriminate; injection B as <- _.
  - exists a, b, ((a + b) / 2). split; [reflexivity|]. split; [exact N|]. now left.
  - exists a, b, c. split; [reflexivity|]. split; [exact N|]. right. now split.
Qed.
Print Assumptions C60_avanzini_secant.

(** [_linear_bezier_estimate] (pan.py:243-245) between two points where the
    residual has opposite signs is the zero of the chord; it lies strictly
    between them, so the clipping that follows it (pan.py:225) changes
    nothing. *)
Theorem C60_pan_estimate : forall a fa b fb, a < b -> fa * fb < 0 ->
  exists x, @pan_bezier_estimate XR (Fin a) (Fin b) (Fin fa) (Fin fb) = Fin x /\
    chord_zero a fa b fb x /\ a < x < b /\ @pan_clip XR (Fin x) (Fin a) (Fin b) = Fin x.
Proof.
  intros a fa b fb Hab Hf. assert (N : fb - fa <> 0) by nra.
  exists (a - fa * (b - a) / (fb - fa)). split; [unfold pan_bezier_estimate; xunf; cbn [xsub xmul xlift2]; rewrite xdiv_F by assumption; reflexivity|].
  split; [split; [lra|field; split; lra]|].
  assert (K : 0 < - fa / (fb - fa) < 1).
  { assert (Q : 0 < (fb - fa) * (fb - fa)) by nra. split.
    - replace (- fa / (fb - fa)) with ((fa * fa - fa * fb) / ((fb - fa) * (fb - fa))) by (field; assumption). apply Rdiv_lt_0_compat; nra.
    - apply Rminus_gt_0_lt. replace (1 - - fa / (fb - fa)) with ((fb * fb - fa * fb) / ((fb - fa) * (fb - fa))) by (field; assumption). apply Rdiv_lt_0_compat; nra. }
  assert (E : a - fa * (b - a) / (fb - fa) = a + - fa / (fb - fa) * (b - a)) by (field; assumption). rewrite E. set (k := - fa / (fb - fa)) in *. clearbody k.
  assert (I : a < a + k * (b - a) < b) by nra. split; [exact I|]. unfold pan_clip, pymin, pymax. xunf.
  rewrite (proj2 (xltb_Ff _ _)) by lra. now rewrite (proj2 (xltb_Ff _ _)) by lra.
Qed.
Print Assumptions C60_pan_estimate.

(** ** jiang2016 and delatorre2018: a difference quotient *)

Lemma mean_slope f f' a b : a < b -> (forall t, a <= t <= b -> is_derive f t (f' t)) -> exists xi, a <= xi <= b /\ (f b - f a) / (b - a) = f' xi.
Proof.
  intros H D. destruct (MVT_gen f a b f') as (c & Hc & E).
  - intros t Ht. rewrite Rmin_left, Rmax_right in Ht by lra. apply D. lra.
  - intros t Ht. rewrite Rmin_left, Rmax_right in Ht by lra. apply derivable_continuous_pt. exists (f' t). now apply is_derive_Reals, D.
  - rewrite Rmin_left, Rmax_right in Hc by lra. exists c. split; [exact Hc|]. rewrite E. field. lra.
Qed.

(** jiang.py:584-611: for a function differentiable between the bounds the
    quotient is its derivative at a point no further from [x] than the step. *)
Theorem C60_jiang_slope : forall (F : xr -> xr) (f f' : R -> R) lower upper x, lower < upper -> lower <= x <= upper ->
  (forall t, lower <= t <= upper -> F (Fin t) = Fin (f t) /\ is_derive f t (f' t)) ->
  exists xi, lower <= xi <= upper /\ Rabs (xi - x) <= 1 / 67108864 * Rmax 1 (Rabs x) /\
    @jia_derivative XR F (Fin x) (Fin lower) (Fin upper) = Fin (f' xi).
Proof.
  intros F f f' lo hi x H Hx D. unfold jia_derivative. change (@jia_eps XR) with (Fin (1 / 67108864)).
  assert (E1 : @pymax XR (nofZ 1) (@nabs XR (Fin x)) = Fin (Rmax 1 (Rabs x))).
  { unfold pymax. change (@nltb XR (nofZ 1) (@nabs XR (Fin x))) with (xltb (Fin 1) (Fin (Rabs x))). unfold Rmax. destruct (Rle_dec 1 (Rabs x)) as [L|L].
    - destruct (xltb (Fin 1) (Fin (Rabs x))) eqn:B; [reflexivity|]. apply xltb_Ff in B. change (Fin 1 = Fin (Rabs x)). f_equal. lra.
    - now rewrite (proj2 (xltb_Ff _ _)) by lra. }
  rewrite E1. change (@nmul XR (Fin (1 / 67108864)) (Fin (Rmax 1 (Rabs x)))) with (Fin (1 / 67108864 * Rmax 1 (Rabs x))).
  assert (S : 0 < 1 / 67108864 * Rmax 1 (Rabs x)) by (pose proof (Rmax_l 1 (Rabs x)); lra). set (st := 1 / 67108864 * Rmax 1 (Rabs x)) in *. clearbody st.
  assert (E2 : exists a, lo <= a <= x /\ x - st <= a /\ (a = x -> x = lo) /\ @pymax XR (Fin lo) (@nsub XR (Fin x) (Fin st)) = Fin a).
  { unfold pymax. change (@nsub XR (Fin x) (Fin st)) with (Fin (x - st)). xunf. destruct (xltb (Fin lo) (Fin (x - st))) eqn:B; [apply xltb_F in B|apply xltb_Ff in B]; eexists; (split; [|split; [|split; [|reflexivity]]]; lra). }
  assert (E3 : exists b, x <= b <= hi /\ b <= x + st /\ (b = x -> x = hi) /\ @pymin XR (Fin hi) (@nadd XR (Fin x) (Fin st)) = Fin b).
  { unfold pymin. change (@nadd XR (Fin x) (Fin st)) with (Fin (x + st)). xunf. destruct (xltb (Fin (x + st)) (Fin hi)) eqn:B; [apply xltb_F in B|apply xltb_Ff in B]; eexists; (split; [|split; [|split; [|reflexivity]]]; lra). }
  destruct E2 as (a & A1 & A2 & A3 & ->). destruct E3 as (b & B1 & B2 & B3 & ->). cbv zeta.
  assert (AB : a < b). { destruct (Rlt_dec a b) as [L|L]; [exact L|exfalso]. assert (a = x) by lra. assert (b = x) by lra. specialize (A3 ltac:(assumption)). specialize (B3 ltac:(assumption)). lra. }
  unfold nneqb. change (@neqb XR (Fin b) (Fin a)) with (xeqb (Fin b) (Fin a)). rewrite (proj2 (xeqb_Ff _ _)) by lra. cbn [negb].
  rewrite (proj1 (D a ltac:(lra))), (proj1 (D b ltac:(lra))). destruct (mean_slope f f' a b AB) as (xi & Hxi & E); [intros t Ht; apply D; lra|].
  exists xi. split; [lra|]. split; [apply Rabs_le; lra|]. xunf. cbn [xsub xlift2]. rewrite xdiv_F by lra. now rewrite E.
Qed.
Print Assumptions C60_jiang_slope.

Lemma pymax_F a b : @pymax XR (Fin a) (Fin b) = Fin (Rmax a b).
Proof.
  unfold pymax, Rmax. xunf. destruct (Rle_dec a b) as [L|L].
  - destruct (xltb (Fin a) (Fin b)) eqn:B; [reflexivity|]. apply xltb_Ff in B. f_equal. lra.
  - now rewrite (proj2 (xltb_Ff _ _)) by lra.
Qed.
Lemma pymin_F a b : @pymin XR (Fin a) (Fin b) = Fin (Rmin a b).
Proof.
  unfold pymin, Rmin. xunf. destruct (Rle_dec a b) as [L|L].
  - now rewrite (proj2 (xltb_Ff _ _)) by lra.
  - now rewrite (proj2 (xltb_F _ _)) by lra.
Qed.

Lemma delatorre_slope : forall P Q mu M (f f' : R -> R) z_low z_high z, z_low < z < z_high ->
  (forall t, z_low < t < z_high -> @tor_tof XR P Q mu (Fin t) M = Fin (f t) /\ is_derive f t (f' t)) ->
  exists xi, z_low < xi < z_high /\ Rabs (xi - z) <= Rmax (1 / 10000000) (1 / 67108864 * Rmax 1 (Rabs z)) /\
    @tor_tof_derivative XR P Q mu (Fin z) M (Fin z_low) (Fin z_high) = Fin (f' xi).
Proof.
  intros P Q mu M f f' lo hi z Hz D. unfold tor_tof_derivative.
  assert (E0 : @nsqrt XR eps_machine = Fin (1 / 67108864)).
  { change (xsqrt (Fin (1 / 4503599627370496)) = Fin (1 / 67108864)). rewrite xsqrt_F by lra. f_equal.
    replace (1 / 4503599627370496) with (1 / 67108864 * (1 / 67108864)) by field. apply sqrt_square. lra. }
  rewrite E0. change (@nabs XR (Fin z)) with (Fin (Rabs z)). change (@nofZ XR 1) with (Fin 1). change (@nlit XR 1 10000000) with (Fin (1 / 10000000)). change (@nlit XR 25 100) with (Fin (25 / 100)).
  rewrite pymax_F. change (@nmul XR (Fin (1 / 67108864)) (Fin (Rmax 1 (Rabs z)))) with (Fin (1 / 67108864 * Rmax 1 (Rabs z))). rewrite pymax_F.
  assert (A : 0 < Rmax (1 / 10000000) (1 / 67108864 * Rmax 1 (Rabs z))) by (eapply Rlt_le_trans; [|apply Rmax_l]; lra).
  set (d0 := Rmax (1 / 10000000) _) in *. clearbody d0.
  change (@nmul XR (Fin (25 / 100)) (@nsub XR (Fin z) (Fin lo))) with (Fin (25 / 100 * (z - lo))). change (@nmul XR (Fin (25 / 100)) (@nsub XR (Fin hi) (Fin z))) with (Fin (25 / 100 * (hi - z))).
  rewrite !pymin_F. cbv zeta. pose proof (Rmin_l (Rmin d0 (25 / 100 * (z - lo))) (25 / 100 * (hi - z))). pose proof (Rmin_r (Rmin d0 (25 / 100 * (z - lo))) (25 / 100 * (hi - z))).
  pose proof (Rmin_l d0 (25 / 100 * (z - lo))). pose proof (Rmin_r d0 (25 / 100 * (z - lo))).
  assert (Dp : 0 < Rmin (Rmin d0 (25 / 100 * (z - lo))) (25 / 100 * (hi - z))) by (repeat apply Rmin_glb_lt; lra).
  set (dz := Rmin (Rmin d0 _) _) in *. clearbody dz.
  change (@nleb XR (Fin dz) (nofZ 0)) with (xleb (Fin dz) (Fin 0)). rewrite (proj2 (xleb_Ff _ _)) by lra.
  change (@nadd XR (Fin z) (Fin dz)) with (Fin (z + dz)). change (@nsub XR (Fin z) (Fin dz)) with (Fin (z - dz)).
  rewrite (proj1 (D (z + dz) ltac:(lra))), (proj1 (D (z - dz) ltac:(lra))).
  destruct (mean_slope f f' (z - dz) (z + dz)) as (xi & Hxi & E); [lra|intros t Ht; apply D; lra|].
  exists xi. split; [lra|]. split; [apply Rabs_le; lra|]. xunf. cbn [xsub xmul xlift2]. rewrite xdiv_F by lra. rewrite <- E. f_equal. f_equal. ring.
Qed.

(** The time of flight is differentiable where [V = P - Q C0 z] is positive. *)
Lemma tz_ex_derive mu A P z M : 0 < mu -> z < PI * PI -> (M <> 0%Z -> 0 < z) -> 0 < P - sqrt 2 * A * C0 z ->
  ex_derive (fun z => tz mu A (P - sqrt 2 * A * C0 z) z M) z.
Proof.
  intros Hmu Hz HM HV. pose proof (S1_pos z Hz) as HS.
  assert (E0 : ex_derive C0 z) by (eexists; apply C0_derive). assert (E1 : ex_derive S1 z) by (eexists; apply S1_derive).
  pose proof (S3_ex_derive (4 * z)) as E3. assert (S3' : S1 z * S1 z * S1 z <> 0) by (repeat apply Rmult_integral_contrapositive_currified; lra).
  assert (Q1 : 0 < sqrt mu) by now apply sqrt_lt_R0. assert (Q2 : 0 < sqrt 2) by (apply sqrt_lt_R0; lra).
  unfold tz. destruct (Z.eq_dec M 0) as [->|NM].
  - apply (ex_derive_ext (fun z => (2 * S3 (4 * z) * (P - sqrt 2 * A * C0 z) * sqrt (2 * (P - sqrt 2 * A * C0 z)) / (S1 z * S1 z * S1 z) + A * sqrt (P - sqrt 2 * A * C0 z)) / sqrt mu)).
    { intros t. match goal with |- ?a = ?b => change (@eq R a b) end. unfold Rdiv. ring. }
    auto_derive. repeat split; try assumption; try lra.
  - specialize (HM NM). assert (Q3 : 0 < sqrt z) by now apply sqrt_lt_R0.
    auto_derive. repeat split; try assumption; try lra.
    repeat apply Rmult_integral_contrapositive_currified; try lra.
Qed.

(** delatorre.py:207-215: the same for the central difference, where the time of
    flight is defined between the bounds. *)
Theorem C60_delatorre_slope : forall P Q mu M z_low z_high z, 0 < mu -> (0 <= M)%Z ->
  z_low < z < z_high -> z_high <= PI * PI -> ((0 < M)%Z -> 0 <= z_low) ->
  (forall t, z_low < t < z_high -> 0 < P - Q * C0 t) ->
  exists T : R -> R,
    (forall t, z_low < t < z_high -> @tor_tof XR (Fin P) (Fin Q) (Fin mu) (Fin t) M = Fin (T t) /\ ex_derive T t) /\
    exists xi, z_low < xi < z_high /\ Rabs (xi - z) <= Rmax (1 / 10000000) (1 / 67108864 * Rmax 1 (Rabs z)) /\
      @tor_tof_derivative XR (Fin P) (Fin Q) (Fin mu) (Fin z) M (Fin z_low) (Fin z_high) = Fin (Derive T xi).
Proof.
  intros P Q mu M lo hi z Hmu HM Hz Hhi Hlo HV.
  assert (Q2 : 0 < sqrt 2) by (apply sqrt_lt_R0; lra). assert (EQ : Q = sqrt 2 * (Q / sqrt 2)) by (field; lra).
  set (A := Q / sqrt 2) in *. clearbody A. subst Q.
  exists (fun z => tz mu A (P - sqrt 2 * A * C0 z) z M).
  assert (D : forall t, lo < t < hi -> @tor_tof XR (Fin P) (Fin (sqrt 2 * A)) (Fin mu) (Fin t) M = Fin (tz mu A (P - sqrt 2 * A * C0 t) t M) /\ ex_derive (fun z => tz mu A (P - sqrt 2 * A * C0 z) z M) t).
  { intros t Ht. specialize (HV t Ht). assert (HMt : M <> 0%Z -> 0 < t) by (intros NM; specialize (Hlo ltac:(lia)); lra). split.
    - apply tor_tof_F; auto; lra.
    - apply tz_ex_derive; auto; lra. }
  split; [exact D|]. apply (delatorre_slope _ _ _ _ (fun z => tz mu A (P - sqrt 2 * A * C0 z) z M)); [exact Hz|].
  intros t Ht. destruct (D t Ht) as [D1 D2]. split; [exact D1|]. now apply Derive_correct.
Qed.
Print Assumptions C60_delatorre_slope.

(** ** Cases *)

(** The denominators do not vanish, nor then do the derivatives of [1 / F]. *)
Section Nonzero.
Variables (F F1 F2 F3 : R -> R) (x : R).
Hypothesis H1 : locally x (fun t => is_derive F t (F1 t)).
Hypothesis H0 : F x <> 0.
Hypothesis H2 : locally x (fun t => is_derive F1 t (F2 t)).
Hypothesis H3 : locally x (fun t => is_derive F2 t (F3 t)).
Lemma quotient_nonzero a b : a <> 0 -> b <> 0 -> a / b <> 0.
Proof. intros A B. apply Rmult_integral_contrapositive_currified; [exact A|now apply Rinv_neq_0_compat]. Qed.
Lemma nonzero_1 : F1 x <> 0 -> Derive_n (fun t => / F t) 1 x <> 0.
Proof. intros N. rewrite (locally_singleton _ _ (inv_derive_1 F F1 x H1 H0)). apply quotient_nonzero; [lra|now apply Rmult_integral_contrapositive_currified]. Qed.
Lemma nonzero_2 : 2 * F1 x * F1 x - F x * F2 x <> 0 -> Derive_n (fun t => / F t) 2 x <> 0.
Proof.
  intros N. rewrite (locally_singleton _ _ (inv_derive_2 F F1 F2 x H1 H0 H2)). apply quotient_nonzero; [lra|repeat apply Rmult_integral_contrapositive_currified; assumption].
Qed.
Lemma nonzero_3 : 6 * F1 x * F1 x * F1 x - 6 * F x * F1 x * F2 x + F x * F x * F3 x <> 0 -> Derive_n (fun t => / F t) 3 x <> 0.
Proof.
  intros N. rewrite (locally_singleton _ _ (inv_derive_3 F F1 F2 F3 x H1 H0 H2 H3)). apply quotient_nonzero; [lra|repeat apply Rmult_integral_contrapositive_currified; assumption].
Qed.
End Nonzero.

(** A half turn ([ll = 0]) at the minimum-energy ellipse, one unit of time short
    of the time asked for. *)
Lemma izzo_at_0 : izzo_T 0 0 0 = PI / 2 /\ d1 0 0 0 = -2 /\ d2 0 0 0 = 3 * (PI / 2) /\ d3 0 0 0 = -16.
Proof.
  assert (E : izzo_T 0 0 0 = PI / 2).
  { rewrite (MinTime.mt_T 0 0) by lra. unfold T_ell.
    replace (1 - 0 * 0 * (1 - 0 * 0)) with 1 by ring. replace (1 - 0 * 0) with 1 by ring. rewrite sqrt_1.
    replace (0 * 1 + 0 * 1) with 0 by ring. rewrite acos_0. field. }
  split; [exact E|]. unfold d3, d2, d1, T3, T2, T1. rewrite E.
  replace (1 - 0 * 0 * (1 - 0 * 0)) with 1 by ring. rewrite sqrt_1. repeat split; field.
Qed.

Example C60_izzo_case :
  let T0 := PI / 2 + 1 in let F := fun t => xget (@izzo_tof XR (Fin t) (Fin T0) (Fin 0) (Fin (IZR 0))) in
  F 0 <> 0 /\ Derive_n (fun t => / F t) 3 0 <> 0.
Proof.
  intros T0 F. destruct izzo_at_0 as (E & E1 & E2 & E3). assert (Hl : -1 < 0 < 1) by lra.
  assert (D : izzo_domain 0 0) by (repeat split; (lra || now left)).
  assert (EF : F 0 = -1) by (unfold F; rewrite (proj2 (izzo_F_F 0 0 T0 Hl 0 D)), E; unfold T0; ring).
  assert (N : F 0 <> 0) by lra. split; [exact N|].
  assert (LD : locally 0 (fun t => izzo_domain 0 t)) by (apply (open_domain _ 0); [lra|lra|now left]).
  apply (nonzero_3 F (d1 0 0) (d2 0 0) (d3 0 0)); try assumption.
  - revert LD. apply filter_imp. intros t Dt. now apply (izzo_F_derive 0 0 T0 Hl).
  - revert LD. apply filter_imp. intros t Dt. now apply d1_derive.
  - revert LD. apply filter_imp. intros t Dt. now apply d2_derive.
  - rewrite EF, E1, E2, E3. pose proof PI_RGT_0. lra.
Qed.

(** The same transfer for gooding1990, whose unit of time is twice as small; the
    minimum of one revolution is sought from the same ellipse. *)
Example C60_gooding_case : exists T : R -> R,
  (forall x, -1 < x -> @tlamb XR 0 (Fin 0) (Fin (1 - 0 * 0)) (Fin x) 0 = (Fin (T x), Fin 0, Fin 0, Fin 0)) /\
  let F := fun t => T t - (PI + 1) in
  F 0 <> 0 /\ Derive_n (fun t => / F t) 1 0 <> 0 /\ Derive_n (fun t => / F t) 2 0 <> 0 /\
  let G := Derive T in G 0 <> 0 /\ Derive G 0 <> 0 /\ Derive_n (fun t => / G t) 2 0 <> 0.
Proof.
  exists (goo_T 0 0). destruct izzo_at_0 as (E & E1 & E2 & E3). split.
  { intros x Hx. rewrite tlamb_F by (lra || lia || now left). reflexivity. }
  assert (V : goo_T 0 0 0 = PI /\ goo_T1 0 0 0 = -4 /\ goo_T2 0 0 0 = 3 * PI /\ goo_T3 0 0 0 = -32).
  { unfold goo_T, goo_T1, goo_T2, goo_T3. destruct (Req_EM_T 0 1); [lra|]. rewrite E, E1, E2, E3. repeat split; lra. }
  destruct V as (V0 & V1 & V2 & V3). intros F.
  pose proof (goo_open 0 0 ltac:(lra) ltac:(now left)) as LD.
  assert (L1 : locally 0 (fun t => is_derive (goo_T 0 0) t (goo_T1 0 0 t))) by (revert LD; apply filter_imp; intros t [A B]; apply goo_derive; auto; lra).
  assert (L2 : locally 0 (fun t => is_derive (goo_T1 0 0) t (goo_T2 0 0 t))) by (revert LD; apply filter_imp; intros t [A B]; apply goo_derive; auto; lra).
  assert (L3 : locally 0 (fun t => is_derive (goo_T2 0 0) t (goo_T3 0 0 t))) by (revert LD; apply filter_imp; intros t [A B]; apply goo_derive; auto; lra).
  assert (K1 : locally 0 (fun t => is_derive F t (goo_T1 0 0 t))) by (revert L1; apply filter_imp; intros t; apply shift_derive).
  assert (EF : F 0 = -1) by (unfold F; rewrite V0; ring). assert (N : F 0 <> 0) by lra. pose proof PI_RGT_0.
  split; [exact N|]. split; [apply (nonzero_1 F (goo_T1 0 0)); auto; lra|]. split; [apply (nonzero_2 F (goo_T1 0 0) (goo_T2 0 0)); auto; rewrite EF, V1, V2; lra|].
  intros G.
  assert (EG : locally 0 (fun t => goo_T1 0 0 t = G t)) by (revert L1; apply filter_imp; intros t D; symmetry; now apply is_derive_unique).
  assert (G1 : locally 0 (fun t => is_derive G t (goo_T2 0 0 t))).
  { generalize (filter_and _ _ L2 (locally_locally _ _ EG)). apply filter_imp. intros t [D X]. eapply is_derive_ext_loc; [exact X|exact D]. }
  assert (G0 : G 0 = -4) by (rewrite <- V1; symmetry; exact (locally_singleton _ _ EG)). assert (NG : G 0 <> 0) by lra.
  split; [exact NG|]. split; [rewrite (is_derive_unique _ _ _ (locally_singleton _ _ G1)), V2; lra|].
  apply (nonzero_2 G (goo_T2 0 0) (goo_T3 0 0)); auto. rewrite G0, V2, V3. pose proof PI2_3_2. nra.
Qed.

(** Equal radii half a turn apart for mcelreath2025 ([Rs = 2], [m = 0]), at
    [x = PI]. *)
Example C60_mcelreath_case : exists T : R -> R,
  (forall x, sin (x / 2) <> 0 -> @mce_tof_equation XR (creal (Fin x)) (Fin 2) (Fin 0) = creal (Fin (T x))) /\
  sin (PI / 2) <> 0 /\
  let F := fun t => T t - (PI + 1) in
  F PI <> 0 /\ (forall d, (1 <= d <= 3)%nat -> Derive_n (fun t => / F t) d PI <> 0).
Proof.
  assert (Hm : - 2 < 2 * 0 < 2) by lra. exists (mt 2 0). split; [intros x H; rewrite !creal_F; apply mce_tof_r; [now apply my_pos|assumption]|].
  assert (HS : sin (PI / 2) <> 0) by (rewrite sin_PI2; lra). split; [exact HS|]. intros F.
  assert (Q : mq 2 0 PI = 1). { unfold mq, ma, my. rewrite sin_PI2, cos_PI2. replace (2 * (1 * 1) / (2 - 2 * 0 * 0)) with 1 by field. apply sqrt_1. }
  assert (V0 : mt 2 0 PI = PI) by (unfold mt; rewrite Q, sin_PI2, sin_PI; field).
  assert (VU : eu3 2 0 PI = PI) by (unfold eu3; rewrite Q, sin_PI2, cos_PI2; field).
  assert (A1 : ea1 2 0 PI = 0) by (unfold ea1; rewrite Q, sin_PI2, cos_PI2; field).
  assert (A2 : ea2 2 0 PI = - (1 / 2)) by (unfold ea2; rewrite Q, A1, sin_PI2, cos_PI2; field).
  assert (A3 : ea3 2 0 PI = 0) by (unfold ea3; rewrite Q, A1, A2, sin_PI2, cos_PI2; field).
  assert (V1 : et1 2 0 PI = 2) by (unfold et1; rewrite Q, A1, V0, VU, sin_PI2, cos_PI2; field).
  assert (V2 : et2 2 0 PI = 3 / 4 * PI) by (unfold et2; rewrite Q, A1, A2, V1, V0, VU, sin_PI2, cos_PI2; field).
  assert (V3 : et3 2 0 PI = 7 / 2) by (unfold et3; rewrite Q, A1, A2, A3, V2, V1, V0, VU, sin_PI2, cos_PI2; field).
  pose proof (sin_half_open PI HS) as LD.
  assert (L1 : locally PI (fun t => is_derive F t (et1 2 0 t))) by (revert LD; apply filter_imp; intros t A; apply shift_derive; now apply mt_deriv).
  assert (L2 : locally PI (fun t => is_derive (et1 2 0) t (et2 2 0 t))) by (revert LD; apply filter_imp; intros t A; now apply et1_deriv).
  assert (L3 : locally PI (fun t => is_derive (et2 2 0) t (et3 2 0 t))) by (revert LD; apply filter_imp; intros t A; now apply et2_deriv).
  assert (EF : F PI = -1) by (unfold F; rewrite V0; ring). assert (N : F PI <> 0) by lra. pose proof PI_RGT_0.
  split; [exact N|]. intros d Hd. assert (d = 1 \/ d = 2 \/ d = 3)%nat as [-> | [-> | ->]] by lia.
  - apply (nonzero_1 F (et1 2 0)); auto; lra.
  - apply (nonzero_2 F (et1 2 0) (et2 2 0)); auto. rewrite EF, V1, V2. lra.
  - apply (nonzero_3 F (et1 2 0) (et2 2 0) (et3 2 0)); auto. rewrite EF, V1, V2, V3. lra.
Qed.

(** Two steps of the secant method on a parabola, and the estimate and the
    slopes there. *)
Example C60_chord_case : chord_zero 1 (1 * 1 - 2) 2 (2 * 2 - 2) (4 / 3) /\ (1 * 1 - 2) * (2 * 2 - 2) < 0.
Proof. unfold chord_zero. split; [split; [lra|field]|lra]. Qed.
Example C60_jiang_case : forall t, 1 <= t <= 2 -> is_derive (fun t => t * t - 2) t (2 * t).
Proof. intros t _. auto_derive; [exact I|ring]. Qed.
Example C60_delatorre_case : forall t, -1 < t < 1 -> 0 < 2 - 0 * C0 t.
Proof. intros t _. lra. Qed.

(** arora2013 at [k = 0], the minimum-energy ellipse, with [tau = 1/2]. *)
Example C60_arora_case : exists (T : R -> R) (tof : R),
  (forall k, - sqrt 2 < k -> k <> sqrt 2 - 1 / 50 -> k <> sqrt 2 + 1 / 50 -> 0 < 1 - k * (1 / 2) ->
     exists W, @aro_W XR (Fin k) 0 = Ok W /\ @aro_TOF XR (Fin k) (Fin (1 / 2)) (Fin 1) W = Fin (T k)) /\
  - sqrt 2 < 0 /\ 0 <> sqrt 2 - 1 / 50 /\ 0 <> sqrt 2 + 1 / 50 /\
  let F := fun t => T t - tof in
  F 0 <> 0 /\ Derive_n (fun t => / F t) 1 0 <> 0 /\ Derive_n (fun t => / F t) 2 0 <> 0.
Proof.
  exists (aroT 0 (1 / 2) 1), (aroT 0 (1 / 2) 1 0 + 1). destruct (sqrt_facts 2) as [W1 W2]; [lra|]. assert (W3 : 1 < sqrt 2) by nra.
  assert (H : (1 / 2) <> 0) by lra.
  split. { intros k K1 K2 K3 K4. assert (D : aro_domain 0 k) by (repeat split; auto; lia). exists (Fin (aroW 0 k)). split; [now apply aro_W_F|now apply aro_TOF_F]. }
  split; [lra|]. split; [lra|]. split; [lra|]. intros F.
  assert (LD : locally 0 (fun t => aro_domain 0 t /\ 0 < 1 - t * (1 / 2))).
  { generalize (aro_open 0 (1 / 2) 0 ltac:(lra) ltac:(lia) ltac:(lra) ltac:(lra)). apply filter_imp. unfold aro_domain. tauto. }
  assert (L1 : locally 0 (fun t => is_derive F t (aroT1 0 (1 / 2) 1 t))) by (revert LD; apply filter_imp; intros t [A B]; apply shift_derive; now apply aroT_derive).
  assert (L2 : locally 0 (fun t => is_derive (aroT1 0 (1 / 2) 1) t (aroT2 0 (1 / 2) 1 t))) by (revert LD; apply filter_imp; intros t [A B]; now apply aroT1_derive).
  assert (EF : F 0 = -1) by (unfold F; ring). assert (N : F 0 <> 0) by lra.
  assert (Wp : 0 < We 0 0). { unfold We, Ge. replace (0 / sqrt 2) with 0 by (field; lra). rewrite acos_0, sin_PI2. replace (2 * (PI / 2)) with PI by field. rewrite sin_PI. pose proof PI_RGT_0. apply Rdiv_lt_0_compat; lra. }
  assert (P : forall e h p, piece 0 e h p 0 = e 0) by (intros; unfold piece; destruct (Z_lt_dec 0 0); [lia|]; destruct (Rlt_dec 0 (sqrt 2 - 1 / 50)); [reflexivity|lra]).
  assert (V : aroT1 0 (1 / 2) 1 0 < 0 /\ 0 < aroT2 0 (1 / 2) 1 0).
  { unfold aroT1, aroT2, aroT, aroW2, aroW1, aroW. rewrite !P. unfold D2w, Dw. set (w := We 0 0) in *. clearbody w.
    replace (1 - 0 * (1 / 2)) with 1 by ring. rewrite sqrt_1. split.
    - replace (_ + _) with (- (9 / 8) - 3 / 4 * w) by field. lra.
    - replace (_ + _) with (47 / 32 + 27 / 16 * w) by field. lra. }
  destruct V as [V1 V2]. split; [exact N|]. split; [apply (nonzero_1 F (aroT1 0 (1 / 2) 1)); auto; lra|].
  apply (nonzero_2 F (aroT1 0 (1 / 2) 1) (aroT2 0 (1 / 2) 1)); auto. rewrite EF. set (u := aroT1 0 (1 / 2) 1 0) in *. nra.
Qed.
