(** * Motions traversed backwards: C59. *)
From Coq Require Import Reals ZArith String List Bool Lra Lia FunctionalExtensionality.
Import ListNotations.
From Verif Require Import Num XReal XRealLemmas MApi MAssertions MLinalg MAngles MScipy MComplex MGauss MBattin MJiang MPan
  MGooding MDer MThorne MAvanzini MArora MVallado MIzzo MNegrete MMcelreath MDelatorre MInit
  Spec VecFacts VecXR AnglesXR CallXR RotXR MirrorXR ReverseXR GodalXR PropertiesAngles PropertiesMotion PropertiesOrbit PropertiesRotation
  PropertiesMirror PropertiesMirrorSense.
Local Open Scope R_scope.

Ltac alike_rev := repeat match goal with
  | |- Err _ = res_rev (Err _) => reflexivity
  | |- bind ?x _ = res_rev (bind ?x _) => destruct x; cbn [bind]
  | |- (if ?b then _ else _) = res_rev (if ?b then _ else _) => destruct b
  | |- (match ?x with _ => _ end) = res_rev (match ?x with _ => _ end) => destruct x
  end.

(** The answers of the two runs. *)
Lemma mk_rev fo (v1 v2 w1 w2 : vec xr) n t : w1 = @vopp XR v2 -> w2 = @vopp XR v1 ->
  @Ok out (@mk_out XR fo w1 w2 n t) = res_rev (Ok (@mk_out XR fo v1 v2 n t)).
Proof. intros -> ->. destruct fo; reflexivity. Qed.

(** [f] and [g] coefficients. *)
Lemma lagrange_rev (a b : vec xr) g k : @vdivs XR (@vsub XR a (@vscale XR k b)) g = @vopp XR (@vdivs XR (@vsub XR (@vscale XR k b) a) g).
Proof. now rewrite vsub_anti, vopp_divs. Qed.
Lemma lagrange_rev' (a b : vec xr) g k : @vdivs XR (@vsub XR (@vscale XR k b) a) g = @vopp XR (@vdivs XR (@vsub XR a (@vscale XR k b)) g).
Proof. now rewrite vsub_anti, vopp_divs. Qed.

(** Chord and radial components. *)
Lemma vsub_add (u v : vec xr) : @vadd XR (@vopp XR u) v = @vopp XR (@vsub XR u v).
Proof.
  destruct u as [x y z], v as [a b d]. unfold vadd, vsub, vopp, vmap, vmap2. cbn [vx vy vz].
  f_equal; destruct x, y, z, a, b, d; try reflexivity; cbn; f_equal; ring.
Qed.
Lemma vadd_sub (u v : vec xr) : @vsub XR (@vopp XR u) v = @vopp XR (@vadd XR u v).
Proof.
  destruct u as [x y z], v as [a b d]. unfold vadd, vsub, vopp, vmap, vmap2. cbn [vx vy vz].
  f_equal; destruct x, y, z, a, b, d; try reflexivity; cbn; f_equal; ring.
Qed.

(** negrete2024's functions depend on the sum of the norms. *)
Section Neg.
Variables (a b A : xr).
Lemma neg_y_rev z : @neg_y XR z b a A = @neg_y XR z a b A.
Proof. unfold neg_y. now rewrite (nadd_sym b a). Qed.
Lemma neg_scaled_rev z : @neg_scaled_tof XR z b a A = @neg_scaled_tof XR z a b A.
Proof. unfold neg_scaled_tof. now rewrite neg_y_rev. Qed.
Lemma neg_tof_rev z m : @neg_tof_at_z XR z m b a A = @neg_tof_at_z XR z m a b A.
Proof. unfold neg_tof_at_z. now rewrite neg_scaled_rev. Qed.
Lemma neg_moment_rev c r m t n k : @neg_moment XR c r m b a A t n k = @neg_moment XR c r m a b A t n k.
Proof.
  unfold neg_moment. cbv zeta. set (iv := @ndiv XR _ _).
  replace (@neg_contribution XR c r m b a A t iv k) with (@neg_contribution XR c r m a b A t iv k); [reflexivity|].
  apply functional_extensionality. intros i. unfold neg_contribution, neg_pole. now rewrite neg_scaled_rev.
Qed.
Lemma neg_refine_rev z lo hi m t n at_ rt :
  @neg_refine_single_root XR z lo hi m b a A t n at_ rt = @neg_refine_single_root XR z lo hi m a b A t n at_ rt.
Proof.
  assert (E : forall z, @neg_refine_once XR z lo hi m b a A t n at_ rt = @neg_refine_once XR z lo hi m a b A t n at_ rt).
  { intros. unfold neg_refine_once. now rewrite !neg_moment_rev. }
  unfold neg_refine_single_root. rewrite E. destruct (neg_refine_once _ _ _ _ _ _ _ _ _ _ _); cbn [bind]; [apply E|reflexivity].
Qed.
Lemma neg_contour_rev m t : @neg_hyperbolic_contour XR m b a A t = @neg_hyperbolic_contour XR m a b A t.
Proof.
  unfold neg_hyperbolic_contour.
  replace (@neg_hyperbolic_body XR m b a A t) with (@neg_hyperbolic_body XR m a b A t); [reflexivity|].
  apply functional_extensionality. intros i. apply functional_extensionality. intros z. unfold neg_hyperbolic_body.
  now rewrite neg_y_rev, neg_tof_rev.
Qed.
Lemma neg_find_rev m t M lp n at_ rt : @neg_find_z XR m b a A t M lp n at_ rt = @neg_find_z XR m a b A t M lp n at_ rt.
Proof.
  unfold neg_find_z. destruct (M =? 0)%Z.
  - unfold neg_find_single. rewrite neg_tof_rev, neg_contour_rev.
    match goal with |- bind ?x _ = bind ?x _ => destruct x as [[[[cc rr] lo] hi]|]; cbn [bind]; [|reflexivity] end.
    rewrite !neg_moment_rev. destruct (neg_real_solution _ _ _); cbn [bind]; [|reflexivity]. apply neg_refine_rev.
  - unfold neg_find_multi. cbv zeta. rewrite !neg_moment_rev. destruct (neg_quadratic_roots _ _ _ _) as [p q].
    destruct (raise_if _ _) as [uu|]; cbn [bind]; [|reflexivity].
    match goal with |- (let '(_, _) := ?e in _) = _ => destruct e as [x y] end. rewrite !neg_refine_rev. reflexivity.
Qed.
End Neg.

Section R.
Variables (mu : R) (r1 r2 : rvec) (tof : R) (M : Z) (p l : bool) (mi : Z) (at_ rt : R) (fo : bool).
Notation c := (call mu r1 r2 tof M p l mi at_ rt fo).
Notation c' := (call mu r2 r1 tof M (negb p) l mi at_ rt fo).
Hypotheses (H1 : r1 <> vzero) (H2 : r2 <> vzero).
Ltac start := apply validated_rev; [assumption..|]; intros _;
  cbn [call a_mu a_tof a_M a_is_prograde a_is_low_path a_maxiter a_atol a_rtol a_full_output]; cbv zeta;
  rewrite ?rev_angle, ?(chord_sym (vfin r1) (vfin r2)) by assumption;
  set (n1 := @norm XR (vfin r1)); set (n2 := @norm XR (vfin r2));
  try rewrite !(nadd_sym n2 n1); try rewrite !(nmul_sym n2 n1).

Lemma vallado_rev clock fuel : @vallado2013 XR clock fuel c' = res_rev (@vallado2013 XR clock fuel c).
Proof.
  unfold vallado2013. start. unfold val_get_A. rewrite (nmul_sym n2 n1).
  match goal with |- context [@neqb XR ?a _] => set (A := a) end.
  assert (EB : @val_body XR (Fin mu) (Fin tof) (Fin rt) n2 n1 A fuel = @val_body XR (Fin mu) (Fin tof) (Fin rt) n1 n2 A fuel).
  { assert (EY : forall z, @val_y_at_psi XR z n2 n1 A = @val_y_at_psi XR z n1 n2 A) by (intros; unfold val_y_at_psi; now rewrite (nadd_sym n2 n1)).
    assert (ER : forall z, @val_readjust XR n2 n1 A fuel z = @val_readjust XR n1 n2 A fuel z).
    { intros. unfold val_readjust. rewrite (nmul_sym n2 n1). apply functional_extensionality. intros x. apply functional_extensionality. intros y.
      f_equal. apply functional_extensionality. intros [[? ?] ?]. now rewrite EY. }
    apply functional_extensionality. intros i. apply functional_extensionality. intros [[ps lo] hi]. unfold val_body.
    now rewrite EY, ER. }
  rewrite EB. alike_rev. unfold val_velocities. cbv zeta. apply mk_rev; [apply lagrange_rev|apply lagrange_rev'].
Qed.

Lemma battin_rev clock : @battin1984 XR clock c' = res_rev (@battin1984 XR clock c).
Proof.
  unfold battin1984. start. alike_rev. unfold bat_velocities. cbv zeta.
  rewrite (vsub_anti (vfin r2) (vfin r1)), vopp_scale_r.
  apply mk_rev.
  - now rewrite vadd_sub, vopp_scale_r.
  - now rewrite vsub_add, vopp_scale_r.
Qed.

Lemma nmul_swap (k u v : xr) : @nmul XR (@nmul XR k u) v = @nmul XR (@nmul XR k v) u.
Proof. destruct k, u, v; try reflexivity. cbn. f_equal. ring. Qed.
Lemma jia_solve_p_rev fuel a b d s th : @jia_solve_p XR fuel c' b a d s th = @jia_solve_p XR fuel c a b d s th.
Proof.
  unfold jia_solve_p. cbn [call a_mu a_tof a_maxiter a_atol a_rtol]. cbv zeta.
  assert (E : forall q lp, @jia_elliptic_p XR q b a d s th lp = @jia_elliptic_p XR q a b d s th lp).
  { intros. unfold jia_elliptic_p. destruct (jia_elliptic_alpha_beta _ _ _ _ _). cbv zeta. now rewrite nmul_swap. }
  assert (E' : forall q, @jia_hyperbolic_p XR q b a d s th = @jia_hyperbolic_p XR q a b d s th).
  { intros. unfold jia_hyperbolic_p. destruct (jia_hyperbolic_alpha_beta _ _ _ _). cbv zeta. now rewrite nmul_swap. }
  assert (E2 : @jia_parabolic_p XR b a d s th = @jia_parabolic_p XR a b d s th).
  { unfold jia_parabolic_p. cbv zeta. now rewrite nmul_swap. }
  rewrite E2.
  repeat match goal with
  | |- (if ?x then _ else _) = _ => destruct x; [reflexivity|]
  | |- (if ?x then _ else _) = _ => destruct x
  | |- bind ?x _ = bind ?x _ => destruct x as [[? ?]|]; cbn [bind]; [|reflexivity]
  end; rewrite ?E, ?E'; reflexivity.
Qed.

Lemma jiang_rev ev : @jiang2016 XR ev c' = res_rev (@jiang2016 XR ev c).
Proof.
  unfold jiang2016. cbn [call a_M]. destruct (raise_if _ _); [|reflexivity]. cbn [bind].
  start. rewrite jia_solve_p_rev. alike_rev. unfold jia_velocities. cbv zeta.
  rewrite (nmul_sym n2 n1), (vsub_anti (vfin r1) (vfin r2)).
  apply mk_rev; [rewrite vsub_add|rewrite vadd_sub]; apply vopp_scale_r.
Qed.

Lemma delatorre_rev ev : @delatorre2018 XR ev c' = res_rev (@delatorre2018 XR ev c).
Proof.
  unfold delatorre2018. start. alike_rev. unfold tor_velocities. cbv zeta. rewrite !(nmul_sym n2 n1). alike_rev.
  apply mk_rev; [apply lagrange_rev|apply lagrange_rev'].
Qed.

Lemma negrete_rev ev : @negrete2024 XR ev c' = res_rev (@negrete2024 XR ev c).
Proof.
  unfold negrete2024. start. unfold neg_A. rewrite (nmul_sym n2 n1), neg_find_rev. alike_rev.
  unfold neg_velocities. cbv zeta. rewrite neg_y_rev. apply mk_rev; [apply lagrange_rev|apply lagrange_rev'].
Qed.

Lemma mcelreath_rev ev : @mcelreath2025 XR ev c' = res_rev (@mcelreath2025 XR ev c).
Proof.
  unfold mcelreath2025. start. unfold mce_m. rewrite (nmul_sym n2 n1). unfold mce_find_x. rewrite (nadd_sym n2 n1). alike_rev.
  unfold mce_velocities, mce_universal_values. cbv zeta. rewrite !(nmul_sym n2 n1), !(nadd_sym n2 n1), (chord_sym (vfin r1) (vfin r2)).
  rewrite (vsub_anti (vfin r1) (vfin r2)), vopp_divs, vopp_scale_r.
  apply mk_rev; [apply vsub_add|apply vadd_sub].
Qed.

Lemma der_rev ev : @der2011 XR ev c' = res_rev (@der2011 XR ev c).
Proof.
  unfold der2011. start. unfold der_sigma. rewrite !(nmul_sym n2 n1). alike_rev.
  unfold der_velocities. cbv zeta.
  rewrite (vsub_anti (vfin r1) (vfin r2)), vopp_divs, vopp_scale_r.
  apply mk_rev; [apply vsub_add|apply vadd_sub].
Qed.

Lemma goo_geometry_rev a b th : @goo_geometry XR (Fin mu) b a th =
  let '(mus, s, qq, q, rho, sg) := @goo_geometry XR (Fin mu) a b th in
  (mus, s, qq, q, if @nneqb XR (@nsqrt XR (@nadd XR (@nmul XR (@nsub XR a b) (@nsub XR a b))
     (@nmul XR (@nmul XR (nofZ 4) (@nmul XR a b)) (@sq XR (@nsin XR th))))) (nofZ 0) then @nopp XR rho else rho, sg).
Proof.
  unfold goo_geometry. cbv zeta. rewrite (nadd_sym b a), (nmul_sym b a), (nsub_anti b a), nmul_opp_l, nmul_opp_r, nopp_opp, ndiv_opp.
  destruct (@nneqb XR _ _); reflexivity.
Qed.

Lemma vlamb_rev ev a b th d : @vlamb XR ev (Fin mu) b a th (Fin tof) l mi (Fin at_) (Fin rt) d =
  match @vlamb XR ev (Fin mu) a b th (Fin tof) l mi (Fin at_) (Fin rt) d with
  | Ok (vr1, vt1, vr2, vt2, n, t) => Ok (@nopp XR vr2, vt2, @nopp XR vr1, vt1, n, t)
  | Err e => Err e
  end.
Proof.
  unfold vlamb. destruct (goo_reduce _ _) as [[th2 m]| |]; try reflexivity.
  rewrite goo_geometry_rev. set (cnd := @nneqb XR _ _).
  assert (EC : cnd = false -> forall mus s qq q rho sg, @goo_geometry XR (Fin mu) a b (@ndiv XR th2 (nofZ 2)) = (mus, s, qq, q, rho, sg) -> rho = nofZ 0).
  { intros EC. unfold goo_geometry. cbv zeta. fold cnd. rewrite EC. intros ? ? ? ? ? ? E. repeat (apply pair_equal_spec in E; destruct E as [E ?]). now subst. }
  destruct (@goo_geometry XR (Fin mu) a b _) as [[[[[mus s] qq] q] rho] sg].
  destruct (xlamb _ _ _ _ _ _ _ _ _) as [[[[[ns x1] x2] n] t]|]; cbn [bind]; [|reflexivity].
  set (x := if (1 <? ns)%Z then _ else _). clearbody x.
  unfold goo_components. destruct (tlamb _ _ _ _ _) as [[[? qm] qp] zq]. cbv zeta.
  assert (ER : (if cnd then @nopp XR rho else rho) = @nopp XR rho).
  { destruct cnd; [reflexivity|]. rewrite (EC eq_refl _ _ _ _ _ _ eq_refl). cbn. f_equal. ring. }
  rewrite ER. do 3 f_equal.
  - f_equal. f_equal. f_equal.
    + rewrite <- ndiv_opp. f_equal. destruct mus, qm, qp, rho; try reflexivity; cbn; f_equal; ring.
    + rewrite <- ndiv_opp. f_equal. destruct mus, qm, qp, rho; try reflexivity; cbn; f_equal; ring.
Qed.

Lemma gooding_rev ev : @gooding1990 XR ev c' = res_rev (@gooding1990 XR ev c).
Proof.
  unfold gooding1990. start. rewrite rev_normal by good_tac. rewrite vlamb_rev.
  destruct (assert_transfer_angle_not_zero _); [|reflexivity]. cbn [bind].
  destruct (vlamb _ _ _ _ _ _ _ _ _ _ _) as [[[[[[vr1 vt1] vr2] vt2] n] t]|]; [|reflexivity]. cbn [bind].
  rewrite !vopp_cross_l. apply mk_rev; rewrite vopp_scale_l, vopp_scale_r, vopp_add; reflexivity.
Qed.
End R.

(** ** izzo2015 and thorne2004 *)

Lemma senses_rev ll h a b p : good a -> good b -> (exists r, h = vfin r /\ vz r <> 0) ->
  senses ll (@vopp XR h) b a (negb p) = let '(ll, t1, t2) := senses ll h a b p in (ll, @vopp XR t2, @vopp XR t1).
Proof.
  intros Ga Gb (r & -> & Z). unfold senses.
  assert (C : @nltb XR (@vz xr (@vopp XR (vfin r))) (nofZ 0) = negb (@nltb XR (vz (vfin r)) (nofZ 0))).
  { rewrite vopp_F. change (vz (vfin r)) with (Fin (vz r)). change (vz (vfin (vmult (-1) r))) with (Fin (-1 * vz r)). xunf. unfold xltb.
    destruct (Rlt_dec _ 0), (Rlt_dec (vz r) 0); try reflexivity; exfalso; lra. }
  rewrite C. clear C. set (h := vfin r). assert (Gh : good h) by apply good_F. clearbody h.
  rewrite !vopp_cross_l, !(cross_anti (@vopp XR h)), !vopp_cross_l, !vopp_opp.
  rewrite (cross_anti h a), (cross_anti h b), ?vopp_opp.
  destruct (@nltb XR (vz h) (nofZ 0)), p; cbn [negb]; rewrite ?vopp_opp, ?nopp_opp; reflexivity.
Qed.

Section S.
Variables (mu : R) (r1 r2 : rvec) (tof : R) (M : Z) (p l : bool) (mi : Z) (at_ rt : R) (fo : bool).
Notation c := (call mu r1 r2 tof M p l mi at_ rt fo).
Notation c' := (call mu r2 r1 tof M (negb p) l mi at_ rt fo).
Hypothesis Hz : vz (vcross r1 r2) <> 0.
Let ir1 := @vdivs XR (vfin r1) (@norm XR (vfin r1)).
Let ir2 := @vdivs XR (vfin r2) (@norm XR (vfin r2)).
Let ih := @vdivs XR (@cross XR ir1 ir2) (@norm XR (@cross XR ir1 ir2)).
Lemma rev_sense : exists r, ih = vfin r /\ vz r <> 0.
Proof. destruct (ih_sense true r1 r2 (fun _ => Hz)) as [[E _]|H]; [discriminate|exact H]. Qed.
Let good1 : good ir1. Proof. unfold ir1; good_tac. Qed.
Let good2 : good ir2. Proof. unfold ir2; good_tac. Qed.

Lemma izzo_geometry_rev : @izzo_geometry XR (vfin r2) (vfin r1) (negb p) =
  let '(a, b, d, s, ll, t1, t2) := @izzo_geometry XR (vfin r1) (vfin r2) p in (b, a, d, s, ll, @vopp XR t2, @vopp XR t1).
Proof.
  rewrite !izzo_senses. cbv zeta. fold ir1 ir2. rewrite (cross_anti ir1 ir2), norm_opp, vopp_divs. fold ih.
  rewrite (chord_sym (vfin r1) (vfin r2)), (nadd_sym (@norm XR (vfin r2))).
  rewrite senses_rev; [|exact good1|exact good2|exact rev_sense].
  destruct (senses _ ih ir1 ir2 p) as [[? ?] ?]. reflexivity.
Qed.

(** The radial components change sign, the transverse ones do not. *)
Lemma radial_rev (g m rho k n : xr) :
  @ndiv XR (@nmul XR g (@nsub XR m (@nmul XR (@nopp XR rho) k))) n = @nopp XR (@ndiv XR (@nmul XR (@nopp XR g) (@nadd XR m (@nmul XR rho k))) n).
Proof. rewrite <- ndiv_opp. f_equal. destruct g, m, rho, k; try reflexivity; cbn; f_equal; ring. Qed.
Lemma radial_rev' (g m rho k n : xr) :
  @ndiv XR (@nmul XR (@nopp XR g) (@nadd XR m (@nmul XR (@nopp XR rho) k))) n = @nopp XR (@ndiv XR (@nmul XR g (@nsub XR m (@nmul XR rho k))) n).
Proof. rewrite <- ndiv_opp. f_equal. destruct g, m, rho, k; try reflexivity; cbn; f_equal; ring. Qed.

Lemma izzo_rev : @izzo2015 XR c' = res_rev (@izzo2015 XR c).
Proof.
  unfold izzo2015. cbn [call a_r1 a_r2 a_full_output]. destruct (raise_if _ _) as [uu|]; [|reflexivity]. cbn [bind].
  rewrite !as_vec_of_vec. cbn [bind].
  cbn [call a_mu a_tof a_M a_is_prograde a_is_low_path a_maxiter a_atol a_rtol a_full_output].
  rewrite izzo_geometry_rev.
  destruct (@izzo_geometry XR (vfin r1) (vfin r2) p) as [[[[[[a b] d] s] ll] t1] t2].
  alike_rev. unfold izzo_velocities, izzo_reconstruct. cbv zeta.
  rewrite (nnorm_sym a b d), sq_opp. cbn [res_rev out_rev].
  rewrite radial_rev, radial_rev', !vopp_scale_l, !vopp_scale_r, !vopp_add. reflexivity.
Qed.

Lemma tho_y_rev x s q : @tho_y XR x (vfin r2) (vfin r1) s q (negb p) = @tho_y XR x (vfin r1) (vfin r2) s q p.
Proof.
  unfold tho_y. cbv zeta. rewrite !lambda_senses. cbv zeta. fold ir1 ir2. rewrite (cross_anti ir1 ir2), norm_opp, vopp_divs. fold ih.
  rewrite senses_rev; [|exact good1|exact good2|exact rev_sense].
  destruct (senses _ ih ir1 ir2 p) as [[? ?] ?]. reflexivity.
Qed.

Lemma tho_reconstruct_rev x y s q : @tho_reconstruct XR x y (Fin mu) (vfin r2) (vfin r1) s q (negb p) =
  let '(v1, v2) := @tho_reconstruct XR x y (Fin mu) (vfin r1) (vfin r2) s q p in (@vopp XR v2, @vopp XR v1).
Proof.
  rewrite !reconstruct_senses. cbv zeta. fold ir1 ir2. rewrite (cross_anti ir1 ir2), norm_opp, vopp_divs. fold ih.
  rewrite senses_rev; [|exact good1|exact good2|exact rev_sense].
  destruct (senses _ ih ir1 ir2 p) as [[? ?] ?]. cbn [fst snd].
  rewrite (nnorm_sym (@norm XR (vfin r1)) (@norm XR (vfin r2))), sq_opp, radial_rev, radial_rev', !vopp_scale_l, !vopp_scale_r, !vopp_add. reflexivity.
Qed.

Lemma thorne_rev ev : @thorne2004 XR ev c' = res_rev (@thorne2004 XR ev c).
Proof.
  assert (Hn : vcross r1 r2 <> vzero) by (intros E; apply Hz; rewrite E; reflexivity).
  assert (H1 : r1 <> vzero) by (intros ->; apply Hz; unfold vcross, vzero; cbn [vx vy vz]; ring).
  assert (H2 : r2 <> vzero) by (intros ->; apply Hz; unfold vcross, vzero; cbn [vx vy vz]; ring).
  unfold thorne2004. cbn [call a_M]. destruct (raise_if _ _); [|reflexivity]. cbn [bind].
  apply validated_rev; [assumption..|]; intros _.
  cbn [call a_mu a_tof a_M a_is_prograde a_is_low_path a_maxiter a_atol a_rtol a_full_output]; cbv zeta.
  rewrite rev_angle, (chord_sym (vfin r1) (vfin r2)), (nadd_sym (@norm XR (vfin r2))) by assumption.
  alike_rev. rewrite tho_y_rev, tho_reconstruct_rev. destruct (tho_reconstruct _ _ _ _ _ _ _ _). now apply mk_rev.
Qed.
End S.
