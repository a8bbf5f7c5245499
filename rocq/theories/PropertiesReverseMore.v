(** * C59 for avanzini2008 outside the equatorial plane and arora2013 between equal distances. *)
From Coq Require Import Reals ZArith String List Bool Lra Lia Psatz FunctionalExtensionality.
Import ListNotations.
From Verif Require Import Num XReal XRealLemmas MApi ApiFacts MScipy MLinalg MAssertions MAngles MKepler MElements MAvanzini MArora MInit
  Loops Spec SpecElements VecFacts VecXR AnglesXR CallXR RotXR MirrorXR ReverseXR ElementsXR KeplerXR PropertiesAngles PropertiesMotion
  Godal GodalXR GodalPan GodalMore OrbitXR PropertiesOrbit AvanziniXR PropertiesAvanzini PropertiesRotation PropertiesRotAvanzini PropertiesReverse.
From Coq Require Import Floats.SpecFloat.
From Verif Require Import PanTime FloatNum FloatExec PropertiesBudgetF64.
Local Open Scope R_scope.

(** ** Opposite anomalies *)
Lemma xtan_opposite nu nu' : cos nu' = cos nu -> sin nu' = - sin nu -> xtan (Fin (nu' / 2)) = xopp (xtan (Fin (nu / 2))).
Proof.
  intros C S. destruct (half_angle nu) as (C1 & _ & Sn). destruct (half_angle nu') as (C1' & _ & Sn').
  unfold xtan, xpart1. destruct (tan_dom_dec (nu / 2)) as [D|D], (tan_dom_dec (nu' / 2)) as [D'|D'].
  - cbn [xopp xlift1]. f_equal. unfold tan. set (c := cos (nu / 2)) in *. set (c' := cos (nu' / 2)) in *. set (s := sin (nu / 2)) in *. set (s' := sin (nu' / 2)) in *.
    clearbody c c' s s'. assert (Q : c' * c' = c * c) by lra. assert (P : s' * c' = - (s * c)) by lra.
    apply (Rmult_eq_reg_r (c' * c')); [|now apply Rmult_integral_contrapositive_currified].
    transitivity (s' * c'); [field; assumption|]. rewrite P, Q. field. assumption.
  - exfalso. apply D'. intros Z. rewrite Z in C1'. assert (cos (nu / 2) * cos (nu / 2) = 0) by lra. apply Rmult_integral in H. tauto.
  - exfalso. apply D. intros Z. rewrite Z in C1. assert (cos (nu' / 2) * cos (nu' / 2) = 0) by lra. apply Rmult_integral in H. tauto.
  - reflexivity.
Qed.

Lemma xatan_odd x : @natan XR (@nopp XR x) = @nopp XR (@natan XR x).
Proof. destruct x as [x|]; [|reflexivity]. cbn. f_equal. apply atan_opp. Qed.
Lemma xsin_odd x : @nsin XR (@nopp XR x) = @nopp XR (@nsin XR x).
Proof. destruct x as [x|]; [|reflexivity]. cbn. f_equal. apply sin_neg. Qed.
Lemma xsinh_odd x : @nsinh XR (@nopp XR x) = @nopp XR (@nsinh XR x).
Proof. destruct x as [x|]; [|reflexivity]. cbn. f_equal. unfold sinh. rewrite Ropp_involutive. field. Qed.
Lemma xatanh_odd x : @natanh XR (@nopp XR x) = @nopp XR (@natanh XR x).
Proof.
  destruct x as [x|]; [|reflexivity]. cbn. unfold xatanh, xpart1. destruct (open_unit_dec x), (open_unit_dec (- x)); try lra; [|reflexivity].
  cbn [xopp xlift1]. f_equal. now apply artanh_odd.
Qed.
Lemma nsub_opps a b : @nsub XR (@nopp XR a) (@nopp XR b) = @nopp XR (@nsub XR a b).
Proof. destruct a, b; try reflexivity. cbn. f_equal. ring. Qed.
Lemma nadd_opps a b : @nadd XR (@nopp XR a) (@nopp XR b) = @nopp XR (@nadd XR a b).
Proof. destruct a, b; try reflexivity. cbn. f_equal. ring. Qed.
Lemma nsub_swap a b : @nsub XR (@nopp XR a) (@nopp XR b) = @nsub XR b a.
Proof. destruct a, b; try reflexivity. cbn. f_equal. ring. Qed.

Lemma kepler_opposite nu nu' e : cos nu' = cos nu -> sin nu' = - sin nu ->
  @kepler_from_nu XR (Fin nu') (Fin e) = match @kepler_from_nu XR (Fin nu) (Fin e) with Ok m => Ok (@nopp XR m) | Err x => Err x end.
Proof.
  intros C S. pose proof (xtan_opposite nu nu' C S) as T.
  assert (T' : @ntan XR (@ndiv XR (Fin nu') (nofZ 2)) = @nopp XR (@ntan XR (@ndiv XR (Fin nu) (nofZ 2)))) by (xunf; rewrite !xdiv_F by lra; exact T).
  unfold kepler_from_nu, nu_to_E, nu_to_B, nu_to_H. rewrite T'. set (t := @ntan XR _). clearbody t. clear T T' C S.
  destruct (@nltb XR (Fin e) (nofZ 0)); [reflexivity|]. destruct (_ && _).
  - apply f_equal. unfold kepler_elliptic. rewrite nmul_opp_r, xatan_odd, nmul_opp_r, xsin_odd, nmul_opp_r. apply nsub_opps.
  - destruct (@neqb XR (Fin e) (nofZ 1)).
    + apply f_equal. unfold kepler_parabolic, cube. rewrite !nmul_opp_r, !nmul_opp_l, !nmul_opp_r, nopp_opp, ?nmul_opp_r. apply nadd_opps.
    + apply f_equal. unfold kepler_hyperbolic. rewrite nmul_opp_r, xatanh_odd, nmul_opp_r, xsinh_odd, nmul_opp_r. apply nsub_opps.
Qed.

(** ** avanzini2008 *)
Section Ava.
Context (p : bool) (r1 r2 : rvec) (th wc wc' : R) (Hn : non_collinear r1 r2) (Hn' : non_collinear r2 r1)
  (F : angle_facts p r1 r2 th) (F' : angle_facts (negb p) r2 r1 th)
  (Fc : angle_facts p r1 (vminus r2 r1) wc) (Fc' : angle_facts (negb p) r2 (vminus r1 r2) wc').
Let g := @EccGeometry XR (Fin (vnorm r1)) (Fin (vnorm r2)) (Fin (chord r1 r2)) (Fin th) (Fin wc).
Let g' := @EccGeometry XR (Fin (vnorm r2)) (Fin (vnorm r1)) (Fin (chord r2 r1)) (Fin th) (Fin wc').

Lemma chord_rev : chord r2 r1 = chord r1 r2.
Proof. unfold chord, vnorm. f_equal. unfold vdot, vminus. cbn [vx vy vz]. ring. Qed.
Lemma eF_rev : @get_eccF XR (eg_r1 g') (eg_r2 g') (eg_c g') = @nopp XR (@get_eccF XR (eg_r1 g) (eg_r2 g) (eg_c g)).
Proof. unfold get_eccF, g, g'. cbn [eg_r1 eg_r2 eg_c]. rewrite chord_rev, (nsub_anti (Fin (vnorm r2))), ndiv_opp. reflexivity. Qed.
Lemma sq_opp x : @sq XR (@nopp XR x) = @sq XR x.
Proof. unfold sq. now rewrite nmul_opp_l, nmul_opp_r, nopp_opp. Qed.
Lemma eap_rev eT : @eap_from_eccT XR eT g' = @eap_from_eccT XR eT g.
Proof.
  unfold eap_from_eccT. rewrite eF_rev. unfold get_pF, ecc_at_eccT, a_at_eccT, get_aF, p_at_eccT. rewrite !sq_opp. cbn [g g' eg_r1 eg_r2 eg_c eg_dtheta].
  rewrite chord_rev, (nadd_sym (Fin (vnorm r2))).
  assert (E : @nmul XR (@nmul XR eT (Fin (vnorm r2))) (Fin (vnorm r1)) = @nmul XR (@nmul XR eT (Fin (vnorm r1))) (Fin (vnorm r2))) by apply nmul_swap.
  now rewrite E.
Qed.

Lemma fam_e_rev eT : fam_e r2 r1 eT = fam_e r1 r2 eT.
Proof. unfold fam_e. rewrite chord_rev. cbv zeta. pose proof (chord_pos _ _ Hn). f_equal. field. lra. Qed.
Lemma fam_p_rev eT : fam_p r2 r1 th eT = fam_p r1 r2 th eT.
Proof. unfold fam_p. rewrite chord_rev. cbv zeta. pose proof (chord_pos _ _ Hn). field. lra. Qed.

(** The anomalies of the reversed motion are the opposite ones, exchanged. *)
Lemma anomalies_rev eT : fam_e r1 r2 eT <> 0 ->
  let nu := - fam_w r1 r2 wc eT in let nu' := - fam_w r2 r1 wc' eT in
  (cos nu' = cos (nu + th) /\ sin nu' = - sin (nu + th)) /\ (cos (nu' + th) = cos nu /\ sin (nu' + th) = - sin nu).
Proof.
  intros He nu nu'. destruct (norms_pos _ _ Hn) as [N1 N2].
  assert (A1 : fam_p r1 r2 th eT = vnorm r1 * (1 + fam_e r1 r2 eT * cos nu)) by exact (family_r1 p r1 r2 th wc Hn F Fc eT).
  assert (A2 : fam_p r1 r2 th eT = vnorm r2 * (1 + fam_e r1 r2 eT * cos (nu + th))) by exact (family_r2 p r1 r2 th wc Hn F Fc eT).
  assert (B1 : fam_p r2 r1 th eT = vnorm r2 * (1 + fam_e r2 r1 eT * cos nu')) by exact (family_r1 (negb p) r2 r1 th wc' Hn' F' Fc' eT).
  assert (B2 : fam_p r2 r1 th eT = vnorm r1 * (1 + fam_e r2 r1 eT * cos (nu' + th))) by exact (family_r2 (negb p) r2 r1 th wc' Hn' F' Fc' eT).
  rewrite fam_p_rev, fam_e_rev in B1, B2. set (e := fam_e r1 r2 eT) in *. set (q := fam_p r1 r2 th eT) in *. clearbody e q.
  assert (C1 : cos nu' = cos (nu + th)).
  { apply (Rmult_eq_reg_l (vnorm r2 * e)); [|apply Rmult_integral_contrapositive_currified; lra]. lra. }
  assert (C2 : cos (nu' + th) = cos nu).
  { apply (Rmult_eq_reg_l (vnorm r1 * e)); [|apply Rmult_integral_contrapositive_currified; lra]. lra. }
  assert (S0 : sin th <> 0).
  { intros Z. pose proof (af_sin_val _ _ _ _ Hn F) as S. rewrite Z in S. pose proof (vnorm_pos _ Hn). pose proof (sense_sq p r1 r2). nra. }
  assert (EN : cos nu = cos (nu + th) * cos th + sin (nu + th) * sin th) by (rewrite <- cos_minus; f_equal; ring).
  assert (S1 : sin nu' = - sin (nu + th)).
  { apply (Rmult_eq_reg_r (sin th)); [|assumption]. rewrite cos_plus, C1 in C2. lra. }
  assert (S2 : sin (nu' + th) = - sin nu).
  { rewrite sin_plus, C1, S1. replace nu with (nu + th - th) at 3 by ring. rewrite sin_minus. ring. }
  auto.
Qed.

Lemma tof_rev mu eT : @kepler_tof_at_eccT XR eT mu g' = @kepler_tof_at_eccT XR eT mu g.
Proof.
  unfold kepler_tof_at_eccT. rewrite eap_rev. destruct eT as [eT|].
  - destruct (eap_F r1 r2 th wc eT (chord_pos _ _ Hn)) as (a & EA). fold g in EA. rewrite EA.
    assert (EW : @w_at_eccT XR (Fin eT) (get_eccF (eg_r1 g) (eg_r2 g) (eg_c g)) (eg_wc g) = Fin (fam_w r1 r2 wc eT)) by (apply w_F; apply (chord_pos _ _ Hn)).
    assert (EW' : @w_at_eccT XR (Fin eT) (get_eccF (eg_r1 g') (eg_r2 g') (eg_c g')) (eg_wc g') = Fin (fam_w r2 r1 wc' eT)) by (apply w_F; apply (chord_pos _ _ Hn')).
    rewrite EW, EW'. unfold get_true_anomalies. cbn [g g' eg_dtheta].
    assert (T : @nopp XR (Fin (fam_w r1 r2 wc eT)) = Fin (- fam_w r1 r2 wc eT)) by reflexivity. rewrite T. clear T.
    assert (T : @nopp XR (Fin (fam_w r2 r1 wc' eT)) = Fin (- fam_w r2 r1 wc' eT)) by reflexivity. rewrite T. clear T.
    assert (T : forall x, @nadd XR (Fin x) (Fin th) = Fin (x + th)) by reflexivity. rewrite !T. clear T.
    destruct (Req_dec (fam_e r1 r2 eT) 0) as [Z|NZ].
    + assert (ZZ : eT = 0 /\ (vnorm r1 - vnorm r2) / chord r1 r2 = 0).
      { unfold fam_e in Z. cbv zeta in Z. set (x := (vnorm r1 - vnorm r2) / chord r1 r2) in *. apply sqrt_eq_0 in Z; [|nra]. split; nra. }
      destruct ZZ as [-> ZF]. assert (ZF' : (vnorm r2 - vnorm r1) / chord r2 r1 = 0).
      { rewrite chord_rev. transitivity (- ((vnorm r1 - vnorm r2) / chord r1 r2)); [field; pose proof (chord_pos _ _ Hn); lra|rewrite ZF; ring]. }
      assert (W : fam_w r2 r1 wc' 0 = fam_w r1 r2 wc 0).
      { unfold fam_w. cbv zeta. rewrite ZF, ZF'. f_equal; ring. }
      now rewrite W.
    + destruct (anomalies_rev eT NZ) as [[C1 S1] [C2 S2]].
      rewrite (kepler_opposite _ _ _ C1 S1), (kepler_opposite _ _ _ C2 S2).
      destruct (@kepler_from_nu XR (Fin (- fam_w r1 r2 wc eT)) _) as [m1|] eqn:E1;
      destruct (@kepler_from_nu XR (Fin (- fam_w r1 r2 wc eT + th)) _) as [m2|] eqn:E2; cbn [bind].
      * rewrite nsub_swap. reflexivity.
      * unfold kepler_from_nu in E1, E2. destruct (@nltb XR _ _); [discriminate|]. destruct (_ && _); [discriminate|]. destruct (@neqb XR _ _); discriminate.
      * unfold kepler_from_nu in E1, E2. destruct (@nltb XR _ _); [discriminate|]. destruct (_ && _); [discriminate|]. destruct (@neqb XR _ _); discriminate.
      * unfold kepler_from_nu in E1, E2. destruct (@nltb XR _ _); [congruence|]. destruct (_ && _); [discriminate|]. destruct (@neqb XR _ _); discriminate.
  - assert (K : forall x, @kepler_from_nu XR x NaN = Ok NaN).
    { intros x. unfold kepler_from_nu, kepler_hyperbolic, nu_to_H. cbn. reflexivity. }
    unfold eap_from_eccT. unfold ecc_at_eccT. set (e := @nsqrt XR _). assert (EE : e = NaN) by reflexivity. rewrite EE.
    destruct (get_true_anomalies _ _) as [a b]. destruct (get_true_anomalies _ _) as [a' b']. rewrite !K. reflexivity.
Qed.

Lemma ratio_ln T s t : 0 < t -> @nsub XR (@nln XR (@ndiv XR T (Fin t))) (@nln XR (@ndiv XR s (Fin t))) = @nsub XR (@nln XR T) (@nln XR s).
Proof.
  intros Ht. assert (L : forall x, @nln XR (@ndiv XR x (Fin t)) = @nsub XR (@nln XR x) (Fin (ln t))).
  { intros [x|]; [|reflexivity]. xunf. rewrite xdiv_F by lra. unfold xln, xpart1. destruct (Rlt_dec 0 x) as [P|P], (Rlt_dec 0 (x / t)) as [P'|P'].
    - cbn. f_equal. unfold Rdiv. rewrite ln_mult, ln_Rinv; [ring|assumption..|]. now apply Rinv_0_lt_compat.
    - exfalso. apply P'. now apply Rdiv_lt_0_compat.
    - exfalso. apply P. replace x with (x / t * t) by (field; lra). now apply Rmult_lt_0_compat.
    - reflexivity. }
  rewrite !L. destruct (@nln XR T), (@nln XR s); try reflexivity. cbn. f_equal. ring.
Qed.

Lemma f_rev x h mu s : 0 < mu -> @ava_f XR x h (Fin mu) g' s = @ava_f XR x h (Fin mu) g s.
Proof.
  intros Hm. unfold ava_f. cbv zeta. rewrite tof_rev. destruct (kepler_tof_at_eccT _ _ _) as [T|]; [|reflexivity]. cbn [bind]. f_equal.
  destruct (norms_pos _ _ Hn) as [N1 N2].
  assert (E : forall n, 0 < n -> exists t, 0 < t /\ @nsqrt XR (@ndiv XR (@cube XR (Fin n)) (Fin mu)) = Fin t).
  { intros n P. assert (P3 : 0 < n * n * n / mu) by (apply Rdiv_lt_0_compat; [exact (Rmult_lt_0_compat _ _ (Rmult_lt_0_compat _ _ P P) P)|assumption]).
    exists (sqrt (n * n * n / mu)). split; [now apply sqrt_lt_R0|]. unfold cube. xunf. cbn [xmul xlift2]. rewrite xdiv_F by lra. apply xsqrt_F. lra. }
  cbn [g g' eg_r1]. destruct (E _ N1) as (t1 & P1 & ->). destruct (E _ N2) as (t2 & P2 & ->). now rewrite !ratio_ln.
Qed.

Lemma eccT_rev : @ava_eccT_at_x XR g' = @ava_eccT_at_x XR g.
Proof.
  apply functional_extensionality. intros x. unfold ava_eccT_at_x, ava_eccT_limits. rewrite eF_rev, !sq_opp. reflexivity.
Qed.
End Ava.

Lemma sense_rev p r1 r2 : sense (negb p) r2 r1 = sense p r1 r2.
Proof.
  pose proof (rev_short_way p r1 r2) as W. unfold sense. destruct (short_way_dec (negb p) r2 r1), (short_way_dec p r1 r2); try reflexivity; tauto.
Qed.

Lemma rev_norm r1 r2 : vnorm (vcross r2 r1) = vnorm (vcross r1 r2).
Proof. unfold vnorm. f_equal. unfold vdot, vcross. cbn [vx vy vz]. ring. Qed.

Lemma velocities_rev mu p r1 r2 ecc_T : 0 < mu -> non_collinear r1 r2 -> ~ equatorial r1 r2 ->
  @ava_velocities XR (Fin mu) ecc_T (vfin r2) (vfin r1) (negb p) =
  match @ava_velocities XR (Fin mu) ecc_T (vfin r1) (vfin r2) p with
  | Ok (v1, v2) => Ok (@vopp XR v2, @vopp XR v1)
  | Err e => Err e
  end.
Proof.
  intros Hm Hn Hne. assert (Hn' : non_collinear r2 r1) by (intros E; apply Hn; now apply rev_zero).
  assert (Hne' : ~ equatorial r2 r1).
  { intros [X Y]. apply Hne. unfold equatorial. rewrite (rev_cross r1 r2) in X, Y. unfold vmult in X, Y. cbn [vx vy] in X, Y. split; lra. }
  assert (H1 : r1 <> vzero) by exact (vcross_nonzero_l _ _ Hn). assert (H2 : r2 <> vzero) by exact (vcross_nonzero_l _ _ Hn').
  destruct (geometry_F p r1 r2 Hn) as (th & wc & EG & F & Fc). destruct (geometry_F (negb p) r2 r1 Hn') as (th' & wc' & EG' & F' & Fc').
  assert (ET : th' = th).
  { destruct (transfer_angle r1 r2 p Hn) as (x & X & _). destruct (transfer_angle r2 r1 (negb p) Hn') as (x' & X' & _).
    assert (x' = x) by (rewrite rev_angle, X in X' by assumption; now injection X'). subst x'.
    revert EG EG'. unfold get_geometry. cbv zeta. rewrite X, X'. destruct (assert_transfer_angle_not_zero _); cbn [bind]; [|discriminate].
    intros A B. apply Ok_inj in A. apply Ok_inj in B. congruence. }
  subst th'.
  pose proof (fun eT => fam_p_rev r1 r2 th Hn eT) as FP. pose proof (fun eT => fam_e_rev r1 r2 Hn eT) as FE.
  destruct (velocities_cases mu p _ _ th wc ecc_T Hm Hn EG) as [(eT & v1 & v2 & E & HQ & EV)|[HQ EV]];
  destruct (velocities_cases mu (negb p) _ _ th wc' ecc_T Hm Hn' EG') as [(eT' & w1 & w2 & E' & HQ' & EV')|[HQ' EV']].
  - rewrite EV, EV'. rewrite !vopp_F.
    destruct (avanzini_conic _ _ _ _ _ _ _ Hm Hn Hne EV) as (x & th1 & wc1 & i & o & w & X & G & Q & P1 & P2 & R1 & R2 & V1 & V2 & W).
    destruct (avanzini_conic _ _ _ _ _ _ _ Hm Hn' Hne' EV') as (x' & th1' & wc1' & i' & o' & w' & X' & G' & Q' & P1' & P2' & R1' & R2' & V1' & V2' & W').
    rewrite EG in G. apply Ok_inj in G. injection G as <- <-. rewrite EG' in G'. apply Ok_inj in G'. injection G' as <- <-.
    rewrite X in X'. injection X' as <-. rewrite FP, FE in *.
    rewrite sense_rev, rev_norm, (rev_cross r1 r2) in W'.
    rewrite conic_velocity_radial in V1, V2, V1', V2' by assumption.
    rewrite <- R1 in V1. rewrite <- R2 in V2. rewrite <- R1' in V1'. rewrite <- R2' in V2'.
    set (nu := - fam_w r1 r2 wc x) in *. set (nu' := - fam_w r2 r1 wc' x) in *.
    assert (A : (cos nu' = cos (nu + th) /\ fam_e r1 r2 x * sin nu' = fam_e r1 r2 x * - sin (nu + th)) /\
                (cos (nu' + th) = cos nu /\ fam_e r1 r2 x * sin (nu' + th) = fam_e r1 r2 x * - sin nu) \/ fam_e r1 r2 x = 0).
    { destruct (Req_dec (fam_e r1 r2 x) 0) as [Z|NZ]; [now right|left].
      destruct (anomalies_rev p r1 r2 th wc wc' Hn Hn' F F' Fc Fc' x NZ) as [[C1 S1] [C2 S2]]. fold nu nu' in C1, S1, C2, S2. rewrite C1, S1, C2, S2. auto. }
    assert (WW : frame_W i' o' = vmult (-1) (frame_W i o)) by (rewrite W, W'; apply vec_eq; unfold vmult; cbn [vx vy vz]; ring).
    rewrite WW in V1', V2'. set (e := fam_e r1 r2 x) in *. set (q := fam_p r1 r2 th x) in *. set (s := sqrt (mu / q)) in *. set (N := frame_W i o) in *.
    clearbody e q s N nu nu'.
    assert (Z1 : w1 = vmult (-1) v2).
    { rewrite V1', V2. destruct A as [[[C1 S1] _]| ->].
      - rewrite C1. replace (s * e * sin nu') with (s * (e * sin nu')) by ring. rewrite S1. apply vec_eq; unfold vplus, vmult, vcross; cbn [vx vy vz]; unfold Rdiv; ring.
      - apply vec_eq; unfold vplus, vmult, vcross; cbn [vx vy vz]; unfold Rdiv; ring. }
    assert (Z2 : w2 = vmult (-1) v1).
    { rewrite V2', V1. destruct A as [[_ [C1 S1]]| ->].
      - rewrite C1. replace (s * e * sin (nu' + th)) with (s * (e * sin (nu' + th))) by ring. rewrite S1. apply vec_eq; unfold vplus, vmult, vcross; cbn [vx vy vz]; unfold Rdiv; ring.
      - apply vec_eq; unfold vplus, vmult, vcross; cbn [vx vy vz]; unfold Rdiv; ring. }
    now rewrite Z1, Z2.
  - exfalso. specialize (HQ' eT E). rewrite FP in HQ'. lra.
  - exfalso. specialize (HQ eT' E'). rewrite FP in HQ'. lra.
  - rewrite EV, EV'. reflexivity.
Qed.

Theorem C59_avanzini : forall ev mu r1 r2 tof M prograde low_path maxiter atol rtol full_output,
  non_collinear r1 r2 -> ~ equatorial r1 r2 ->
  @run XR Avanzini ev (call mu r2 r1 tof M (negb prograde) low_path maxiter atol rtol full_output)
  = res_rev (@run XR Avanzini ev (call mu r1 r2 tof M prograde low_path maxiter atol rtol full_output)).
Proof.
  intros ev mu r1 r2 tof M p l mi a r f Hn Hne. cbn [run]. unfold avanzini2008. cbn [call a_M].
  assert (Hn' : non_collinear r2 r1) by (intros E; apply Hn; now apply rev_zero).
  assert (H1 : r1 <> vzero) by exact (vcross_nonzero_l _ _ Hn). assert (H2 : r2 <> vzero) by exact (vcross_nonzero_l _ _ Hn').
  destruct (raise_if _ _); [|reflexivity]. cbn [bind].
  apply validated_rev; [assumption..|]. intros (Hmu & _).
  cbn [call a_mu a_tof a_M a_is_prograde a_is_low_path a_maxiter a_atol a_rtol a_full_output].
  destruct (geometry_F p r1 r2 Hn) as (th & wc & EG & F & Fc). destruct (geometry_F (negb p) r2 r1 Hn') as (th' & wc' & EG' & F' & Fc').
  assert (ET : th' = th).
  { destruct (transfer_angle r1 r2 p Hn) as (x & X & _). destruct (transfer_angle r2 r1 (negb p) Hn') as (x' & X' & _).
    assert (x' = x) by (rewrite rev_angle, X in X' by assumption; now injection X'). subst x'.
    revert EG EG'. unfold get_geometry. cbv zeta. rewrite X, X'. destruct (assert_transfer_angle_not_zero _); cbn [bind]; [|discriminate].
    intros A B. apply Ok_inj in A. apply Ok_inj in B. congruence. }
  subst th'. rewrite EG, EG'. cbn [bind].
  assert (ES : forall h, (fun x => @ava_f XR x h (Fin mu) (@EccGeometry XR (Fin (vnorm r2)) (Fin (vnorm r1)) (Fin (chord r2 r1)) (Fin th) (Fin wc')) (Fin tof))
    = (fun x => @ava_f XR x h (Fin mu) (@EccGeometry XR (Fin (vnorm r1)) (Fin (vnorm r2)) (Fin (chord r1 r2)) (Fin th) (Fin wc)) (Fin tof))).
  { intros h. apply functional_extensionality. intros x. now apply (f_rev p). }
  rewrite (eccT_rev r1 r2 th wc wc'), ES.
  destruct (ava_secant _ _ _ _ _) as [[x n]|]; [|reflexivity]. cbn [bind].
  destruct (time_per_iteration _ _ _) as [tpi|]; [|reflexivity]. cbn [bind].
  rewrite velocities_rev by assumption. destruct (ava_velocities _ _ _ _ _) as [[v1 v2]|]; [|reflexivity].
  cbn [bind]. destruct f; reflexivity.
Qed.
Print Assumptions C59_avanzini.

(** A transfer meeting the hypotheses is answered both ways. *)
Example C59_avanzini_case : forall ev, non_collinear ex_r1 ex_r2c /\ ~ equatorial ex_r1 ex_r2c /\ exists o v1 v2 o',
  @run XR Avanzini ev (call 1 ex_r1 ex_r2c (PI / 2) 0 true true 35 (1 / 100000) (1 / 10000000) false) = Ok o /\ delivers o v1 v2 /\
  @run XR Avanzini ev (call 1 ex_r2c ex_r1 (PI / 2) 0 false true 35 (1 / 100000) (1 / 10000000) false) = Ok o' /\
  delivers o' (vmult (-1) v2) (vmult (-1) v1).
Proof.
  intros ev. destruct (C31_avanzini_case ev) as (A & B & o & v1 & v2 & R & D). split; [exact A|]. split; [exact B|]. exists o, v1, v2, (out_rev o).
  split; [exact R|]. split; [exact D|]. split.
  - change false with (negb true) at 1. rewrite C59_avanzini, R by assumption. reflexivity.
  - destruct o; cbn [out_rev]; unfold delivers in *; cbn in *; destruct D as [-> ->]; now rewrite !vopp_F.
Qed.

(** ** arora2013 *)

Lemma scale_opp k (u : vec xr) : @vmap xr xr (fun a => @nmul XR a k) (@vopp XR u) = @vopp XR (@vmap xr xr (fun a => @nmul XR a k) u).
Proof. destruct u as [x y z]. unfold vopp, vmap. cbn [vx vy vz]. now rewrite !nmul_opp_l. Qed.

(** Between positions at the same distance. *)
Theorem C59_arora : forall ev mu r1 r2 tof M prograde low_path maxiter atol rtol full_output,
  r1 <> vzero -> vnorm r1 = vnorm r2 ->
  @run XR Arora ev (call mu r2 r1 tof M (negb prograde) low_path maxiter atol rtol full_output)
  = res_rev (@run XR Arora ev (call mu r1 r2 tof M prograde low_path maxiter atol rtol full_output)).
Proof.
  intros ev mu r1 r2 tof M p l mi a r f H1 Q. cbn [run]. pose proof (vnorm_pos _ H1) as N1.
  assert (H2 : r2 <> vzero).
  { intros E. rewrite E in Q. unfold vnorm at 2, vdot, vzero in Q. cbn [vx vy vz] in Q. replace (0 * 0 + 0 * 0 + 0 * 0) with 0 in Q by ring. rewrite sqrt_0 in Q. lra. }
  unfold arora2013. apply validated_rev; [assumption..|]. intros _.
  cbn [call a_mu a_tof a_M a_is_prograde a_is_low_path a_maxiter a_atol a_rtol a_full_output]. cbv zeta.
  rewrite rev_angle, !norm_F, <- Q by assumption. rewrite !vdivs_F, !norm_F by lra.
  assert (E : vnorm (vmult (/ vnorm r1) r2) = vnorm (vmult (/ vnorm r1) r1)) by (rewrite !vnorm_mult, Q; reflexivity).
  rewrite E. set (n := vnorm (vmult _ r1)). alike_rev. unfold aro_velocities. cbv zeta.
  apply mk_rev; [rewrite lagrange_rev|rewrite lagrange_rev']; apply scale_opp.
Qed.
Print Assumptions C59_arora.

(** Otherwise the tolerance, which is taken in a unit of time made of the first distance,
    is another one for the reversed problem: the quarter turn from (1,0,0) to (0,100,0)
    takes three passes in one direction and two in the other (double precision). *)
Theorem C59_arora_refuted :
  let go (a b : list f64) prograde := @run F64 Arora test_env
    (@Args F64 (fofZ 1) a b (fofZ 300) 0 prograde true 100 (flit 1 100000) (flit 1 10000000) true) in
  let a := [fofZ 1; fofZ 0; fofZ 0] in let b := [fofZ 0; fofZ 100; fofZ 0] in
  (exists v1 v2 t, go a b true = Ok (Full v1 v2 3 t)) /\ (exists v1 v2 t, go b a false = Ok (Full v1 v2 2 t)).
Proof. split; apply count_some; vm_compute; reflexivity. Qed.
Print Assumptions C59_arora_refuted.

(** Equal distances: the quarter turn of the unit circle, which is answered in both
    directions after as many passes in double precision. *)
Example C59_arora_case : ex_r1 <> vzero /\ vnorm ex_r1 = vnorm ex_r2 /\
  let go (a b : list f64) prograde := @run F64 Arora test_env
    (@Args F64 (fofZ 1) a b (fofZ 2) 0 prograde true 100 (flit 1 100000) (flit 1 10000000) true) in
  let a := [fofZ 1; fofZ 0; fofZ 0] in let b := [fofZ 0; fofZ 1; fofZ 0] in
  (exists v1 v2 t, go a b true = Ok (Full v1 v2 2 t)) /\ (exists v1 v2 t, go b a false = Ok (Full v1 v2 2 t)).
Proof.
  split; [intros E; apply (f_equal vx) in E; unfold ex_r1, vzero in E; cbn [vx] in E; lra|]. split.
  - unfold vnorm, vdot, ex_r1, ex_r2. cbn [vx vy vz]. f_equal. ring.
  - split; apply count_some; vm_compute; reflexivity.
Qed.
