(** * Lemmas for C30, part 2: gooding1990 and avanzini2008. *)
From Coq Require Import Reals ZArith String List Bool Lra Lia FunctionalExtensionality.
Import ListNotations.
From Verif Require Import Num XReal XRealLemmas MApi MAssertions MLinalg MAngles MScipy MComplex MKepler MElements MGauss MBattin MJiang MPan
  MGooding MDer MThorne MAvanzini MArora MVallado MIzzo MNegrete MMcelreath MDelatorre MInit
  Spec VecFacts VecXR AnglesXR CallXR ScaleXR GodalXR PropertiesAngles PropertiesMotion PropertiesOrbit UnitsOne.
Local Open Scope R_scope.
Section R.
Variables (a T : R).
Hypothesis Ha : 0 < a.
Hypothesis HT : 0 < T.
Variables (mu : R) (r1 r2 : rvec) (tof : R) (M : Z) (p l : bool) (mi : Z) (at_ rt : R) (fo : bool).
Notation c := (call mu r1 r2 tof M p l mi at_ rt fo).
Notation c' := (call (fac a T 6 (-2) * mu) (vmult (fac a T 2 0) r1) (vmult (fac a T 2 0) r2) (fac a T 0 1 * tof) M p l mi at_ rt fo).
Notation K := (fac a T 2 (-1)).
Ltac start := apply (validated_scale a T Ha HT); intros (_ & H1 & _);
  cbn [call a_mu a_tof a_M a_is_prograde a_is_low_path a_maxiter a_atol a_rtol a_full_output]; rewrite ?dim_F.

Lemma gooding_units ev : @gooding1990 XR ev c' = res_scale K (@gooding1990 XR ev c).
Proof.
  unfold gooding1990. start. cbv zeta. scalew Ha HT.
  destruct (assert_transfer_angle_not_zero _); [|reflexivity]. cbn [bind].
  unfold vlamb. destruct (goo_reduce _ _) as [[th m]| |]; try reflexivity.
  unfold goo_geometry. cbv zeta. scalew Ha HT.
  change (@num XR) with xr. 
  match goal with |- context [if @nneqb XR ?a ?b then _ else _] => destruct (@nneqb XR a b) end;
  scalew Ha HT; (destruct (xlamb _ _ _ _ _ _ _ _ _) as [[[[[n x1] x2] ni] tpi]|]; [|reflexivity]); cbn [bind];
  unfold goo_components; destruct (tlamb _ _ _ _ _) as [[[? ?] ?] ?]; cbv zeta; scalew Ha HT; cbn [bind]; scalew Ha HT; same.
Qed.


Lemma dim_atan2 i j x y : @natan2 XR (dim a T i j y) (dim a T i j x) = @natan2 XR y x.
Proof.
  Transparent dim. pose proof (fac_pos a T Ha HT i j) as F. unfold dim. xunf. destruct x as [x|], y as [y|]; cbn [xmul xlift2]; try reflexivity.
  set (k := fac a T i j) in *. clearbody k. cbn [xmul xlift2 xlift1]. apply (f_equal Fin). unfold Ratan2.
  assert (S : forall z, 0 < z <-> 0 < k * z).
  { intros z. split; intros; [apply Rmult_lt_0_compat; assumption|]. apply Rmult_lt_reg_l with k; lra. }
  assert (S' : forall z, z < 0 <-> k * z < 0).
  { intros z. pose proof (S (- z)) as Q. split; intros; [|assert (0 < - z); [apply Q|]; lra].
    assert (0 < k * - z); [apply Q|]; lra. }
  pose proof (S x); pose proof (S' x); pose proof (S y); pose proof (S' y).
  assert (E : x <> 0 -> k * y / (k * x) = y / x) by (intros; field; lra).
  destruct (Rlt_dec 0 x), (Rlt_dec 0 (k * x)); try (exfalso; tauto); [now rewrite E by lra|].
  destruct (Rlt_dec x 0), (Rlt_dec (k * x) 0); try (exfalso; tauto).
  - rewrite E by lra. destruct (Rle_dec 0 y) as [Y|Y], (Rle_dec 0 (k * y)) as [Y'|Y']; try reflexivity; exfalso.
    + apply Y'. apply Rmult_le_pos; lra.
    + apply Y. apply Rmult_le_reg_l with k; lra.
  - destruct (Rlt_dec 0 y), (Rlt_dec 0 (k * y)); try (exfalso; tauto); [reflexivity|].
    destruct (Rlt_dec y 0), (Rlt_dec (k * y) 0); try (exfalso; tauto); reflexivity.
Qed.
#[local] Opaque dim.

Definition geo (g : @ecc_geometry XR) : @ecc_geometry XR :=
  @EccGeometry XR (dim a T 2 0 (eg_r1 g)) (dim a T 2 0 (eg_r2 g)) (dim a T 2 0 (eg_c g)) (eg_dtheta g) (eg_wc g).
Lemma eap_units g eT :
  @eap_from_eccT XR eT (geo g) = let '(e, s, p) := @eap_from_eccT XR eT g in (e, dim a T 2 0 s, dim a T 2 0 p).
Proof.
  unfold eap_from_eccT, get_eccF, get_aF, get_pF, ecc_at_eccT, p_at_eccT, a_at_eccT, geo. cbn [eg_r1 eg_r2 eg_c eg_dtheta].
  scalew Ha HT. reflexivity.
Qed.
Lemma eccF_units g : @get_eccF XR (eg_r1 (geo g)) (eg_r2 (geo g)) (eg_c (geo g)) = @get_eccF XR (eg_r1 g) (eg_r2 g) (eg_c g).
Proof. unfold get_eccF, geo. cbn [eg_r1 eg_r2 eg_c]. scalew Ha HT. reflexivity. Qed.
Lemma eccT_units g x : @ava_eccT_at_x XR (geo g) x = @ava_eccT_at_x XR g x.
Proof. unfold ava_eccT_at_x, ava_eccT_limits. cbv zeta. rewrite !eccF_units. reflexivity. Qed.
Lemma kepler_units g eT m :
  @kepler_tof_at_eccT XR eT (dim a T 6 (-2) m) (geo g) = match @kepler_tof_at_eccT XR eT m g with Ok t => Ok (dim a T 0 1 t) | Err e => Err e end.
Proof.
  unfold kepler_tof_at_eccT. rewrite eap_units, eccF_units. cbn [geo eg_dtheta eg_wc].
  destruct (eap_from_eccT _ _) as [[e s] q]. destruct (get_true_anomalies _ _) as [n1 n2].
  destruct (kepler_from_nu n1 e) as [M1|]; [|reflexivity]. cbn [bind].
  destruct (kepler_from_nu n2 e) as [M2|]; [|reflexivity]. cbn [bind]. cbv zeta. scalew Ha HT.
  destruct (_ && _). { destruct (nltb _ _); reflexivity. }
  destruct (neqb _ _); [|reflexivity]. destruct (nltb _ _); [|reflexivity].
  f_equal. Transparent dim. unfold dim. xunf. unfold xdiv. cbn. destruct (Req_EM_T 0 0); [reflexivity|lra].
Qed.
#[local] Opaque dim.
Lemma f_units g m t x : @ava_f XR x (@ava_eccT_at_x XR (geo g)) (dim a T 6 (-2) m) (geo g) (dim a T 0 1 t) = @ava_f XR x (@ava_eccT_at_x XR g) m g t.
Proof.
  unfold ava_f. rewrite eccT_units, kepler_units. destruct (kepler_tof_at_eccT _ _ _) as [t12|]; [|reflexivity]. cbn [bind].
  cbn [geo eg_r1]. cbv zeta. scalew Ha HT. reflexivity.
Qed.
Lemma geometry_units u v q : @get_geometry XR (vdim a T 2 0 u) (vdim a T 2 0 v) q = match @get_geometry XR u v q with Ok g => Ok (geo g) | Err e => Err e end.
Proof. unfold get_geometry. cbv zeta. scalew Ha HT. destruct (assert_transfer_angle_not_zero _); reflexivity. Qed.
Lemma coe_units eT u v q : @coe_at_eccT XR eT (vdim a T 2 0 u) (vdim a T 2 0 v) q
  = match @coe_at_eccT XR eT u v q with Ok (q, e, i, ra, ar, n1, n2) => Ok (dim a T 2 0 q, e, i, ra, ar, n1, n2) | Err e => Err e end.
Proof.
  unfold coe_at_eccT. rewrite geometry_units. destruct (@get_geometry XR u v q) as [g|]; [|reflexivity]. cbn [bind].
  rewrite eap_units, eccF_units. cbn [geo eg_dtheta eg_wc].
  destruct (eap_from_eccT _ _) as [[e s] w]. destruct (get_true_anomalies _ _) as [n1 n2]. scalew Ha HT.
  destruct (get_orbit_inc_and_raan_from_position_vectors _ _ _) as [i ra]. cbv zeta. scalew Ha HT. rewrite dim_atan2. reflexivity.
Qed.
Lemma coe2rv_units m q e i ra ar nu :
  match @coe2rv XR m q e i ra ar nu with
  | Ok (x, w) => exists x', @coe2rv XR (dim a T 6 (-2) m) (dim a T 2 0 q) e i ra ar nu = Ok (x', vdim a T 2 (-1) w)
  | Err e1 => @coe2rv XR (dim a T 6 (-2) m) (dim a T 2 0 q) e i ra ar nu = Err e1 end.
Proof.
  unfold coe2rv, rv_pqw. cbv zeta. scalew Ha HT. destruct (coe_rotation_matrix i ra ar) as [rm|]; [|reflexivity]. cbn [bind].
  eexists. f_equal. f_equal. rewrite <- vdim_eq. unfold mvmul. destruct rm as [A B C]. unfold vmap. cbn [vx vy vz]. scalew Ha HT. reflexivity.
Qed.
Lemma avanzini_units ev : @avanzini2008 XR ev c' = res_scale K (@avanzini2008 XR ev c).
Proof.
  unfold avanzini2008. cbn [call a_M]. destruct (raise_if _ _); [|reflexivity]. cbn [bind]. start.
  rewrite geometry_units. destruct (get_geometry _ _ _) as [g|]; [|reflexivity]. cbn [bind].
  assert (E : (fun x => @ava_f XR x (@ava_eccT_at_x XR (geo g)) (dim a T 6 (-2) (Fin mu)) (geo g) (dim a T 0 1 (Fin tof)))
    = (fun x => @ava_f XR x (@ava_eccT_at_x XR g) (Fin mu) g (Fin tof))).
  { extensionality x. apply f_units. }
  rewrite E. clear E. destruct (ava_secant _ _ _ _ _) as [[x n]|]; [|reflexivity]. cbn [bind].
  destruct (time_per_iteration _ _ _) as [tpi|]; [|reflexivity]. cbn [bind]. rewrite eccT_units.
  unfold ava_velocities. rewrite coe_units. destruct (coe_at_eccT _ _ _ _) as [[[[[[[q e] i] ra] ar] n1] n2]|]; [|reflexivity]. cbn [bind].
  pose proof (coe2rv_units (Fin mu) q e i ra ar n1) as E1. pose proof (coe2rv_units (Fin mu) q e i ra ar n2) as E2.
  destruct (@coe2rv XR (Fin mu) q e i ra ar n1) as [[? w1]|]; [destruct E1 as [x1 E1]|]; rewrite E1; [|reflexivity]. cbn [bind].
  destruct (@coe2rv XR (Fin mu) q e i ra ar n2) as [[? w2]|]; [destruct E2 as [x2 E2]|]; rewrite E2; [|reflexivity]. cbn [bind].
  apply out_dim.
Qed.
End R.
