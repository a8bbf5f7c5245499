(** * mcelreath2025's derivatives are derivatives: C27. *)
From Coq Require Import Reals ZArith Bool Lra Lia Psatz.
From Coquelicot Require Import Coquelicot.
From Verif Require Import Num XReal XRealLemmas MApi MLinalg MAngles MComplex MMcelreath Spec SpecLambert VecFacts VecXR Godal GodalXR LambertZ OrbitXR CallXR ComplexXR McelreathXR McelreathDeriv PropertiesMcelreath
  PropertiesAngles PropertiesMotion PropertiesOrbit PropertiesStumpff.
Local Open Scope R_scope.

(** On the real axis (elliptic transfers, any number of revolutions) the
    quadruple [_tof_equation_full] returns is a function of [x] together with
    its first three derivatives. *)
Theorem C27_mcelreath_derivatives : forall Rs m : R, - Rs < 2 * m < Rs ->
  exists T T1 T2 T3 : R -> R, forall x : R, sin (x / 2) <> 0 ->
    @mce_tof_equation XR (creal (Fin x)) (Fin Rs) (Fin m) = creal (Fin (T x)) /\
    @mce_tof_equation_full XR (creal (Fin x)) (Fin Rs) (Fin m) =
      (creal (Fin (T x)), creal (Fin (T1 x)), creal (Fin (T2 x)), creal (Fin (T3 x))) /\
    is_derive T x (T1 x) /\ is_derive T1 x (T2 x) /\ is_derive T2 x (T3 x).
Proof.
  intros Rs m Hm. exists (mt Rs m), (et1 Rs m), (et2 Rs m), (et3 Rs m). intros x H. rewrite !creal_F.
  split; [apply mce_tof_r; [now apply my_pos|assumption]|]. split; [now apply mce_full_r|].
  split; [now apply mt_deriv|]. split; [now apply et1_deriv|now apply et2_deriv].
Qed.
Print Assumptions C27_mcelreath_derivatives.

(** On the imaginary axis (hyperbolic transfers) [x = i w]: the time is real,
    and by the chain rule its derivatives in [x] are [-i], [-1] and [i] times
    those in [w]. *)
Theorem C27_mcelreath_derivatives_imaginary : forall Rs m : R,
  exists T T1 T2 T3 : R -> R, forall w : R, w <> 0 -> 0 < Rs - 2 * m * cosh (w / 2) ->
    @mce_tof_equation XR (@MComplex.C XR (Fin 0) (Fin w)) (Fin Rs) (Fin m) = creal (Fin (T w)) /\
    @mce_tof_equation_full XR (@MComplex.C XR (Fin 0) (Fin w)) (Fin Rs) (Fin m) =
      (creal (Fin (T w)), @MComplex.C XR (Fin 0) (Fin (- T1 w)), creal (Fin (- T2 w)), @MComplex.C XR (Fin 0) (Fin (T3 w))) /\
    is_derive T w (T1 w) /\ is_derive T1 w (T2 w) /\ is_derive T2 w (T3 w).
Proof.
  intros Rs m. exists (ht Rs m), (ht1 Rs m), (ht2 Rs m), (ht3 Rs m). intros w H Hy. rewrite !creal_F. change (@MComplex.C XR (Fin 0) (Fin w)) with (ci w).
  split; [now apply mce_tof_i|]. split; [now apply mce_full_i|].
  split; [now apply ht_deriv|]. split; [now apply ht1_deriv|now apply ht2_deriv].
Qed.
Print Assumptions C27_mcelreath_derivatives_imaginary.

(** The hypothesis on [m] is met by every geometry the solver is given. *)
Theorem C27_mcelreath_domain :
  forall r1 r2 M prograde, vz (vcross r1 r2) <> 0 -> (0 <= M)%Z ->
  exists Rs m : R,
    nadd (@norm XR (vfin r1)) (@norm XR (vfin r2)) = Fin Rs /\
    @mce_m XR (norm (vfin r1)) (norm (vfin r2)) (get_transfer_angle (vfin r1) (vfin r2) prograde) M = Fin m /\
    - Rs < 2 * m < Rs.
Proof.
  intros r1 r2 M p Hz HM. pose proof (vz_non_collinear _ _ Hz) as Hn. rewrite !norm_F.
  destruct (transfer_angle r1 r2 p Hn) as (th & ET & F). rewrite ET. rewrite (mce_m_F r1 r2 th M Hn).
  eexists; eexists. split; [reflexivity|]. split; [reflexivity|].
  destruct (norms_pos _ _ Hn) as [N1 N2]. assert (P : 0 < vnorm r1 * vnorm r2) by now apply Rmult_lt_0_compat.
  destruct (sqrt_facts _ P) as [Q1 Q2]. pose proof (sgM_sq M HM) as S. pose proof (af_range _ _ _ _ F) as RG.
  assert (Sh : 0 < sin (th / 2)) by (apply sin_gt_0; lra). pose proof (sin2_cos2 (th / 2)) as E. unfold Rsqr in E.
  set (k := sqrt (vnorm r1 * vnorm r2)) in *. set (c := cos (th / 2)) in *. set (s := sin (th / 2)) in *. set (g := sgM M) in *.
  set (a := vnorm r1) in *. set (b := vnorm r2) in *. clearbody k c s g a b.
  assert (I : (2 * (g * (k * c))) * (2 * (g * (k * c))) < (a + b) * (a + b)).
  { replace ((2 * (g * (k * c))) * (2 * (g * (k * c)))) with (4 * (g * g) * (k * k) * (c * c)) by ring. rewrite S, Q2.
    assert (0 < s * s) by now apply Rmult_lt_0_compat. assert (0 < a * b * (s * s)) by now apply Rmult_lt_0_compat. assert (c * c = 1 - s * s) as -> by lra.
    pose proof (Rle_0_sqr (a - b)) as SQ. unfold Rsqr in SQ. lra. }
  set (y := 2 * (g * (k * c))) in *. clearbody y. split; nra.
Qed.
Print Assumptions C27_mcelreath_domain.

(** Equal radii a quarter turn apart: [Rs = 2], [m = 1 / sqrt 2], [x = PI / 2]. *)
Example C27_mcelreath_case : - 2 < 2 * (1 / sqrt 2) < 2 /\ sin (PI / 2 / 2) <> 0.
Proof.
  destruct (sqrt_facts 2) as [W1 W2]; [lra|]. assert (I : 1 / sqrt 2 = sqrt 2 / 2) by (field_simplify_eq; [|lra]; lra). rewrite I.
  assert (sqrt 2 < 2) by nra. split; [lra|]. pose proof PI_RGT_0. assert (0 < sin (PI / 2 / 2)) by (apply sin_gt_0; lra). lra.
Qed.
