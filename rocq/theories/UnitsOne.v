(** * Lemmas for C30 (change of units), part 1: gauss1809, battin1984, arora2013, der2011, izzo2015. *)
From Coq Require Import Reals ZArith String List Bool Lra Lia.
Import ListNotations.
From Verif Require Import Num XReal XRealLemmas MApi MAssertions MLinalg MAngles MScipy MComplex MKepler MElements MGauss MBattin MJiang MPan
  MGooding MDer MThorne MAvanzini MArora MVallado MIzzo MNegrete MMcelreath MDelatorre MInit
  Spec VecFacts VecXR AnglesXR CallXR ScaleXR GodalXR PropertiesAngles PropertiesMotion PropertiesOrbit.
Local Open Scope R_scope.

Ltac same := repeat match goal with
  | |- Err _ = res_scale _ (Err _) => reflexivity
  | |- Ok (mk_out ?f _ _ _ _) = res_scale _ (Ok (mk_out ?f _ _ _ _)) => apply out_dim
  | |- Ok (Pair _ _) = res_scale _ (Ok (Pair _ _)) => apply pair_dim
  | |- bind ?x _ = res_scale _ (bind ?x _) => destruct x; cbn [bind]
  | |- (if ?b then _ else _) = res_scale _ (if ?b then _ else _) => destruct b
  | |- (match ?x with _ => _ end) = res_scale _ (match ?x with _ => _ end) => destruct x
  end.

Section R.
Variables (a T : R).
Hypothesis Ha : 0 < a.
Hypothesis HT : 0 < T.
Variables (mu : R) (r1 r2 : rvec) (tof : R) (M : Z) (p l : bool) (mi : Z) (at_ rt : R) (fo : bool).
Notation c := (call mu r1 r2 tof M p l mi at_ rt fo).
Notation c' := (call (fac a T 6 (-2) * mu) (vmult (fac a T 2 0) r1) (vmult (fac a T 2 0) r2) (fac a T 0 1 * tof) M p l mi at_ rt fo).
Notation K := (fac a T 2 (-1)).
Ltac start := apply (validated_scale a T Ha HT); intros (_ & H1 & _);
  cbn [call a_mu a_tof a_M a_is_prograde a_is_low_path a_maxiter a_atol a_rtol a_full_output]; rewrite ?dim_F.

Lemma battin_units clock : @battin1984 XR clock c' = res_scale K (@battin1984 XR clock c).
Proof.
  unfold battin1984. start. unfold bat_lambda, bat_m. cbv zeta. scalew Ha HT. same. unfold bat_velocities. cbv zeta. scalew Ha HT. same.
Qed.
Lemma gauss_units clock : @gauss1809 XR clock c' = res_scale K (@gauss1809 XR clock c).
Proof.
  unfold gauss1809. start. unfold gau_get_s, gau_get_w. cbv zeta. scalew Ha HT. same. unfold gau_velocities, gau_p. cbv zeta. scalew Ha HT. same.
Qed.
Lemma arora_units ev : @arora2013 XR ev c' = res_scale K (@arora2013 XR ev c).
Proof.
  unfold arora2013. start. cbv zeta. scalew Ha HT. same; unfold aro_velocities; cbv zeta; scalew Ha HT; same.
Qed.
Lemma der_units ev : @der2011 XR ev c' = res_scale K (@der2011 XR ev c).
Proof.
  unfold der2011. start. unfold der_sigma, der_normalized_time. cbv zeta. scalew Ha HT. same; unfold der_velocities; cbv zeta; scalew Ha HT; same.
Qed.
Lemma izzo_units : @izzo2015 XR c' = res_scale K (@izzo2015 XR c).
Proof.
  unfold izzo2015. cbn [call a_r1 a_r2 a_full_output]. destruct (raise_if _ _); [|reflexivity]. cbn [bind].
  rewrite !as_vec_of_vec. cbn [bind]. rewrite !vdim_F.
  cbn [call a_mu a_tof a_M a_is_prograde a_is_low_path a_maxiter a_atol a_rtol a_full_output]. rewrite ?dim_F.
  unfold izzo_geometry. cbv zeta. scalew Ha HT.
  change (@num XR) with xr; match goal with |- context [if @nltb XR ?a ?b then _ else _] => destruct (@nltb XR a b) end; destruct p; scalew Ha HT; same; unfold izzo_velocities, izzo_reconstruct; cbv zeta; scalew Ha HT;
    same.
Qed.
End R.
