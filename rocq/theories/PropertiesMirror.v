(** * Mirror images of a problem: C57. *)
From Coq Require Import Reals ZArith String List Bool Lra Lia.
Import ListNotations.
From Verif Require Import Num XReal XRealLemmas MApi MAssertions MLinalg MAngles MScipy MComplex MGauss MBattin MJiang MPan
  MGooding MDer MThorne MAvanzini MArora MVallado MIzzo MNegrete MMcelreath MDelatorre MInit
  Spec VecFacts VecXR AnglesXR CallXR RotXR MirrorXR GodalXR PropertiesAngles PropertiesMotion PropertiesOrbit PropertiesRotation.
Local Open Scope R_scope.

(** Go through the common control flow of the two runs. *)
Ltac alike := repeat match goal with
  | |- Err _ = res_flip _ _ (Err _) => reflexivity
  | |- Ok (mk_out ?f _ _ _ _) = res_flip _ _ (Ok (mk_out ?f _ _ _ _)) => destruct f; reflexivity
  | |- Ok (Pair _ _) = res_flip _ _ (Ok (Pair _ _)) => reflexivity
  | |- bind ?x _ = res_flip _ _ (bind ?x _) => destruct x; cbn [bind]
  | |- (if ?b then _ else _) = res_flip _ _ (if ?b then _ else _) => destruct b
  | |- (match ?x with _ => _ end) = res_flip _ _ (match ?x with _ => _ end) => destruct x
  end.

Section F.
Variables (sy sz : bool) (mu : R) (r1 r2 : rvec) (tof : R) (M : Z) (p l : bool) (mi : Z) (at_ rt : R) (fo : bool).
Notation c := (call mu r1 r2 tof M p l mi at_ rt fo).
Notation c' := (call mu (flip sy sz r1) (flip sy sz r2) tof M (xorb sy p) l mi at_ rt fo).
Ltac start := apply validated_flip; intros (_ & H1 & _);
  cbn [call a_mu a_tof a_M a_is_prograde a_is_low_path a_maxiter a_atol a_rtol a_full_output]; cbv zeta; flipw.
Ltac go tac := start; alike; tac; cbv zeta; flipw; alike.

Lemma vallado_flip clock fuel : @vallado2013 XR clock fuel c' = res_flip sy sz (@vallado2013 XR clock fuel c).
Proof. unfold vallado2013. go ltac:(unfold val_velocities). Qed.
Lemma battin_flip clock : @battin1984 XR clock c' = res_flip sy sz (@battin1984 XR clock c).
Proof. unfold battin1984. go ltac:(unfold bat_velocities). Qed.
Lemma gauss_flip clock : @gauss1809 XR clock c' = res_flip sy sz (@gauss1809 XR clock c).
Proof. unfold gauss1809. go ltac:(unfold gau_velocities). Qed.
Lemma jiang_flip ev : @jiang2016 XR ev c' = res_flip sy sz (@jiang2016 XR ev c).
Proof.
  unfold jiang2016, jia_solve_p. cbn [call a_M]. destruct (raise_if _ _); [|reflexivity]. cbn [bind].
  go ltac:(unfold jia_velocities).
Qed.
Lemma gooding_flip ev : @gooding1990 XR ev c' = res_flip sy sz (@gooding1990 XR ev c).
Proof. unfold gooding1990. go idtac. Qed.
Lemma der_flip ev : @der2011 XR ev c' = res_flip sy sz (@der2011 XR ev c).
Proof. unfold der2011. go ltac:(unfold der_velocities). Qed.
Lemma arora_flip ev : @arora2013 XR ev c' = res_flip sy sz (@arora2013 XR ev c).
Proof. unfold arora2013. go ltac:(unfold aro_velocities). Qed.
Lemma negrete_flip ev : @negrete2024 XR ev c' = res_flip sy sz (@negrete2024 XR ev c).
Proof. unfold negrete2024. go ltac:(unfold neg_velocities). Qed.
Lemma mcelreath_flip ev : @mcelreath2025 XR ev c' = res_flip sy sz (@mcelreath2025 XR ev c).
Proof. unfold mcelreath2025. go ltac:(unfold mce_velocities; cbv zeta; flipw; destruct (mce_universal_values _ _ _ _) as [[[? ?] ?] ?]). Qed.
Lemma delatorre_flip ev : @delatorre2018 XR ev c' = res_flip sy sz (@delatorre2018 XR ev c).
Proof. unfold delatorre2018. go ltac:(unfold tor_velocities). Qed.
Lemma pan_flip ev : @pan2016 XR ev c' = res_flip sy sz (@pan2016 XR ev c).
Proof.
  unfold pan2016. cbn [call a_M]. destruct (raise_if _ _); [|reflexivity]. cbn [bind].
  start. rewrite (vallado_flip (e_clock ev) (e_fuel ev)).
  set (fb := vallado2013 _ _ _). clearbody fb.
  do 2 (match goal with |- bind ?x _ = _ => destruct x; [|reflexivity] end; cbn [bind]).
  match goal with |- (if ?b then _ else _) = _ => destruct b; [reflexivity|] end.
  unfold pan_planar_geometry. cbv zeta. flipw.
  set (ix := @vdivs XR (vfin r1) _). set (iy := @cross XR _ ix).
  assert (Gx : good ix) by (unfold ix; good_tac).
  assert (Gy : good iy) by (unfold iy; good_tac). clearbody ix iy.
  rewrite (pan_find_plane _ _ _ ix iy (xflip sy sz ix) (xflip sy sz iy)).
  destruct (pan_find_omega _ _ _ _ _ _ _) as [[om n]|[]]; try reflexivity.
  destruct (time_per_iteration _ _ _) as [tpi|]; [|reflexivity]. cbn [bind].
  rewrite (pan_elements_plane _ _ _ ix iy (xflip sy sz ix) (xflip sy sz iy)).
  destruct (pan_elements _ _) as [[[[[ea ee] eo] ef] eg]|]; [|reflexivity]. cbn [bind].
  unfold pan_velocities. cbn [pg_i_x pg_i_y]. cbv zeta.
  match goal with |- bind (if ?b then _ else _) _ = _ => destruct b; [reflexivity|] end. cbn [bind].
  flipw. alike.
Qed.
End F.

