(** * Rotating the problem about the z axis: C31. *)
From Coq Require Import Reals ZArith String List Bool Lra Lia.
Import ListNotations.
From Verif Require Import Num XReal XRealLemmas MApi MAssertions MLinalg MAngles MScipy MComplex MGauss MBattin MJiang MPan
  MGooding MDer MThorne MAvanzini MArora MVallado MIzzo MNegrete MMcelreath MDelatorre MInit
  Spec VecFacts VecXR AnglesXR CallXR RotXR GodalXR PropertiesAngles PropertiesMotion PropertiesOrbit PropertiesAvanzini.
Local Open Scope R_scope.

(** Go through the common control flow of the two runs. *)
Ltac same := repeat match goal with
  | |- Err _ = res_rotz _ (Err _) => reflexivity
  | |- Ok (mk_out ?f _ _ _ _) = res_rotz _ (Ok (mk_out ?f _ _ _ _)) => destruct f; reflexivity
  | |- Ok (Pair _ _) = res_rotz _ (Ok (Pair _ _)) => reflexivity
  | |- bind ?x _ = res_rotz _ (bind ?x _) => destruct x; cbn [bind]
  | |- (if ?b then _ else _) = res_rotz _ (if ?b then _ else _) => destruct b
  | |- (match ?x with _ => _ end) = res_rotz _ (match ?x with _ => _ end) => destruct x
  end.

(** pan2016's search uses the scalar planar quantities only. *)
Section Plane.
Context {N : Num}.
Variables (a b t : num) (ix iy jx jy : vec num) (x1 y1 x2 y2 xc yc : num).
Notation g := (PanGeometry a b t ix iy x1 y1 x2 y2 xc yc).
Notation h := (PanGeometry a b t jx jy x1 y1 x2 y2 xc yc).
Lemma pan_elements_plane omega : pan_elements h omega = pan_elements g omega.
Proof. reflexivity. Qed.
Lemma pan_residual_plane mu tof omega : pan_residual mu h tof omega = pan_residual mu g tof omega.
Proof. reflexivity. Qed.
Lemma pan_find_plane ev mu tof mi at_ rt : pan_find_omega ev mu h tof mi at_ rt = pan_find_omega ev mu g tof mi at_ rt.
Proof. unfold pan_find_omega. generalize 720%nat. intros n. reflexivity. Qed.
End Plane.

Section R.
Variables (phi mu : R) (r1 r2 : rvec) (tof : R) (M : Z) (p l : bool) (mi : Z) (at_ rt : R) (fo : bool).
Notation c := (call mu r1 r2 tof M p l mi at_ rt fo).
Notation c' := (call mu (rotz phi r1) (rotz phi r2) tof M p l mi at_ rt fo).
Ltac start := apply validated_rot; intros (_ & H1 & _);
  cbn [call a_mu a_tof a_M a_is_prograde a_is_low_path a_maxiter a_atol a_rtol a_full_output]; cbv zeta; rotw.

Ltac go tac := start; same; tac; cbv zeta; rotw; same.

Lemma vallado_rot clock fuel : @vallado2013 XR clock fuel c' = res_rotz phi (@vallado2013 XR clock fuel c).
Proof. unfold vallado2013. go ltac:(unfold val_velocities). Qed.
Lemma battin_rot clock : @battin1984 XR clock c' = res_rotz phi (@battin1984 XR clock c).
Proof. unfold battin1984. go ltac:(unfold bat_velocities). Qed.
Lemma gauss_rot clock : @gauss1809 XR clock c' = res_rotz phi (@gauss1809 XR clock c).
Proof. unfold gauss1809. go ltac:(unfold gau_velocities). Qed.
Lemma jiang_rot ev : @jiang2016 XR ev c' = res_rotz phi (@jiang2016 XR ev c).
Proof.
  unfold jiang2016, jia_solve_p. cbn [call a_M]. destruct (raise_if _ _); [|reflexivity]. cbn [bind].
  go ltac:(unfold jia_velocities).
Qed.
Lemma gooding_rot ev : @gooding1990 XR ev c' = res_rotz phi (@gooding1990 XR ev c).
Proof. unfold gooding1990. go idtac. Qed.
Lemma der_rot ev : @der2011 XR ev c' = res_rotz phi (@der2011 XR ev c).
Proof. unfold der2011. go ltac:(unfold der_velocities). Qed.
Lemma arora_rot ev : @arora2013 XR ev c' = res_rotz phi (@arora2013 XR ev c).
Proof. unfold arora2013. go ltac:(unfold aro_velocities). Qed.
Lemma negrete_rot ev : @negrete2024 XR ev c' = res_rotz phi (@negrete2024 XR ev c).
Proof. unfold negrete2024. go ltac:(unfold neg_velocities). Qed.
Lemma mcelreath_rot ev : @mcelreath2025 XR ev c' = res_rotz phi (@mcelreath2025 XR ev c).
Proof. unfold mcelreath2025. go ltac:(unfold mce_velocities; cbv zeta; rotw; destruct (mce_universal_values _ _ _ _) as [[[? ?] ?] ?]). Qed.
Lemma delatorre_rot ev : @delatorre2018 XR ev c' = res_rotz phi (@delatorre2018 XR ev c).
Proof. unfold delatorre2018. go ltac:(unfold tor_velocities). Qed.

Lemma tho_lambda_rot s q : @tho_lambda XR (xrotz phi (vfin r1)) (xrotz phi (vfin r2)) s q p = @tho_lambda XR (vfin r1) (vfin r2) s q p.
Proof. unfold tho_lambda. cbv zeta. rotw. reflexivity. Qed.
Lemma thorne_rot ev : @thorne2004 XR ev c' = res_rotz phi (@thorne2004 XR ev c).
Proof.
  unfold thorne2004. cbn [call a_M]. destruct (raise_if _ _); [|reflexivity]. cbn [bind].
  start. same. unfold tho_y. rewrite tho_lambda_rot.
  set (y := @nsqrt XR (@nsub XR (nofZ 1) (@nmul XR (sq (tho_lambda _ _ _ _ _)) _))). clearbody y.
  unfold tho_reconstruct. cbv zeta. rotw.
  change (@num XR) with xr; match goal with |- context [if @nltb XR ?a ?b then _ else _] => destruct (@nltb XR a b) end; destruct p; cbn [fst snd]; rotw; same.
Qed.

Lemma izzo_rot : @izzo2015 XR c' = res_rotz phi (@izzo2015 XR c).
Proof.
  unfold izzo2015. cbn [call a_r1 a_r2 a_full_output]. destruct (raise_if _ _); [|reflexivity]. cbn [bind].
  rewrite !as_vec_of_vec. cbn [bind]. rewrite <- !xrot_F.
  cbn [call a_mu a_tof a_M a_is_prograde a_is_low_path a_maxiter a_atol a_rtol a_full_output].
  unfold izzo_geometry. cbv zeta. rotw.
  change (@num XR) with xr; match goal with |- context [if @nltb XR ?a ?b then _ else _] => destruct (@nltb XR a b) end; destruct p; cbn [fst snd]; rotw; same; unfold izzo_velocities; rotw;
    destruct (izzo_reconstruct _ _ _ _ _ _ _ _) as [[[? ?] ?] ?]; rotw; same.
Qed.

Lemma pan_rot ev : @pan2016 XR ev c' = res_rotz phi (@pan2016 XR ev c).
Proof.
  unfold pan2016. cbn [call a_M]. destruct (raise_if _ _); [|reflexivity]. cbn [bind].
  start. rewrite (vallado_rot (e_clock ev) (e_fuel ev)).
  set (fb := vallado2013 _ _ _). clearbody fb.
  do 2 (match goal with |- bind ?x _ = _ => destruct x; [|reflexivity] end; cbn [bind]).
  match goal with |- (if ?b then _ else _) = _ => destruct b; [reflexivity|] end.
  unfold pan_planar_geometry. cbv zeta. rotw.
  set (ix := @vdivs XR (vfin r1) _). set (iy := @cross XR _ ix).
  assert (Gx : good ix) by (unfold ix; good_tac).
  assert (Gy : good iy) by (unfold iy; good_tac). clearbody ix iy.
  rewrite (pan_find_plane _ _ _ ix iy (xrotz phi ix) (xrotz phi iy)).
  destruct (pan_find_omega _ _ _ _ _ _ _) as [[om n]|[]]; try reflexivity.
  destruct (time_per_iteration _ _ _) as [tpi|]; [|reflexivity]. cbn [bind].
  rewrite (pan_elements_plane _ _ _ ix iy (xrotz phi ix) (xrotz phi iy)).
  destruct (pan_elements _ _) as [[[[[ea ee] eo] ef] eg]|]; [|reflexivity]. cbn [bind].
  unfold pan_velocities. cbn [pg_i_x pg_i_y]. cbv zeta.
  match goal with |- bind (if ?b then _ else _) _ = _ => destruct b; [reflexivity|] end. cbn [bind].
  rotw. same.
Qed.
End R.

(** ** C31 *)

(** Rotating both positions rotates both velocities and changes nothing else:
    same number of iterations, same time, same exception.  [res_rotz] rotates
    the two vectors of an answer and passes exceptions on (RotXR.v). *)
Theorem C31_rotation : forall s ev phi mu r1 r2 tof M prograde low_path maxiter atol rtol full_output,
  s <> Avanzini ->
  @run XR s ev (call mu (rotz phi r1) (rotz phi r2) tof M prograde low_path maxiter atol rtol full_output)
  = res_rotz phi (@run XR s ev (call mu r1 r2 tof M prograde low_path maxiter atol rtol full_output)).
Proof.
  intros s ev phi mu r1 r2 tof M p l mi a r f Hs.
  destruct s; cbn [run];
    first [apply gauss_rot | apply battin_rot | apply jiang_rot | apply pan_rot | apply gooding_rot | apply der_rot
          | apply thorne_rot | contradiction | apply arora_rot | apply vallado_rot | apply izzo_rot | apply negrete_rot
          | apply mcelreath_rot | apply delatorre_rot].
Qed.
Print Assumptions C31_rotation.

(** Finite answers are rotated as real vectors. *)
Corollary C31_finite : forall s ev phi mu r1 r2 tof M prograde low_path maxiter atol rtol full_output o v1 v2,
  s <> Avanzini ->
  @run XR s ev (call mu r1 r2 tof M prograde low_path maxiter atol rtol full_output) = Ok o -> delivers o v1 v2 ->
  exists o', @run XR s ev (call mu (rotz phi r1) (rotz phi r2) tof M prograde low_path maxiter atol rtol full_output) = Ok o' /\
    delivers o' (rotz phi v1) (rotz phi v2).
Proof.
  intros s ev phi mu r1 r2 tof M p l mi a r f o v1 v2 Hs H [D1 D2].
  rewrite C31_rotation, H by assumption. cbn [res_rotz]. eexists. split; [reflexivity|].
  destruct o; cbn [out_rotz out_v1 out_v2] in *; rewrite D1, D2; split; reflexivity.
Qed.
Print Assumptions C31_finite.

Example C31_case : exists tof o v1 v2,
  @run XR Vallado no_scipy (call 1 ex_r1 ex_r2 tof 0 true true 35 (1 / 100000) (1 / 10000000) true) = Ok o /\
  delivers o v1 v2 /\ rotz (PI / 2) ex_r1 = ex_r2.
Proof.
  destruct C11_C12_case as (tof & o & w1 & w2 & Hn & Hz & _ & R & _ & D).
  exists tof, o, w1, w2. split; [exact R|]. split; [exact D|].
  unfold rotz, ex_r1, ex_r2. rewrite cos_PI2, sin_PI2. cbn [vx vy vz]. f_equal; ring.
Qed.

(** avanzini2008 in the equatorial plane answers with the same velocities
    wherever the first position points. *)
Theorem C31_avanzini_refuted : forall ev,
  exists o v1 v2 o' w1 w2,
    let tol := 1 / 100000 in
    @run XR Avanzini ev (call 1 ex_r1 ex_r2 (PI / 2) 0 true true 35 tol (tol / 100) false) = Ok o /\
    @run XR Avanzini ev (call 1 (rotz PI ex_r1) (rotz PI ex_r2) (PI / 2) 0 true true 35 tol (tol / 100) false) = Ok o' /\
    delivers o v1 v2 /\ delivers o' w1 w2 /\ non_collinear ex_r1 ex_r2 /\ w1 <> rotz PI v1.
Proof.
  intros ev.
  destruct ex_norms as (N1 & N2 & D0).
  assert (Hz : vz (vcross ex_r1 ex_r2) = 1) by (unfold ex_r1, ex_r2, vcross; cbn [vx vy vz]; ring).
  assert (Hz' : vz (vcross (rotz PI ex_r1) (rotz PI ex_r2)) = 1) by (rewrite rot_cross; exact Hz).
  destruct (avanzini_quarter ev true ex_r1 ex_r2 true 35 (1 / 100000) (1 / 100000 / 100)) as (v1 & v2 & H & _); try assumption; try lra; try lia.
  { unfold short_way. lra. }
  destruct (avanzini_quarter ev true (rotz PI ex_r1) (rotz PI ex_r2) true 35 (1 / 100000) (1 / 100000 / 100)) as (w1 & w2 & H' & _);
    rewrite ?rot_norm, ?rot_dot; try assumption; try lra; try lia.
  { unfold short_way. lra. }
  eexists _, v1, v2, _, w1, w2. cbv zeta. split; [exact H|]. split; [exact H'|].
  split; [split; reflexivity|]. split; [split; reflexivity|].
  assert (Hn : non_collinear ex_r1 ex_r2) by (apply vz_non_collinear; lra).
  assert (Hn' : non_collinear (rotz PI ex_r1) (rotz PI ex_r2)) by (apply vz_non_collinear; lra).
  split; [assumption|].
  destruct (transfer_angle _ _ true Hn) as (th & ET & _). destruct (transfer_angle _ _ true Hn') as (th' & ET' & _).
  destruct (C32_equatorial _ _ _ _ _ _ _ _ _ _ _ _ _ _ _ _ Hn eq_refl eq_refl ET H (conj eq_refl eq_refl)) as (_ & Vy & _).
  destruct (C32_equatorial _ _ _ _ _ _ _ _ _ _ _ _ _ _ _ _ Hn' eq_refl eq_refl ET' H' (conj eq_refl eq_refl)) as (_ & Vy' & _).
  intros E. rewrite E in Vy'. unfold rotz in Vy'. cbn [vy] in Vy'. rewrite cos_PI, sin_PI in Vy'. lra.
Qed.
Print Assumptions C31_avanzini_refuted.
