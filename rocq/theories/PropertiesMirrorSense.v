(** * Mirror images for the solvers that look at the sign of the z component of the normal: C57. *)
From Coq Require Import Reals ZArith String List Bool Lra Lia.
Import ListNotations.
From Verif Require Import Num XReal XRealLemmas MApi MAssertions MLinalg MAngles MScipy MComplex MGauss MBattin MJiang MPan
  MGooding MDer MThorne MAvanzini MArora MVallado MIzzo MNegrete MMcelreath MDelatorre MInit
  Spec VecFacts VecXR AnglesXR CallXR RotXR MirrorXR GodalXR PropertiesAngles PropertiesMotion PropertiesOrbit PropertiesRotation PropertiesMirror.
Local Open Scope R_scope.

(** izzo2015 and thorne2004 decide on the sense of motion with [i_h[2] < 0] and
    then turn it for a retrograde motion. *)
Definition senses (ll : xr) (h a b : vec xr) (p : bool) : xr * vec xr * vec xr :=
  let '(ll, t1, t2) :=
    if @nltb XR (vz h) (nofZ 0) then (@nopp XR ll, @cross XR a h, @cross XR b h) else (ll, @cross XR h a, @cross XR h b) in
  if p then (ll, t1, t2) else (@nopp XR ll, @vopp XR t1, @vopp XR t2).

Lemma cross_swap u v : good u -> good v -> @vopp XR (@cross XR u v) = @cross XR v u.
Proof.
  intros [[r ->]| ->] [[q ->]| ->]; try reflexivity. rewrite !cross_F, vopp_F. f_equal.
  apply vec_eq; unfold vcross, vmult; cbn [vx vy vz]; ring.
Qed.
Lemma xopp_opp x : xopp (xopp x) = x.
Proof. destruct x; [|reflexivity]. cbn. f_equal. ring. Qed.

Lemma vopp_opp u : @vopp XR (@vopp XR u) = u.
Proof. destruct u as [x y z]. unfold vopp, vmap. cbn [vx vy vz]. xunf. now rewrite !xopp_opp. Qed.

Lemma senses_flip sy sz ll h a b p : good a -> good b -> (sy = false /\ good h \/ exists r, h = vfin r /\ vz r <> 0) ->
  senses ll (xnflip sy sz h) (xflip sy sz a) (xflip sy sz b) (xorb sy p) =
  let '(ll, t1, t2) := senses ll h a b p in (ll, xflip sy sz t1, xflip sy sz t2).
Proof.
  intros Ga Gb Hh. assert (Gh : good h) by (destruct Hh as [[_ G]|(r & -> & _)]; [exact G|apply good_F]).
  unfold senses.
  assert (C : @nltb XR (vz (xnflip sy sz h)) (nofZ 0) = if sy then negb (@nltb XR (vz h) (nofZ 0)) else @nltb XR (vz h) (nofZ 0)).
  { destruct Gh as [[r ->]| ->].
    - rewrite nflip_F. change (vz (vfin (nflip sy sz r))) with (Fin (vz (nflip sy sz r))). rewrite nflip_vz.
      change (vz (vfin r)) with (Fin (vz r)). xunf. unfold xltb.
      destruct sy; unfold sgn; destruct (Rlt_dec _ 0) as [A|A], (Rlt_dec (vz r) 0) as [B|B]; try reflexivity; exfalso; try lra.
      destruct Hh as [[? _]|(q & E & Z)]; [discriminate|]. apply (f_equal (fun v => vz v)) in E. injection E as E. lra.
    - destruct Hh as [[-> _]|(r & E & _)]; [reflexivity|]. discriminate E. }
  rewrite C. clear C.
  assert (G : good (@cross XR h a) /\ good (@cross XR h b) /\ good (@cross XR a h) /\ good (@cross XR b h)) by (repeat split; good_tac).
  destruct G as (G1 & G2 & G3 & G4).
  assert (E1 : @vopp XR (@cross XR a h) = @cross XR h a) by now apply cross_swap.
  assert (E2 : @vopp XR (@cross XR b h) = @cross XR h b) by now apply cross_swap.
  assert (E3 : @vopp XR (@cross XR h a) = @cross XR a h) by now apply cross_swap.
  assert (E4 : @vopp XR (@cross XR h b) = @cross XR b h) by now apply cross_swap.
  rewrite !fw_cross_l, !fw_cross_r by assumption.
  destruct sy, p; cbn [xorb negb]; destruct (@nltb XR (vz h) (nofZ 0)); cbn [negb]; rewrite ?fw_vopp, ?E1, ?E2, ?E3, ?E4 by assumption; try reflexivity;
    change (@nopp XR) with xopp; rewrite ?xopp_opp; reflexivity.
Qed.

Section G.
Variables (sy sz : bool) (mu : R) (r1 r2 : rvec) (tof : R) (M : Z) (p l : bool) (mi : Z) (at_ rt : R) (fo : bool).
Notation c := (call mu r1 r2 tof M p l mi at_ rt fo).
Notation c' := (call mu (flip sy sz r1) (flip sy sz r2) tof M (xorb sy p) l mi at_ rt fo).
Hypothesis Hz : sy = true -> vz (vcross r1 r2) <> 0.
Let ir1 := @vdivs XR (vfin r1) (@norm XR (vfin r1)).
Let ir2 := @vdivs XR (vfin r2) (@norm XR (vfin r2)).
Let ih := @vdivs XR (@cross XR ir1 ir2) (@norm XR (@cross XR ir1 ir2)).

Lemma ih_sense : sy = false /\ good ih \/ exists r, ih = vfin r /\ vz r <> 0.
Proof.
  assert (D : sy = false \/ sy = true) by (destruct sy; auto). destruct D as [E|E].
  { left. split; [exact E|]. unfold ih, ir1, ir2. good_tac. }
  right. pose proof (vz_non_collinear _ _ (Hz E)) as Hn. destruct (norms_pos _ _ Hn) as [N1 N2].
  unfold ih, ir1, ir2. rewrite !norm_F, !vdivs_F, cross_F, norm_F by lra.
  assert (EC : vcross (vmult (/ vnorm r1) r1) (vmult (/ vnorm r2) r2) = vmult (/ vnorm r1 * / vnorm r2) (vcross r1 r2))
    by (apply vec_eq; unfold vcross, vmult; cbn [vx vy vz]; ring).
  assert (K : 0 < / vnorm r1 * / vnorm r2) by (apply Rmult_lt_0_compat; now apply Rinv_0_lt_compat).
  rewrite EC. pose proof (vnorm_pos _ Hn) as NC.
  assert (NN : vnorm (vmult (/ vnorm r1 * / vnorm r2) (vcross r1 r2)) <> 0).
  { rewrite vnorm_mult, Rabs_pos_eq by lra. apply Rgt_not_eq. now apply Rmult_lt_0_compat. }
  rewrite vdivs_F by exact NN. eexists. split; [reflexivity|]. unfold vmult at 1 3. cbn [vx vy vz].
  apply Rmult_integral_contrapositive_currified; [now apply Rinv_neq_0_compat|].
  apply Rmult_integral_contrapositive_currified; [lra|exact (Hz E)].
Qed.

Lemma good_ir1 : good ir1. Proof. unfold ir1; good_tac. Qed.
Lemma good_ir2 : good ir2. Proof. unfold ir2; good_tac. Qed.
Lemma good_ih : good ih. Proof. unfold ih. pose proof good_ir1. pose proof good_ir2. good_tac. Qed.

Lemma senses_good ll h a b q : good h -> good a -> good b -> good (snd (fst (senses ll h a b q))) /\ good (snd (senses ll h a b q)).
Proof.
  intros. unfold senses. destruct (@nltb XR (vz h) (nofZ 0)), q; cbn [fst snd]; split; good_tac.
Qed.

Lemma izzo_senses (u v : vec xr) q :
  @izzo_geometry XR u v q =
  let c := @norm XR (@vsub XR v u) in
  let s := @nmul XR (@nadd XR (@nadd XR (@norm XR u) (@norm XR v)) c) (nlit 1 2) in
  let a := @vdivs XR u (@norm XR u) in
  let b := @vdivs XR v (@norm XR v) in
  let h := @vdivs XR (@cross XR a b) (@norm XR (@cross XR a b)) in
  let t := senses (@nsqrt XR (@nsub XR (nofZ 1) (@pymin XR (nofZ 1) (@ndiv XR c s)))) h a b q in
  (@norm XR u, @norm XR v, c, s, fst (fst t), snd (fst t), snd t).
Proof.
  unfold izzo_geometry, senses. cbv zeta. change (@num XR) with xr.
  match goal with |- context [@nltb XR ?x ?y] => destruct (@nltb XR x y) end; destruct q; reflexivity.
Qed.

Lemma izzo_geometry_flip : @izzo_geometry XR (xflip sy sz (vfin r1)) (xflip sy sz (vfin r2)) (xorb sy p) =
  let '(a, b, d, s, ll, t1, t2) := @izzo_geometry XR (vfin r1) (vfin r2) p in (a, b, d, s, ll, xflip sy sz t1, xflip sy sz t2).
Proof.
  rewrite !izzo_senses. cbv zeta. flipw. fold ir1 ir2. fold ih.
  rewrite senses_flip; [|exact good_ir1|exact good_ir2|exact ih_sense].
  destruct (senses _ ih ir1 ir2 p) as [[? ?] ?]. reflexivity.
Qed.

Lemma izzo_flip : @izzo2015 XR c' = res_flip sy sz (@izzo2015 XR c).
Proof.
  unfold izzo2015. cbn [call a_r1 a_r2 a_full_output]. destruct (raise_if _ _) as [uu|]; [|reflexivity]. cbn [bind].
  rewrite !as_vec_of_vec. cbn [bind]. rewrite <- !flip_F.
  cbn [call a_mu a_tof a_M a_is_prograde a_is_low_path a_maxiter a_atol a_rtol a_full_output].
  rewrite izzo_geometry_flip.
  assert (GG : forall a b d s ll t1 t2, @izzo_geometry XR (vfin r1) (vfin r2) p = (a, b, d, s, ll, t1, t2) -> good t1 /\ good t2).
  { intros a b d s ll t1 t2 E. rewrite izzo_senses in E. cbv zeta in E. fold ir1 ir2 in E. fold ih in E.
    set (L := @nsqrt XR _) in E.
    pose proof (senses_good L ih ir1 ir2 p good_ih good_ir1 good_ir2) as G.
    set (t := senses _ _ _ _ _) in *. clearbody t. destruct t as [[? ?] ?]. cbn [fst snd] in *.
    repeat (apply pair_equal_spec in E; let K := fresh in destruct E as [E K]; try subst). exact G. }
  destruct (@izzo_geometry XR (vfin r1) (vfin r2) p) as [[[[[[a b] d] s] ll] t1] t2].
  destruct (GG _ _ _ _ _ _ _ eq_refl) as [G1 G2]. clear GG.
  alike. unfold izzo_velocities. destruct (izzo_reconstruct _ _ _ _ _ _ _ _) as [[[? ?] ?] ?]. cbv zeta. flipw. alike.
Qed.

Lemma lambda_senses (u v : vec xr) s d q :
  @tho_lambda XR u v s d q =
  let a := @vdivs XR u (@norm XR u) in
  let b := @vdivs XR v (@norm XR v) in
  let h := @vdivs XR (@cross XR a b) (@norm XR (@cross XR a b)) in
  fst (fst (senses (@nsqrt XR (@nsub XR (nofZ 1) (@ndiv XR d s))) h a b q)).
Proof.
  unfold tho_lambda, senses. cbv zeta. change (@num XR) with xr.
  match goal with |- context [@nltb XR ?x ?y] => destruct (@nltb XR x y) end; destruct q; reflexivity.
Qed.

Lemma tho_y_flip x s q : @tho_y XR x (xflip sy sz (vfin r1)) (xflip sy sz (vfin r2)) s q (xorb sy p) = @tho_y XR x (vfin r1) (vfin r2) s q p.
Proof.
  unfold tho_y. cbv zeta. rewrite !lambda_senses. cbv zeta. flipw. fold ir1 ir2. fold ih.
  rewrite senses_flip; [|exact good_ir1|exact good_ir2|exact ih_sense].
  destruct (senses _ ih ir1 ir2 p) as [[? ?] ?]. reflexivity.
Qed.

Lemma reconstruct_senses x y m (u v : vec xr) s d q :
  @tho_reconstruct XR x y m u v s d q =
  let n1 := @norm XR u in let n2 := @norm XR v in
  let a := @vdivs XR u n1 in
  let b := @vdivs XR v n2 in
  let h := @vdivs XR (@cross XR a b) (@norm XR (@cross XR a b)) in
  let t := senses (@nsqrt XR (@nsub XR (nofZ 1) (@ndiv XR d s))) h a b q in
  let ll := fst (fst t) in
  let g := @nsqrt XR (@ndiv XR (@nmul XR m s) (nofZ 2)) in
  let rho := @ndiv XR (@nsub XR n1 n2) d in
  let sg := @nsqrt XR (@nsub XR (nofZ 1) (@sq XR rho)) in
  let m1 := @nsub XR (@nmul XR ll y) x in
  let m2 := @nmul XR rho (@nadd XR (@nmul XR ll y) x) in
  let m3 := @nmul XR (@nmul XR g sg) (@nadd XR y (@nmul XR ll x)) in
  (@vadd XR (@vscale XR (@ndiv XR (@nmul XR g (@nsub XR m1 m2)) n1) a) (@vscale XR (@ndiv XR m3 n1) (snd (fst t))),
   @vadd XR (@vscale XR (@ndiv XR (@nmul XR (@nopp XR g) (@nadd XR m1 m2)) n2) b) (@vscale XR (@ndiv XR m3 n2) (snd t))).
Proof.
  unfold tho_reconstruct, senses. cbv zeta. change (@num XR) with xr.
  match goal with |- context [@nltb XR ?x ?y] => destruct (@nltb XR x y) end; destruct q; reflexivity.
Qed.

Lemma tho_reconstruct_flip x y s q : @tho_reconstruct XR x y (Fin mu) (xflip sy sz (vfin r1)) (xflip sy sz (vfin r2)) s q (xorb sy p) =
  let '(v1, v2) := @tho_reconstruct XR x y (Fin mu) (vfin r1) (vfin r2) s q p in (xflip sy sz v1, xflip sy sz v2).
Proof.
  rewrite !reconstruct_senses. cbv zeta. flipw. fold ir1 ir2. fold ih.
  rewrite senses_flip; [|exact good_ir1|exact good_ir2|exact ih_sense].
  set (L := @nsqrt XR (@nsub XR _ (@ndiv XR q s))).
  pose proof (senses_good L ih ir1 ir2 p good_ih good_ir1 good_ir2) as [G1 G2]. pose proof good_ir1. pose proof good_ir2.
  destruct (senses L ih ir1 ir2 p) as [[? ?] ?]. cbn [fst snd] in *. clearbody ir1 ir2. flipw. reflexivity.
Qed.

Lemma thorne_flip ev : @thorne2004 XR ev c' = res_flip sy sz (@thorne2004 XR ev c).
Proof.
  unfold thorne2004. cbn [call a_M]. destruct (raise_if _ _); [|reflexivity]. cbn [bind].
  apply validated_flip; intros (_ & H1 & _).
  cbn [call a_mu a_tof a_M a_is_prograde a_is_low_path a_maxiter a_atol a_rtol a_full_output]; cbv zeta; flipw.
  alike. rewrite tho_y_flip, tho_reconstruct_flip. destruct (tho_reconstruct _ _ _ _ _ _ _ _). alike.
Qed.
End G.
