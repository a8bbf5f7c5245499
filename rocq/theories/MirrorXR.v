(** * The model's vector operations commute with reflections in the coordinate
    planes; a reflection that turns the sense of motion about the z axis comes
    with the opposite [is_prograde]. *)
From Coq Require Import Reals ZArith String List Bool Lra Lia Psatz.
Import ListNotations.
From Verif Require Import Num XReal XRealLemmas MApi MAssertions MLinalg MAngles Spec VecFacts VecXR AnglesXR CallXR RotXR.
Local Open Scope R_scope.

(** [flip sy sz]: change the sign of the second component if [sy], of the third
    if [sz].  So [flip true false] is the reflection in the plane of the x and z
    axes, [flip false true] the reflection in the equatorial plane, and
    [flip true true] the half turn about the x axis. *)
Definition sgn (b : bool) : R := if b then -1 else 1.
Definition flip (sy sz : bool) (r : rvec) : rvec := V3 (vx r) (sgn sy * vy r) (sgn sz * vz r).
Definition xflip (sy sz : bool) (v : vec xr) : vec xr :=
  V3 (vx v) (xmul (Fin (sgn sy)) (vy v)) (xmul (Fin (sgn sz)) (vz v)).
Definition out_flip (sy sz : bool) (o : @out XR) : @out XR :=
  match o with
  | Pair v1 v2 => @Pair XR (xflip sy sz v1) (xflip sy sz v2)
  | Full v1 v2 n t => @Full XR (xflip sy sz v1) (xflip sy sz v2) n t
  end.
Definition res_flip (sy sz : bool) (o : res (@out XR)) : res (@out XR) :=
  match o with Ok x => Ok (out_flip sy sz x) | Err e => Err e end.

(** How the normal of the plane changes. *)
Definition nflip (sy sz : bool) (r : rvec) : rvec := vmult (sgn sy * sgn sz) (flip sy sz r).
Definition xnflip (sy sz : bool) (v : vec xr) : vec xr := @vscale XR (Fin (sgn sy * sgn sz)) (xflip sy sz v).

Lemma sgn2 b : sgn b * sgn b = 1. Proof. destruct b; unfold sgn; ring. Qed.

Section Flip.
Variables sy sz : bool.
Notation T := (flip sy sz).
Notation X := (xflip sy sz).
Notation S := (nflip sy sz).
Notation Y := (xnflip sy sz).

Lemma flip_F r : X (vfin r) = vfin (T r). Proof. reflexivity. Qed.
Lemma nflip_F r : Y (vfin r) = vfin (S r). Proof. unfold xnflip, nflip. now rewrite flip_F, vscale_F. Qed.
Lemma flip_nan : X vnan = vnan. Proof. reflexivity. Qed.
Lemma nflip_nan : Y vnan = vnan. Proof. reflexivity. Qed.

Ltac fl := intros; unfold nflip, flip, vdot, vcross, vplus, vminus, vmult, sgn; cbn [vx vy vz]; destruct sy, sz.
Lemma flip_dot a b : vdot (T a) (T b) = vdot a b. Proof. fl; ring. Qed.
Lemma nflip_dot a b : vdot (S a) (S b) = vdot a b. Proof. fl; ring. Qed.
Lemma flip_norm a : vnorm (T a) = vnorm a. Proof. unfold vnorm. now rewrite flip_dot. Qed.
Lemma nflip_norm a : vnorm (S a) = vnorm a. Proof. unfold vnorm. now rewrite nflip_dot. Qed.
Lemma flip_cross a b : vcross (T a) (T b) = S (vcross a b). Proof. fl; f_equal; ring. Qed.
Lemma flip_cross_l a b : vcross (S a) (T b) = T (vcross a b). Proof. fl; f_equal; ring. Qed.
Lemma flip_cross_r a b : vcross (T a) (S b) = T (vcross a b). Proof. fl; f_equal; ring. Qed.
Lemma flip_minus a b : vminus (T a) (T b) = T (vminus a b). Proof. fl; f_equal; ring. Qed.
Lemma flip_plus a b : vplus (T a) (T b) = T (vplus a b). Proof. fl; f_equal; ring. Qed.
Lemma flip_mult k a : vmult k (T a) = T (vmult k a). Proof. fl; f_equal; ring. Qed.
Lemma nflip_mult k a : vmult k (S a) = S (vmult k a). Proof. fl; f_equal; ring. Qed.
Lemma nflip_vz a : vz (S a) = sgn sy * vz a. Proof. fl; ring. Qed.
Lemma flip_zero a : T a = vzero <-> a = vzero.
Proof.
  split; [|intros ->; unfold vzero; fl; f_equal; ring].
  intros H. assert (E : vdot a a = 0). { rewrite <- flip_dot, H. unfold vdot, vzero; cbn [vx vy vz]. ring. }
  destruct (vzero_dec a) as [|N]; [assumption|]. pose proof (vdot_nonzero a N). lra.
Qed.
Lemma nflip_zero a : S a = vzero <-> a = vzero.
Proof.
  split; [|intros ->; unfold vzero; fl; f_equal; ring].
  intros H. assert (E : vdot a a = 0). { rewrite <- nflip_dot, H. unfold vdot, vzero; cbn [vx vy vz]. ring. }
  destruct (vzero_dec a) as [|N]; [assumption|]. pose proof (vdot_nonzero a N). lra.
Qed.

(** The model's operations on good vectors. *)
Ltac nan := first [reflexivity | rewrite ?flip_nan, ?nflip_nan; reflexivity].
Lemma fw_vsub u v : good u -> good v -> @vsub XR (X u) (X v) = X (@vsub XR u v).
Proof. intros [[r ->]| ->] [[q ->]| ->]; [|reflexivity..]. now rewrite !flip_F, !vsub_F, flip_minus. Qed.
Lemma fw_vadd u v : good u -> good v -> @vadd XR (X u) (X v) = X (@vadd XR u v).
Proof. intros [[r ->]| ->] [[q ->]| ->]; [|reflexivity..]. now rewrite !flip_F, !vadd_F, flip_plus. Qed.
Lemma fw_vscale k v : good v -> @vscale XR k (X v) = X (@vscale XR k v).
Proof.
  intros [[r ->]| ->]; [|destruct k; reflexivity]. destruct k as [k|]; [|reflexivity]. now rewrite !flip_F, !vscale_F, flip_mult.
Qed.
Lemma vdivs_0 q : @vdivs XR (vfin q) (Fin 0) = vnan.
Proof. destruct q as [x y z]. unfold vdivs, vmap, vfin, vnan. cbn. destruct (Req_EM_T 0 0) as [_|Z]; [reflexivity|lra]. Qed.
Lemma fw_vdivs v k : good v -> @vdivs XR (X v) k = X (@vdivs XR v k).
Proof.
  intros [[r ->]| ->]; [|destruct k; reflexivity]. destruct k as [k|]; [|reflexivity].
  destruct (Req_EM_T k 0) as [->|N]; [now rewrite flip_F, !vdivs_0|]. now rewrite !flip_F, !vdivs_F, flip_mult.
Qed.
Lemma nw_vdivs v k : good v -> @vdivs XR (Y v) k = Y (@vdivs XR v k).
Proof.
  intros [[r ->]| ->]; [|destruct k; reflexivity]. destruct k as [k|]; [|reflexivity].
  destruct (Req_EM_T k 0) as [->|N]; [now rewrite nflip_F, !vdivs_0|]. now rewrite !nflip_F, !vdivs_F, nflip_F, nflip_mult.
Qed.
Lemma fw_vopp v : good v -> @vopp XR (X v) = X (@vopp XR v).
Proof. intros [[r ->]| ->]; [|reflexivity]. now rewrite !flip_F, !vopp_F, flip_mult. Qed.
Lemma nw_vopp v : good v -> @vopp XR (Y v) = Y (@vopp XR v).
Proof. intros [[r ->]| ->]; [|reflexivity]. now rewrite !nflip_F, !vopp_F, nflip_F, nflip_mult. Qed.
Lemma fw_cross u v : good u -> good v -> @cross XR (X u) (X v) = Y (@cross XR u v).
Proof. intros [[r ->]| ->] [[q ->]| ->]; [|reflexivity..]. now rewrite !flip_F, !cross_F, nflip_F, flip_cross. Qed.
Lemma fw_cross_l u v : good u -> good v -> @cross XR (Y u) (X v) = X (@cross XR u v).
Proof. intros [[r ->]| ->] [[q ->]| ->]; [|reflexivity..]. now rewrite !flip_F, nflip_F, !cross_F, flip_F, flip_cross_l. Qed.
Lemma fw_cross_r u v : good u -> good v -> @cross XR (X u) (Y v) = X (@cross XR u v).
Proof. intros [[r ->]| ->] [[q ->]| ->]; [|reflexivity..]. now rewrite !flip_F, nflip_F, !cross_F, flip_F, flip_cross_r. Qed.
Lemma fw_norm v : good v -> @norm XR (X v) = @norm XR v.
Proof. intros [[r ->]| ->]; [|reflexivity]. now rewrite flip_F, !norm_F, flip_norm. Qed.
Lemma nw_norm v : good v -> @norm XR (Y v) = @norm XR v.
Proof. intros [[r ->]| ->]; [|reflexivity]. now rewrite nflip_F, !norm_F, nflip_norm. Qed.
Lemma fw_dot u v : good u -> good v -> @dot XR (X u) (X v) = @dot XR u v.
Proof. intros [[r ->]| ->] [[q ->]| ->]; try reflexivity. now rewrite !flip_F, !dot_F, flip_dot. Qed.
Lemma fw_vmul k v : good v -> vmap (fun a => @nmul XR a k) (X v) = X (vmap (fun a => @nmul XR a k) v).
Proof.
  intros G. pose proof (fw_vscale k v G) as E.
  assert (C : forall w : vec xr, vmap (fun a => @nmul XR a k) w = @vscale XR k w).
  { intros [x y z]. unfold vscale, vmap. cbn [vx vy vz]. xunf.
    f_equal; destruct k, x, y, z; cbn; try reflexivity; f_equal; ring. }
  now rewrite !C.
Qed.

Lemma flip_short_way p r1 r2 : short_way (xorb sy p) (T r1) (T r2) <-> short_way p r1 r2.
Proof. unfold short_way. rewrite flip_cross, nflip_vz. unfold sgn. destruct sy, p; cbn [xorb]; lra. Qed.

Lemma fw_angle r1 r2 p : r1 <> vzero ->
  @get_transfer_angle XR (X (vfin r1)) (X (vfin r2)) (xorb sy p) = @get_transfer_angle XR (vfin r1) (vfin r2) p.
Proof.
  intros H1. rewrite !flip_F. destruct (vzero_dec (vcross r1 r2)) as [E|N].
  - rewrite !get_transfer_angle_collinear, flip_dot; try assumption; [reflexivity| |].
    + intros Z. apply H1. now apply flip_zero.
    + rewrite flip_cross, E. now apply nflip_zero.
  - rewrite !get_transfer_angle_F; try assumption; [|rewrite flip_cross; intros Z; apply N; now apply nflip_zero].
    unfold ang0, cosang. rewrite flip_dot, !flip_norm. pose proof (flip_short_way p r1 r2) as W.
    destruct (short_way_dec (xorb sy p) (T r1) (T r2)), (short_way_dec p r1 r2); try reflexivity; tauto.
Qed.

Lemma good_normal u v p : good u -> good v -> good (@get_orbit_normal_vector XR u v p).
Proof. intros. now apply (rw_normal 0). Qed.

Lemma fw_normal u v p : good u -> good v ->
  @get_orbit_normal_vector XR (X u) (X v) (xorb sy p) = Y (@get_orbit_normal_vector XR u v p).
Proof.
  intros Hu Hv. unfold get_orbit_normal_vector.
  assert (G : good (@cross XR u v)) by good_tac.
  rewrite fw_cross, nw_norm, nw_vdivs by assumption. set (h := @vdivs XR (@cross XR u v) _).
  assert (Gh : good h) by (unfold h; good_tac). clearbody h. rewrite nw_vopp by assumption.
  destruct Gh as [[r ->]| ->].
  2:{ rewrite nflip_nan. destruct sy, p; reflexivity. }
  assert (K : forall q : rvec, @dot XR (@K_AXIS XR) (vfin q) = Fin (vz q)).
  { intros [x y z]. unfold dot, K_AXIS, vfin, vmap. cbn [vx vy vz]. xunf. cbn [xmul xadd xlift2]. apply (f_equal Fin). ring. }
  rewrite nflip_F, !K, nflip_vz. xunf.
  assert (L : forall a b, xltb (Fin a) (Fin b) = if Rlt_dec a b then true else false) by reflexivity.
  rewrite !L. unfold sgn. destruct sy, p; cbn [xorb];
    repeat match goal with |- context [Rlt_dec ?a ?b] => destruct (Rlt_dec a b) end; try reflexivity; exfalso; lra.
Qed.

(** Validation. *)
Lemma validated_flip mu r1 r2 tof M p p' l mi at_ rt fo (k k' : vec xr -> vec xr -> res (@out XR)) :
  (valid_input mu r1 r2 tof M -> k (X (vfin r1)) (X (vfin r2)) = res_flip sy sz (k' (vfin r1) (vfin r2))) ->
  @validated XR _ (call mu (T r1) (T r2) tof M p' l mi at_ rt fo) k
  = res_flip sy sz (@validated XR _ (call mu r1 r2 tof M p l mi at_ rt fo) k').
Proof.
  intros H.
  unfold validated, call. cbn [a_mu a_r1 a_r2 a_tof a_M]. rewrite !as_vec_of_vec.
  assert (E : @assert_parameters_are_valid XR (Fin mu) (of_vec (vfin (T r1))) (of_vec (vfin (T r2))) (Fin tof) M
    = @assert_parameters_are_valid XR (Fin mu) (of_vec (vfin r1)) (of_vec (vfin r2)) (Fin tof) M).
  { unfold assert_parameters_are_valid, assert_position_vectors_are_valid, assert_position_vector_is_valid.
    cbn [length of_vec Nat.eqb negb raise_if bind]. unfold all_equal. cbn [length of_vec Nat.eqb].
    assert (Z : forall q, forallb (fun x => @neqb XR x (nofZ 0)) (@of_vec XR (vfin q))
      = if vzero_dec q then true else false).
    { intros q. transitivity (@is_null XR (vfin q)); [|apply is_null_F].
      unfold is_null, vall, of_vec. cbn [forallb]. now rewrite andb_true_r, andb_assoc. }
    assert (Q : forall a b, forallb (fun ab => @neqb XR (fst ab) (snd ab))
      (combine (@of_vec XR (vfin a)) (@of_vec XR (vfin b)))
      = if vzero_dec (vminus a b) then true else false).
    { intros [x y z] [u v w]. unfold of_vec, vfin, vmap. cbn [vx vy vz combine forallb fst snd]. xunf. unfold xeqb.
      destruct (vzero_dec _) as [D|D]; unfold vminus, vzero in D; cbn [vx vy vz] in D.
      - injection D. intros. destruct (Req_EM_T x u), (Req_EM_T y v), (Req_EM_T z w); try reflexivity; lra.
      - destruct (Req_EM_T x u), (Req_EM_T y v), (Req_EM_T z w); try reflexivity.
        exfalso. apply D. f_equal; lra. }
    rewrite !Z, !Q.
    assert (Z' : forall q, (if vzero_dec (T q) then true else false) = (if vzero_dec q then true else false)).
    { intros q. pose proof (flip_zero q). destruct (vzero_dec (T q)), (vzero_dec q); try reflexivity; exfalso; tauto. }
    now rewrite flip_minus, !Z'. }
  rewrite E. clear E.
  destruct (assert_parameters_are_valid _ _ _ _ _) as [u|e] eqn:EV; [|reflexivity]. cbn [bind].
  rewrite <- !flip_F. apply H.
  assert (V : @validated XR unit (call mu r1 r2 tof M p l mi at_ rt fo) (fun _ _ => Ok tt) = Ok tt).
  { unfold validated, call. cbn [a_mu a_r1 a_r2 a_tof a_M]. rewrite EV, !as_vec_of_vec. reflexivity. }
  apply validated_call in V. apply V.
Qed.
End Flip.

Ltac flipw := repeat first
  [ rewrite fw_vsub by good_tac | rewrite fw_vadd by good_tac | rewrite fw_vscale by good_tac
  | rewrite fw_vdivs by good_tac | rewrite nw_vdivs by good_tac | rewrite fw_vopp by good_tac
  | rewrite fw_cross by good_tac | rewrite fw_cross_l by good_tac | rewrite fw_cross_r by good_tac
  | rewrite fw_norm by good_tac | rewrite nw_norm by good_tac
  | rewrite fw_normal by good_tac
  | rewrite fw_angle by assumption | rewrite fw_vmul by good_tac ].
