(** * The model's vector operations commute with rotations about the z axis. *)
From Coq Require Import Reals ZArith String List Bool Lra Lia Psatz.
From Coquelicot Require Import Coquelicot.
Import ListNotations.
From Verif Require Import Num XReal XRealLemmas MApi MAssertions MLinalg MAngles Spec VecFacts VecXR AnglesXR CallXR.
Local Open Scope R_scope.

(** Rotation by [phi] about the third axis, and the same on vectors that may
    have NaN components. *)
Definition rotz (phi : R) (r : rvec) : rvec :=
  V3 (cos phi * vx r - sin phi * vy r) (sin phi * vx r + cos phi * vy r) (vz r).
Definition xrotz (phi : R) (v : vec xr) : vec xr :=
  V3 (xsub (xmul (Fin (cos phi)) (vx v)) (xmul (Fin (sin phi)) (vy v)))
     (xadd (xmul (Fin (sin phi)) (vx v)) (xmul (Fin (cos phi)) (vy v))) (vz v).
Definition out_rotz (phi : R) (o : @out XR) : @out XR :=
  match o with
  | Pair v1 v2 => @Pair XR (xrotz phi v1) (xrotz phi v2)
  | Full v1 v2 n t => @Full XR (xrotz phi v1) (xrotz phi v2) n t
  end.
Definition res_rotz (phi : R) (o : res (@out XR)) : res (@out XR) :=
  match o with Ok x => Ok (out_rotz phi x) | Err e => Err e end.

(** Vectors that are finite or NaN throughout. *)
Definition vnan : vec xr := V3 NaN NaN NaN.
Definition good (v : vec xr) : Prop := (exists r, v = vfin r) \/ v = vnan.

Section Rot.
Variable phi : R.
Notation rot := (rotz phi).
Notation xrot := (xrotz phi).

Lemma xrot_F r : xrot (vfin r) = vfin (rot r).
Proof. reflexivity. Qed.
Lemma xrot_nan : xrot vnan = vnan.
Proof. reflexivity. Qed.
Lemma good_F r : good (vfin r). Proof. left. eauto. Qed.

Lemma cs2 : cos phi * cos phi + sin phi * sin phi = 1.
Proof. pose proof (sin2_cos2 phi) as H. unfold Rsqr in H. lra. Qed.

Lemma rot_dot a b : vdot (rot a) (rot b) = vdot a b.
Proof.
  pose proof cs2 as E. destruct a as [x y z], b as [u v w]. unfold vdot, rotz. cbn [vx vy vz].
  set (c := cos phi) in *. set (s := sin phi) in *. clearbody c s.
  replace (x * u + y * v + z * w) with ((c * c + s * s) * (x * u + y * v) + z * w) by (rewrite E; ring). ring.
Qed.
Lemma rot_norm a : vnorm (rot a) = vnorm a.
Proof. unfold vnorm. now rewrite rot_dot. Qed.
Lemma rot_cross a b : vcross (rot a) (rot b) = rot (vcross a b).
Proof.
  pose proof cs2 as E. destruct a as [x y z], b as [u v w]. unfold vcross, rotz. cbn [vx vy vz].
  set (c := cos phi) in *. set (s := sin phi) in *. clearbody c s. f_equal; try ring.
  replace (x * v - y * u) with ((c * c + s * s) * (x * v - y * u)) by (rewrite E; ring). ring.
Qed.
Lemma rot_minus a b : vminus (rot a) (rot b) = rot (vminus a b).
Proof. destruct a as [x y z], b as [u v w]. unfold vminus, rotz; cbn [vx vy vz]. f_equal; ring. Qed.
Lemma rot_plus a b : vplus (rot a) (rot b) = rot (vplus a b).
Proof. destruct a as [x y z], b as [u v w]. unfold vplus, rotz; cbn [vx vy vz]. f_equal; ring. Qed.
Lemma rot_mult k a : vmult k (rot a) = rot (vmult k a).
Proof. destruct a as [x y z]. unfold vmult, rotz; cbn [vx vy vz]. f_equal; ring. Qed.
Lemma rot_zero a : rot a = vzero <-> a = vzero.
Proof.
  split; [|intros ->; unfold rotz, vzero; cbn [vx vy vz]; f_equal; ring].
  intros H. assert (E : vdot a a = 0). { rewrite <- rot_dot, H. unfold vdot, vzero; cbn [vx vy vz]. ring. }
  destruct (vzero_dec a) as [|N]; [assumption|]. pose proof (vdot_nonzero a N). lra.
Qed.
Lemma rot_inj a b : rot a = rot b -> a = b.
Proof.
  intros H. assert (E : vminus (rot a) (rot b) = vzero).
  { rewrite H. unfold vminus, vzero. f_equal; ring. }
  rewrite rot_minus in E. apply (proj1 (rot_zero _)) in E. destruct a as [x y z], b as [u v w].
  unfold vminus, vzero in E. cbn [vx vy vz] in E. injection E. intros. f_equal; lra.
Qed.

(** The model's operations on good vectors. *)
Lemma good_vsub u v : good u -> good v -> good (@vsub XR u v) /\ @vsub XR (xrot u) (xrot v) = xrot (@vsub XR u v).
Proof.
  intros [[r ->]| ->] [[q ->]| ->]; [|split; [right; reflexivity|reflexivity]..].
  rewrite !xrot_F, !vsub_F, rot_minus. split; [apply good_F|reflexivity].
Qed.
Lemma good_vadd u v : good u -> good v -> good (@vadd XR u v) /\ @vadd XR (xrot u) (xrot v) = xrot (@vadd XR u v).
Proof.
  intros [[r ->]| ->] [[q ->]| ->]; [|split; [right; reflexivity|reflexivity]..].
  rewrite !xrot_F, !vadd_F, rot_plus. split; [apply good_F|reflexivity].
Qed.
Lemma good_vscale k v : good v -> good (@vscale XR k v) /\ @vscale XR k (xrot v) = xrot (@vscale XR k v).
Proof.
  intros [[r ->]| ->]; [|destruct k; (split; [right; reflexivity|reflexivity])].
  destruct k as [k|]; [|split; [right; reflexivity|reflexivity]].
  rewrite !xrot_F, !vscale_F, rot_mult. split; [apply good_F|reflexivity].
Qed.
Lemma good_vdivs v k : good v -> good (@vdivs XR v k) /\ @vdivs XR (xrot v) k = xrot (@vdivs XR v k).
Proof.
  intros [[r ->]| ->]; [|destruct k; (split; [right; reflexivity|reflexivity])].
  destruct k as [k|]; [|split; [right; reflexivity|reflexivity]].
  destruct (Req_EM_T k 0) as [->|N].
  - assert (E : forall q, @vdivs XR (vfin q) (Fin 0) = vnan).
    { intros [x y z]. unfold vdivs, vmap, vfin, vnan. cbn. destruct (Req_EM_T 0 0); [reflexivity|lra]. }
    rewrite xrot_F, !E. split; [right; reflexivity|reflexivity].
  - rewrite !xrot_F, !vdivs_F, rot_mult by assumption. split; [apply good_F|reflexivity].
Qed.
Lemma good_vopp v : good v -> good (@vopp XR v) /\ @vopp XR (xrot v) = xrot (@vopp XR v).
Proof.
  intros [[r ->]| ->]; [|split; [right; reflexivity|reflexivity]].
  rewrite !xrot_F, !vopp_F, rot_mult. split; [apply good_F|reflexivity].
Qed.
Lemma good_cross u v : good u -> good v -> good (@cross XR u v) /\ @cross XR (xrot u) (xrot v) = xrot (@cross XR u v).
Proof.
  intros [[r ->]| ->] [[q ->]| ->].
  - rewrite !xrot_F, !cross_F, rot_cross. split; [apply good_F|reflexivity].
  - split; [right; reflexivity|reflexivity].
  - split; [right; reflexivity|reflexivity].
  - split; [right; reflexivity|reflexivity].
Qed.
Lemma good_norm v : good v -> @norm XR (xrot v) = @norm XR v.
Proof.
  intros [[r ->]| ->]; [|reflexivity]. now rewrite xrot_F, !norm_F, rot_norm.
Qed.
Lemma good_dot u v : good u -> good v -> @dot XR (xrot u) (xrot v) = @dot XR u v.
Proof.
  intros [[r ->]| ->] [[q ->]| ->]; try reflexivity. rewrite !xrot_F, !dot_F, rot_dot. reflexivity.
Qed.
Lemma good_vz v : vz (xrot v) = vz v. Proof. reflexivity. Qed.
Lemma good_K v : good v -> @dot XR (@K_AXIS XR) (xrot v) = @dot XR (@K_AXIS XR) v.
Proof.
  intros [[[x y z] ->]| ->]; [|reflexivity]. rewrite xrot_F. unfold dot, K_AXIS, rotz, vfin, vmap. cbn [vx vy vz].
  xunf. cbn [xmul xadd xlift2]. apply (f_equal Fin). ring.
Qed.

Lemma rw_vsub u v : good u -> good v -> @vsub XR (xrot u) (xrot v) = xrot (@vsub XR u v).
Proof. apply good_vsub. Qed.
Lemma rw_vadd u v : good u -> good v -> @vadd XR (xrot u) (xrot v) = xrot (@vadd XR u v).
Proof. apply good_vadd. Qed.
Lemma rw_vscale k v : good v -> @vscale XR k (xrot v) = xrot (@vscale XR k v).
Proof. apply good_vscale. Qed.
Lemma rw_vdivs v k : good v -> @vdivs XR (xrot v) k = xrot (@vdivs XR v k).
Proof. apply good_vdivs. Qed.
Lemma rw_vopp v : good v -> @vopp XR (xrot v) = xrot (@vopp XR v).
Proof. apply good_vopp. Qed.
Lemma rw_cross u v : good u -> good v -> @cross XR (xrot u) (xrot v) = xrot (@cross XR u v).
Proof. apply good_cross. Qed.

Lemma rw_vmul k v : good v -> vmap (fun a => @nmul XR a k) (xrot v) = xrot (vmap (fun a => @nmul XR a k) v).
Proof.
  intros G. destruct (good_vscale k v G) as [_ E].
  assert (C : forall w : vec xr, vmap (fun a => @nmul XR a k) w = @vscale XR k w).
  { intros [x y z]. unfold vscale, vmap. cbn [vx vy vz]. xunf.
    f_equal; destruct k, x, y, z; cbn; try reflexivity; f_equal; ring. }
  rewrite !C. exact E.
Qed.

Lemma rw_angle r1 r2 p : r1 <> vzero ->
  @get_transfer_angle XR (xrot (vfin r1)) (xrot (vfin r2)) p = @get_transfer_angle XR (vfin r1) (vfin r2) p.
Proof.
  intros H1. rewrite !xrot_F. destruct (vzero_dec (vcross r1 r2)) as [E|N].
  - rewrite !get_transfer_angle_collinear, rot_dot; try assumption; [reflexivity| |].
    + intros Z. apply H1. now apply rot_zero.
    + rewrite rot_cross, E. now apply rot_zero.
  - rewrite !get_transfer_angle_F; try assumption; [|rewrite rot_cross; intros Z; apply N; now apply rot_zero].
    unfold ang0, cosang. rewrite rot_dot, !rot_norm.
    assert (S : short_way p (rot r1) (rot r2) <-> short_way p r1 r2).
    { unfold short_way. rewrite rot_cross. reflexivity. }
    destruct (short_way_dec p (rot r1) (rot r2)), (short_way_dec p r1 r2); try reflexivity; tauto.
Qed.
Lemma rw_normal u v p : good u -> good v ->
  @get_orbit_normal_vector XR (xrot u) (xrot v) p = xrot (@get_orbit_normal_vector XR u v p) /\
  good (@get_orbit_normal_vector XR u v p).
Proof.
  intros Hu Hv. unfold get_orbit_normal_vector.
  destruct (good_cross u v Hu Hv) as [G1 E1]. rewrite E1, good_norm by assumption.
  destruct (good_vdivs (@cross XR u v) (@norm XR (@cross XR u v)) G1) as [G2 E2]. rewrite E2, good_K by assumption.
  destruct (good_vopp _ G2) as [G3 E3]. rewrite E3.
  destruct p; [destruct (nltb _ _)|destruct (nltb _ _)]; split; auto.
Qed.

(** Validation. *)
Lemma validated_rot mu r1 r2 tof M p l mi at_ rt fo (k k' : vec xr -> vec xr -> res (@out XR)) :
  (valid_input mu r1 r2 tof M -> k (xrot (vfin r1)) (xrot (vfin r2)) = res_rotz phi (k' (vfin r1) (vfin r2))) ->
  @validated XR _ (call mu (rot r1) (rot r2) tof M p l mi at_ rt fo) k
  = res_rotz phi (@validated XR _ (call mu r1 r2 tof M p l mi at_ rt fo) k').
Proof.
  intros H.
  unfold validated, call. cbn [a_mu a_r1 a_r2 a_tof a_M]. rewrite !as_vec_of_vec.
  assert (E : @assert_parameters_are_valid XR (Fin mu) (of_vec (vfin (rot r1))) (of_vec (vfin (rot r2))) (Fin tof) M
    = @assert_parameters_are_valid XR (Fin mu) (of_vec (vfin r1)) (of_vec (vfin r2)) (Fin tof) M).
  { unfold assert_parameters_are_valid, assert_position_vectors_are_valid, assert_position_vector_is_valid.
    cbn [length of_vec Nat.eqb negb raise_if bind]. unfold all_equal. cbn [length of_vec Nat.eqb].
    assert (Z : forall q, forallb (fun x => @neqb XR x (nofZ 0)) (@of_vec XR (vfin q))
      = if vzero_dec q then true else false).
    { intros q. transitivity (@is_null XR (vfin q)); [|apply is_null_F].
      unfold is_null, vall, of_vec. cbn [forallb]. now rewrite andb_true_r, andb_assoc. }
    assert (Q : forall a b, forallb (fun ab => @neqb XR (fst ab) (snd ab))
      (combine (@of_vec XR (vfin a)) (@of_vec XR (vfin b)))
      = if vzero_dec (vminus a b) then true else false).
    { intros [x y z] [u v w]. unfold of_vec, vfin, vmap. cbn [vx vy vz combine forallb fst snd]. xunf. unfold xeqb.
      destruct (vzero_dec _) as [D|D]; unfold vminus, vzero in D; cbn [vx vy vz] in D.
      - injection D. intros. destruct (Req_EM_T x u), (Req_EM_T y v), (Req_EM_T z w); try reflexivity; lra.
      - destruct (Req_EM_T x u), (Req_EM_T y v), (Req_EM_T z w); try reflexivity.
        exfalso. apply D. f_equal; lra. }
    rewrite !Z, !Q.
    assert (Z' : (if vzero_dec (rot r1) then true else false) = (if vzero_dec r1 then true else false)).
    { pose proof (rot_zero r1). destruct (vzero_dec (rot r1)), (vzero_dec r1); try reflexivity; exfalso; tauto. }
    assert (Q' : (if vzero_dec (vminus (rot r1) (rot r2)) then true else false) = (if vzero_dec (vminus r1 r2) then true else false)).
    { rewrite rot_minus. pose proof (rot_zero (vminus r1 r2)).
      destruct (vzero_dec (rot (vminus r1 r2))) as [X|X], (vzero_dec (vminus r1 r2)) as [Y|Y]; try reflexivity; exfalso; [apply Y|apply X]; apply H0; assumption. }
    now rewrite Z', Q'. }
  rewrite E. clear E.
  destruct (assert_parameters_are_valid _ _ _ _ _) as [u|e] eqn:EV; [|reflexivity]. cbn [bind].
  rewrite <- !xrot_F. apply H.
  assert (V : @validated XR unit (call mu r1 r2 tof M p l mi at_ rt fo) (fun _ _ => Ok tt) = Ok tt).
  { unfold validated, call. cbn [a_mu a_r1 a_r2 a_tof a_M]. rewrite EV, !as_vec_of_vec. reflexivity. }
  apply validated_call in V. apply V.
Qed.
End Rot.

Ltac good_tac := repeat first
  [ assumption | apply good_F
  | apply (fun k v H => proj1 (good_vscale 0 k v H)) | apply (fun v k H => proj1 (good_vdivs 0 v k H))
  | apply (fun u v H H' => proj1 (good_vsub 0 u v H H')) | apply (fun u v H H' => proj1 (good_vadd 0 u v H H'))
  | apply (fun u v H H' => proj1 (good_cross 0 u v H H')) | apply (fun u H => proj1 (good_vopp 0 u H))
  | apply (fun u v p H H' => proj2 (rw_normal 0 u v p H H')) ].
Ltac rotw := repeat first
  [ rewrite rw_vsub by good_tac | rewrite rw_vadd by good_tac | rewrite rw_vscale by good_tac
  | rewrite rw_vdivs by good_tac | rewrite rw_vopp by good_tac | rewrite rw_cross by good_tac
  | rewrite good_norm by good_tac | rewrite good_vz
  | rewrite (fun f u v p H H' => proj1 (rw_normal f u v p H H')) by good_tac
  | rewrite rw_angle by assumption | rewrite rw_vmul by good_tac ].

