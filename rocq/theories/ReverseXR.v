(** * The model's operations when the two positions are exchanged. *)
From Coq Require Import Reals ZArith String List Bool Lra Lia Psatz.
Import ListNotations.
From Verif Require Import Num XReal XRealLemmas MApi MAssertions MLinalg MAngles Spec VecFacts VecXR AnglesXR CallXR RotXR MirrorXR PropertiesMirrorSense.
Local Open Scope R_scope.

(** A motion traversed backwards: it starts with the opposite of the old final
    velocity and ends with the opposite of the old initial one. *)
Definition out_rev (o : @out XR) : @out XR :=
  match o with
  | Pair v1 v2 => @Pair XR (@vopp XR v2) (@vopp XR v1)
  | Full v1 v2 n t => @Full XR (@vopp XR v2) (@vopp XR v1) n t
  end.
Definition res_rev (o : res (@out XR)) : res (@out XR) :=
  match o with Ok x => Ok (out_rev x) | Err e => Err e end.

Lemma nadd_sym (a b : xr) : @nadd XR a b = @nadd XR b a.
Proof. destruct a, b; try reflexivity. cbn. f_equal. ring. Qed.
Lemma nmul_sym (a b : xr) : @nmul XR a b = @nmul XR b a.
Proof. destruct a, b; try reflexivity. cbn. f_equal. ring. Qed.
Lemma nsub_anti (a b : xr) : @nsub XR a b = @nopp XR (@nsub XR b a).
Proof. destruct a, b; try reflexivity. cbn. f_equal. ring. Qed.
Lemma ndiv_opp (a b : xr) : @ndiv XR (@nopp XR a) b = @nopp XR (@ndiv XR a b).
Proof.
  destruct a, b; try reflexivity. cbn. destruct (Req_EM_T _ 0); [reflexivity|]. cbn. f_equal. field. assumption.
Qed.
Lemma nmul_opp_l (a b : xr) : @nmul XR (@nopp XR a) b = @nopp XR (@nmul XR a b).
Proof. destruct a, b; try reflexivity. cbn. f_equal. ring. Qed.
Lemma nmul_opp_r (a b : xr) : @nmul XR a (@nopp XR b) = @nopp XR (@nmul XR a b).
Proof. destruct a, b; try reflexivity. cbn. f_equal. ring. Qed.
Lemma nadd_opp (a b : xr) : @nadd XR (@nopp XR a) (@nopp XR b) = @nopp XR (@nadd XR a b).
Proof. destruct a, b; try reflexivity. cbn. f_equal. ring. Qed.
Lemma nopp_opp (a : xr) : @nopp XR (@nopp XR a) = a. Proof. apply xopp_opp. Qed.
Lemma sq_opp (a : xr) : @sq XR (@nopp XR a) = @sq XR a.
Proof. destruct a; try reflexivity. cbn. f_equal. ring. Qed.

Lemma vsub_anti (u v : vec xr) : @vsub XR u v = @vopp XR (@vsub XR v u).
Proof. destruct u as [x y z], v as [a b d]. unfold vsub, vopp, vmap, vmap2. cbn [vx vy vz]. now f_equal; apply nsub_anti. Qed.
Lemma vopp_scale_l k (u : vec xr) : @vscale XR (@nopp XR k) u = @vopp XR (@vscale XR k u).
Proof. destruct u as [x y z]. unfold vscale, vopp, vmap. cbn [vx vy vz]. now f_equal; rewrite nmul_opp_l. Qed.
Lemma vopp_scale_r k (u : vec xr) : @vscale XR k (@vopp XR u) = @vopp XR (@vscale XR k u).
Proof. destruct u as [x y z]. unfold vscale, vopp, vmap. cbn [vx vy vz]. now f_equal; rewrite nmul_opp_r. Qed.
Lemma vopp_add (u v : vec xr) : @vadd XR (@vopp XR u) (@vopp XR v) = @vopp XR (@vadd XR u v).
Proof. destruct u as [x y z], v as [a b d]. unfold vadd, vopp, vmap, vmap2. cbn [vx vy vz]. now f_equal; apply nadd_opp. Qed.
Lemma vopp_divs k (u : vec xr) : @vdivs XR (@vopp XR u) k = @vopp XR (@vdivs XR u k).
Proof. destruct u as [x y z]. unfold vdivs, vopp, vmap. cbn [vx vy vz]. now f_equal; apply ndiv_opp. Qed.
Lemma vopp_cross_l (u v : vec xr) : @cross XR (@vopp XR u) v = @vopp XR (@cross XR u v).
Proof.
  destruct u as [x y z], v as [a b d]. unfold cross, vopp, vmap. cbn [vx vy vz].
  f_equal; destruct x, y, z, a, b, d; try reflexivity; cbn; f_equal; ring.
Qed.
Lemma cross_anti (u v : vec xr) : @cross XR v u = @vopp XR (@cross XR u v).
Proof.
  destruct u as [x y z], v as [a b d]. unfold cross, vopp, vmap. cbn [vx vy vz].
  f_equal; destruct x, y, z, a, b, d; try reflexivity; cbn; f_equal; ring.
Qed.
Lemma norm_opp (u : vec xr) : @norm XR (@vopp XR u) = @norm XR u.
Proof.
  destruct u as [x y z]. unfold norm, vopp, vmap, dot. cbn [vx vy vz]. f_equal.
  destruct x, y, z; try reflexivity; cbn; f_equal; ring.
Qed.
Lemma chord_sym (u v : vec xr) : @norm XR (@vsub XR u v) = @norm XR (@vsub XR v u).
Proof. now rewrite vsub_anti, norm_opp. Qed.
Lemma nnorm_sym n1 n2 d : @ndiv XR (@nsub XR n2 n1) d = @nopp XR (@ndiv XR (@nsub XR n1 n2) d).
Proof. now rewrite (nsub_anti n2 n1), ndiv_opp. Qed.

Lemma rev_short_way p r1 r2 : short_way (negb p) r2 r1 <-> short_way p r1 r2.
Proof. unfold short_way. destruct p; cbn [negb]; unfold vcross; cbn [vx vy vz]; lra. Qed.
Lemma rev_cross r1 r2 : vcross r2 r1 = vmult (-1) (vcross r1 r2).
Proof. apply vec_eq; unfold vcross, vmult; cbn [vx vy vz]; ring. Qed.
Lemma rev_zero r1 r2 : vcross r2 r1 = vzero <-> vcross r1 r2 = vzero.
Proof.
  rewrite rev_cross. unfold vmult, vzero. destruct (vcross r1 r2) as [x y z]. cbn [vx vy vz].
  split; intros E; injection E; intros; f_equal; lra.
Qed.

Lemma rev_angle r1 r2 p : r1 <> vzero -> r2 <> vzero ->
  @get_transfer_angle XR (vfin r2) (vfin r1) (negb p) = @get_transfer_angle XR (vfin r1) (vfin r2) p.
Proof.
  intros H1 H2. assert (ED : vdot r2 r1 = vdot r1 r2) by (unfold vdot; ring).
  destruct (vzero_dec (vcross r1 r2)) as [E|N].
  - rewrite !get_transfer_angle_collinear, ED; try assumption; [reflexivity|]. now apply rev_zero.
  - rewrite !get_transfer_angle_F; try assumption; [|intros Z; apply N; now apply rev_zero].
    unfold ang0, cosang. rewrite ED, (Rmult_comm (vnorm r2)). pose proof (rev_short_way p r1 r2) as W.
    destruct (short_way_dec (negb p) r2 r1), (short_way_dec p r1 r2); try reflexivity; tauto.
Qed.

Lemma rev_normal u v p : good u -> good v ->
  @get_orbit_normal_vector XR v u (negb p) = @vopp XR (@get_orbit_normal_vector XR u v p).
Proof.
  intros Hu Hv. unfold get_orbit_normal_vector. rewrite (cross_anti u v), norm_opp, vopp_divs.
  set (h := @vdivs XR (@cross XR u v) _). assert (Gh : good h) by (unfold h; good_tac). clearbody h.
  rewrite vopp_opp. destruct Gh as [[r ->]| ->]; [|destruct p; reflexivity].
  assert (K : forall q : rvec, @dot XR (@K_AXIS XR) (vfin q) = Fin (vz q)).
  { intros [x y z]. unfold dot, K_AXIS, vfin, vmap. cbn [vx vy vz]. xunf. cbn [xmul xadd xlift2]. apply (f_equal Fin). ring. }
  assert (K' : @dot XR (@K_AXIS XR) (@vopp XR (vfin r)) = Fin (- vz r)).
  { rewrite vopp_F, K. f_equal. unfold vmult. cbn [vx vy vz]. ring. }
  rewrite K', !K. xunf. assert (L : forall a b, xltb (Fin a) (Fin b) = if Rlt_dec a b then true else false) by reflexivity.
  rewrite !L. destruct p; cbn [negb];
    repeat match goal with |- context [Rlt_dec ?a ?b] => destruct (Rlt_dec a b) end; rewrite ?vopp_opp; try reflexivity; exfalso; lra.
Qed.

(** Validation. *)
Lemma validated_rev mu r1 r2 tof M p p' l mi at_ rt fo (k k' : vec xr -> vec xr -> res (@out XR)) :
  r1 <> vzero -> r2 <> vzero ->
  (valid_input mu r1 r2 tof M -> k (vfin r2) (vfin r1) = res_rev (k' (vfin r1) (vfin r2))) ->
  @validated XR _ (call mu r2 r1 tof M p' l mi at_ rt fo) k
  = res_rev (@validated XR _ (call mu r1 r2 tof M p l mi at_ rt fo) k').
Proof.
  intros N1 N2 H.
  unfold validated, call. cbn [a_mu a_r1 a_r2 a_tof a_M]. rewrite !as_vec_of_vec.
  assert (E : @assert_parameters_are_valid XR (Fin mu) (of_vec (vfin r2)) (of_vec (vfin r1)) (Fin tof) M
    = @assert_parameters_are_valid XR (Fin mu) (of_vec (vfin r1)) (of_vec (vfin r2)) (Fin tof) M).
  { unfold assert_parameters_are_valid, assert_position_vectors_are_valid, assert_position_vector_is_valid.
    cbn [length of_vec Nat.eqb negb raise_if bind]. unfold all_equal. cbn [length of_vec Nat.eqb].
    assert (Z : forall q, forallb (fun x => @neqb XR x (nofZ 0)) (@of_vec XR (vfin q))
      = if vzero_dec q then true else false).
    { intros q. transitivity (@is_null XR (vfin q)); [|apply is_null_F].
      unfold is_null, vall, of_vec. cbn [forallb]. now rewrite andb_true_r, andb_assoc. }
    assert (Q : forallb (fun ab => @neqb XR (fst ab) (snd ab)) (combine (@of_vec XR (vfin r2)) (@of_vec XR (vfin r1)))
      = forallb (fun ab => @neqb XR (fst ab) (snd ab)) (combine (@of_vec XR (vfin r1)) (@of_vec XR (vfin r2)))).
    { destruct r1 as [x y z], r2 as [u v w]. unfold of_vec, vfin, vmap. cbn [vx vy vz combine forallb fst snd]. xunf. unfold xeqb.
      destruct (Req_EM_T x u), (Req_EM_T y v), (Req_EM_T z w), (Req_EM_T u x), (Req_EM_T v y), (Req_EM_T w z); try reflexivity; lra. }
    rewrite !Z, !Q. destruct (vzero_dec r1); [contradiction|]. destruct (vzero_dec r2); [contradiction|]. reflexivity. }
  rewrite E. clear E.
  destruct (assert_parameters_are_valid _ _ _ _ _) as [u|e] eqn:EV; [|reflexivity]. cbn [bind]. apply H.
  assert (V : @validated XR unit (call mu r1 r2 tof M p l mi at_ rt fo) (fun _ _ => Ok tt) = Ok tt).
  { unfold validated, call. cbn [a_mu a_r1 a_r2 a_tof a_M]. rewrite EV, !as_vec_of_vec. reflexivity. }
  apply validated_call in V. apply V.
Qed.
