(** * Orbital elements: C24, C25. *)
From Coq Require Import Reals ZArith String Bool Lra Lia Psatz.
From Verif Require Import Num XReal XRealLemmas MLinalg MAngles MElements Spec SpecElements VecFacts VecXR ElementsXR.
Local Open Scope R_scope.

(** ** C24 *)

(** The state computed from elements has the angular momentum, radius, energy
    and eccentricity vector of the conic. *)
Theorem C24_state_of_elements : forall mu p e i o w nu,
  0 < mu -> 0 < p -> 0 < 1 + e * cos nu ->
  exists r v,
    @coe2rv XR (Fin mu) (Fin p) (Fin e) (Fin i) (Fin o) (Fin w) (Fin nu) = Ok (vfin r, vfin v) /\
    vnorm r = p / (1 + e * cos nu) /\
    momentum r v = vmult (sqrt (mu * p)) (frame_W i o) /\
    energy mu r v = - mu * (1 - e * e) / (2 * p) /\
    ecc_vector mu r v = vmult e (frame_P i o w) /\
    vdot r (frame_P i o w) = vnorm r * cos nu /\
    vdot r (frame_Q i o w) = vnorm r * sin nu.
Proof.
  intros mu p e i o w nu Hmu Hp Hd.
  exists (conic_position p e i o w nu), (conic_velocity mu p e i o w nu).
  pose proof (frame_PP i o w) as PP. pose proof (frame_QQ i o w) as QQ. pose proof (frame_PQ i o w) as PQ.
  split; [apply coe2rv_F; lra|].
  split; [apply conic_radius; assumption|].
  split. { rewrite <- (frame_cross i o w). apply conic_momentum; assumption. }
  split; [apply conic_energy; assumption|].
  split; [apply conic_ecc; assumption|].
  assert (R : vnorm (conic_position p e i o w nu) = p / (1 + e * cos nu)) by (apply conic_radius; assumption).
  rewrite R. unfold conic_position. set (k := p / _).
  set (P := frame_P i o w) in *. set (Q := frame_Q i o w) in *. clearbody P Q k. clear R.
  split.
  - transitivity (k * (cos nu * vdot P P + sin nu * vdot P Q)).
    + unfold vdot, vmult, vplus. cbn [vx vy vz]. ring.
    + rewrite PP, PQ. ring.
  - transitivity (k * (cos nu * vdot P Q + sin nu * vdot Q Q)).
    + unfold vdot, vmult, vplus. cbn [vx vy vz]. ring.
    + rewrite QQ, PQ. ring.
Qed.
Print Assumptions C24_state_of_elements.

(** [rv2coe]'s eccentricity vector is the textbook one. *)
Lemma ecc_formula mu r v : 0 < mu -> 0 < vnorm r ->
  vmult (/ mu) (vminus (vmult (vdot v v - mu / vnorm r) r) (vmult (vdot r v) v)) = ecc_vector mu r v.
Proof.
  intros Hmu Hr. unfold ecc_vector. destruct r as [x y z], v as [a b c]. set (n := vnorm _) in *. clearbody n.
  unfold vcross, vmult, vminus, vdot. apply vec_eq; cbn [vx vy vz]; field; lra.
Qed.

Lemma rv2coe_pei mu r v tol : 0 < mu -> 0 < vnorm r -> 0 < vdot (momentum r v) (momentum r v) ->
  let c := @rv2coe XR (Fin mu) (vfin r) (vfin v) tol in
  e_p c = Fin (vdot (momentum r v) (momentum r v) / mu) /\
  e_ecc c = Fin (sqrt (vdot (ecc_vector mu r v) (ecc_vector mu r v))) /\
  e_inc c = @nacos XR (@ndiv XR (Fin (vz (momentum r v))) (Fin (sqrt (vdot (momentum r v) (momentum r v))))).
Proof.
  intros Hmu Hr Hh. unfold rv2coe. rewrite !cross_F, !dot_F. fold (momentum r v).
  set (H := momentum r v) in *.
  assert (E : @vdivs XR (vsub (vscale (@nsub XR (Fin (vdot v v)) (@ndiv XR (Fin mu) (@nsqrt XR (Fin (vdot r r))))) (vfin r))
     (vscale (Fin (vdot r v)) (vfin v))) (Fin mu) = vfin (ecc_vector mu r v)).
  { change (@nsqrt XR (Fin (vdot r r))) with (xsqrt (Fin (vdot r r))). rewrite xsqrt_F by apply vdot_pos.
    fold (vnorm r). change (@ndiv XR (Fin mu) (Fin (vnorm r))) with (xdiv (Fin mu) (Fin (vnorm r))).
    rewrite xdiv_F by lra. change (@nsub XR (Fin (vdot v v)) (Fin (mu / vnorm r))) with (Fin (vdot v v - mu / vnorm r)).
    rewrite !vscale_F, vsub_F, vdivs_F by lra. now rewrite ecc_formula. }
  rewrite E. rewrite !dot_F.
  set (tup := if _ && _ then _ else _). destruct tup as [[raan argp] nu]. cbn [e_p e_ecc e_inc].
  repeat split.
  - xunf. apply xdiv_F. lra.
  - xunf. apply xsqrt_F. apply vdot_pos.
  - unfold vfin. cbn [vz]. xunf. rewrite xsqrt_F by lra. reflexivity.
Qed.

(** Converting back recovers the semi-latus rectum, eccentricity and
    inclination, for every tolerance. *)
Theorem C24_elements_of_state : forall mu p e i o w nu tol,
  0 < mu -> 0 < p -> 0 <= e -> 0 < 1 + e * cos nu -> 0 <= i <= PI ->
  exists r v,
    @coe2rv XR (Fin mu) (Fin p) (Fin e) (Fin i) (Fin o) (Fin w) (Fin nu) = Ok (vfin r, vfin v) /\
    let c := @rv2coe XR (Fin mu) (vfin r) (vfin v) tol in
    e_p c = Fin p /\ e_ecc c = Fin e /\ e_inc c = Fin i.
Proof.
  intros mu p e i o w nu tol Hmu Hp He Hd Hi.
  destruct (C24_state_of_elements mu p e i o w nu Hmu Hp Hd) as (r & v & E & R & HM & _ & HE & _).
  exists r, v. split; [exact E|].
  assert (N : 0 < vnorm r) by (rewrite R; now apply Rdiv_lt_0_compat).
  assert (Hmp : 0 < mu * p) by now apply Rmult_lt_0_compat.
  pose proof (sqrt_lt_R0 _ Hmp) as Q.
  assert (H2 : vdot (momentum r v) (momentum r v) = mu * p).
  { rewrite HM, vdot_mult_l, vdot_mult_r, frame_WW. rewrite Rmult_1_r. apply sqrt_sqrt. lra. }
  destruct (rv2coe_pei mu r v tol Hmu N) as (A & B & C); [rewrite H2; assumption|].
  cbv zeta. rewrite A, B, C, H2. split; [f_equal; field; lra|]. split.
  - rewrite HE, vdot_mult_l, vdot_mult_r, frame_PP. f_equal.
    replace (e * (e * 1)) with (e * e) by ring. now apply sqrt_square.
  - rewrite HM. unfold frame_W, vmult. cbn [vz]. xunf. rewrite xdiv_F by lra.
    replace (sqrt (mu * p) * cos i / sqrt (mu * p)) with (cos i) by (field; lra).
    rewrite xacos_F by apply COS_bound. f_equal. now apply acos_cos.
Qed.
Print Assumptions C24_elements_of_state.

(** A hyperbola seen from periapsis. *)
Example C24_case : 0 < 1 /\ 0 < 3 /\ 0 <= 2 /\ 0 < 1 + 2 * cos 0 /\ 0 <= PI / 3 <= PI.
Proof. rewrite cos_0. pose proof PI_RGT_0. repeat split; lra. Qed.

(** ** C25 *)

(** Rows of a proper rotation: orthonormal and right-handed (determinant one). *)
Definition proper_rotation (a b c : rvec) : Prop :=
  vdot a a = 1 /\ vdot b b = 1 /\ vdot a b = 0 /\ c = vcross a b.

Theorem C25_rotations_partial : forall angle axis, axis = 0%Z \/ axis = 2%Z ->
  exists a b c, @rotation_matrix XR (Fin angle) axis = Ok (V3 (vfin a) (vfin b) (vfin c)) /\
    proper_rotation a b c.
Proof.
  intros t axis H. destruct (rotation_F t) as (E0 & _ & E2). pose proof (sc t) as S.
  destruct H as [-> | ->]; [rewrite E0|rewrite E2]; eexists _, _, _; (split; [reflexivity|]);
    unfold proper_rotation, vdot, vcross; cbn [vx vy vz]; repeat split; try lra; apply vec_eq; cbn [vx vy vz]; lra.
Qed.
Print Assumptions C25_rotations_partial.

(** The matrix for the second axis is a rotation for multiples of a half turn
    only (elements.py:296). *)
Theorem C25_second_axis_refuted : forall angle,
  exists a b c, @rotation_matrix XR (Fin angle) 1 = Ok (V3 (vfin a) (vfin b) (vfin c)) /\
    (proper_rotation a b c <-> sin angle = 0).
Proof.
  intros t. destruct (rotation_F t) as (_ & E1 & _). pose proof (sc t) as S.
  rewrite E1. eexists _, _, _. split; [reflexivity|].
  unfold proper_rotation, vdot, vcross; cbn [vx vy vz]. split.
  - intros (_ & _ & _ & E). apply (f_equal vx) in E. cbn [vx vy vz] in E. lra.
  - intros Z. rewrite Z in *. repeat split; try lra. apply vec_eq; cbn [vx vy vz]; lra.
Qed.
Print Assumptions C25_second_axis_refuted.

(** No other axis, in every arithmetic. *)
Theorem C25_axis_checked : forall (N : Num) (angle : num) axis,
  axis <> 0%Z -> axis <> 1%Z -> axis <> 2%Z ->
  exists msg, rotation_matrix angle axis = Err (ValueError msg).
Proof.
  intros N angle axis H0 H1 H2. unfold rotation_matrix.
  apply Z.eqb_neq in H0, H1, H2. rewrite H0, H1, H2. eexists. reflexivity.
Qed.
Print Assumptions C25_axis_checked.

Example C25_case : sin (PI / 2) <> 0.
Proof. rewrite sin_PI2. lra. Qed.
