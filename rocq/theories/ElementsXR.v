(** * The element conversions over the reals *)
From Coq Require Import Reals ZArith Bool Lra Lia Psatz.
From Verif Require Import Num XReal XRealLemmas MLinalg MAngles MElements Spec SpecElements VecFacts VecXR.
Local Open Scope R_scope.

Lemma sc t : sin t * sin t + cos t * cos t = 1.
Proof. pose proof (sin2_cos2 t) as H. exact H. Qed.

Section Frame.
Variables i o w : R.
Let P := frame_P i o w. Let Q := frame_Q i o w. Let W := frame_W i o.

Lemma frame_PP : vdot P P = 1.
Proof.
  unfold P, frame_P, vdot. cbn [vx vy vz]. pose proof (sc i) as I. pose proof (sc o) as O. pose proof (sc w) as X.
  transitivity ((sin o * sin o + cos o * cos o) * (cos w * cos w) + (sin w * sin w) *
    ((sin o * sin o + cos o * cos o) * (cos i * cos i) + sin i * sin i)); [ring|].
  rewrite O. replace (1 * (cos i * cos i) + sin i * sin i) with 1 by lra. lra.
Qed.
Lemma frame_QQ : vdot Q Q = 1.
Proof.
  unfold Q, frame_Q, vdot. cbn [vx vy vz]. pose proof (sc i) as I. pose proof (sc o) as O. pose proof (sc w) as X.
  transitivity ((sin o * sin o + cos o * cos o) * (sin w * sin w) + (cos w * cos w) *
    ((sin o * sin o + cos o * cos o) * (cos i * cos i) + sin i * sin i)); [ring|].
  rewrite O. replace (1 * (cos i * cos i) + sin i * sin i) with 1 by lra. lra.
Qed.
Lemma frame_PQ : vdot P Q = 0.
Proof.
  unfold P, Q, frame_P, frame_Q, vdot. cbn [vx vy vz]. pose proof (sc i) as I. pose proof (sc o) as O.
  transitivity (sin w * cos w * ((sin o * sin o + cos o * cos o) * (cos i * cos i) + sin i * sin i
    - (sin o * sin o + cos o * cos o))); [ring|].
  rewrite O. replace (1 * (cos i * cos i) + sin i * sin i) with 1 by lra. ring.
Qed.
Lemma frame_cross : vcross P Q = W.
Proof.
  unfold P, Q, W, frame_P, frame_Q, frame_W, vcross. cbn [vx vy vz]. pose proof (sc o) as O. pose proof (sc w) as X.
  apply vec_eq; cbn [vx vy vz].
  - transitivity (sin o * sin i * (sin w * sin w + cos w * cos w)); [ring|rewrite X; ring].
  - transitivity (- cos o * sin i * (sin w * sin w + cos w * cos w)); [ring|rewrite X; ring].
  - transitivity ((sin o * sin o + cos o * cos o) * cos i * (sin w * sin w + cos w * cos w)); [ring|rewrite X, O; ring].
Qed.
Lemma frame_WW : vdot W W = 1.
Proof.
  unfold W, frame_W, vdot. cbn [vx vy vz]. pose proof (sc i) as I. pose proof (sc o) as O.
  transitivity ((sin o * sin o + cos o * cos o) * (sin i * sin i) + cos i * cos i); [ring|rewrite O; lra].
Qed.
End Frame.

(** In an orthonormal frame. *)
Section Conic.
Variables (mu p e nu : R) (P Q : rvec).
Hypotheses (Hmu : 0 < mu) (Hp : 0 < p) (Hd : 0 < 1 + e * cos nu).
Hypotheses (PP : vdot P P = 1) (QQ : vdot Q Q = 1) (PQ : vdot P Q = 0).
Let r := vmult (p / (1 + e * cos nu)) (vplus (vmult (cos nu) P) (vmult (sin nu) Q)).
Let v := vmult (sqrt (mu / p)) (vplus (vmult (- sin nu) P) (vmult (e + cos nu) Q)).
Let s := sqrt (mu / p).

Lemma conic_s : 0 < s /\ s * s = mu / p.
Proof.
  assert (0 < mu / p) by now apply Rdiv_lt_0_compat. split; [now apply sqrt_lt_R0|apply sqrt_sqrt; lra].
Qed.

Lemma conic_rr : vdot r r = p / (1 + e * cos nu) * (p / (1 + e * cos nu)).
Proof.
  unfold r. set (k := p / _). clearbody k. pose proof (sc nu) as S.
  transitivity (k * k * (cos nu * cos nu * vdot P P + sin nu * sin nu * vdot Q Q + 2 * (cos nu * sin nu) * vdot P Q)).
  - unfold vdot, vmult, vplus. cbn [vx vy vz]. ring.
  - rewrite PP, QQ, PQ. replace (cos nu * cos nu * 1 + sin nu * sin nu * 1 + 2 * (cos nu * sin nu) * 0) with 1 by lra. ring.
Qed.

Lemma conic_radius : vnorm r = p / (1 + e * cos nu).
Proof. unfold vnorm. rewrite conic_rr. apply sqrt_square. apply Rlt_le. now apply Rdiv_lt_0_compat. Qed.

Lemma conic_vv : vdot v v = mu / p * (1 + 2 * e * cos nu + e * e).
Proof.
  destruct conic_s as [_ S2]. unfold v. fold s. pose proof (sc nu) as S.
  transitivity (s * s * (sin nu * sin nu * vdot P P + (e + cos nu) * (e + cos nu) * vdot Q Q
     - 2 * (sin nu * (e + cos nu)) * vdot P Q)).
  - unfold vdot, vmult, vplus. cbn [vx vy vz]. ring.
  - rewrite PP, QQ, PQ, S2. f_equal.
    transitivity (sin nu * sin nu + cos nu * cos nu + 2 * e * cos nu + e * e); [ring|rewrite S; ring].
Qed.

Lemma conic_momentum : momentum r v = vmult (sqrt (mu * p)) (vcross P Q).
Proof.
  destruct conic_s as [S1 S2]. unfold momentum.
  transitivity (vmult (p / (1 + e * cos nu) * s * (cos nu * (e + cos nu) + sin nu * sin nu)) (vcross P Q)).
  - unfold r, v. fold s. set (k := p / _). clearbody k s. unfold vcross, vmult, vplus. cbn [vx vy vz].
    apply vec_eq; cbn [vx vy vz]; ring.
  - f_equal. pose proof (sc nu) as S.
    replace (cos nu * (e + cos nu) + sin nu * sin nu) with (1 + e * cos nu) by lra.
    transitivity (p * s); [field; lra|].
    replace (mu * p) with (p * p * (mu / p)) by (field; lra).
    rewrite sqrt_mult, sqrt_square; try nra; reflexivity.
Qed.

Lemma conic_energy : energy mu r v = - mu * (1 - e * e) / (2 * p).
Proof. unfold energy. rewrite conic_vv, conic_radius. field. split; lra. Qed.

Lemma vcross_PQ_P : vcross (vcross P Q) P = Q.
Proof.
  transitivity (vminus (vmult (vdot P P) Q) (vmult (vdot P Q) P)).
  - unfold vcross, vminus, vmult, vdot. apply vec_eq; cbn [vx vy vz]; ring.
  - rewrite PP, PQ. unfold vminus, vmult. apply vec_eq; cbn [vx vy vz]; ring.
Qed.
Lemma vcross_Q_PQ : vcross Q (vcross P Q) = P.
Proof.
  transitivity (vminus (vmult (vdot Q Q) P) (vmult (vdot P Q) Q)).
  - unfold vcross, vminus, vmult, vdot. apply vec_eq; cbn [vx vy vz]; ring.
  - rewrite QQ, PQ. unfold vminus, vmult. apply vec_eq; cbn [vx vy vz]; ring.
Qed.

Lemma conic_ecc : ecc_vector mu r v = vmult e P.
Proof.
  destruct conic_s as [S1 S2]. unfold ecc_vector. fold (momentum r v). rewrite conic_momentum, conic_radius.
  assert (SS : sqrt (mu * p) = p * s).
  { replace (mu * p) with (p * p * (mu / p)) by (field; lra).
    rewrite sqrt_mult, sqrt_square; try nra; reflexivity. }
  rewrite SS. set (h := vcross P Q).
  assert (E1 : vcross P h = vmult (-1) Q).
  { rewrite <- (vcross_PQ_P). fold h. unfold vcross, vmult. apply vec_eq; cbn [vx vy vz]; ring. }
  assert (E2 : vcross Q h = P) by apply vcross_Q_PQ.
  assert (E3 : vcross v (vmult (p * s) h) = vmult mu (vplus (vmult (e + cos nu) P) (vmult (sin nu) Q))).
  { transitivity (vmult (p * (s * s)) (vplus (vmult (- sin nu) (vcross P h)) (vmult (e + cos nu) (vcross Q h)))).
    - unfold v. fold s. clearbody s h. unfold vcross, vmult, vplus. apply vec_eq; cbn [vx vy vz]; ring.
    - rewrite E1, E2, S2. unfold vmult, vplus. apply vec_eq; cbn [vx vy vz]; field; lra. }
  rewrite E3. unfold r. unfold vmult, vplus, vminus. apply vec_eq; cbn [vx vy vz]; field; repeat split; lra.
Qed.
End Conic.

(** ** The model *)

Lemma rotation_F a :
  @rotation_matrix XR (Fin a) 0 = Ok (V3 (vfin (V3 1 0 0)) (vfin (V3 0 (cos a) (- sin a))) (vfin (V3 0 (sin a) (cos a)))) /\
  @rotation_matrix XR (Fin a) 1 = Ok (V3 (vfin (V3 (cos a) 0 (sin a))) (vfin (V3 0 1 0)) (vfin (V3 (sin a) 0 (cos a)))) /\
  @rotation_matrix XR (Fin a) 2 = Ok (V3 (vfin (V3 (cos a) (- sin a) 0)) (vfin (V3 (sin a) (cos a) 0)) (vfin (V3 0 0 1))).
Proof. repeat split. Qed.

Lemma coe_rotation_F i o w :
  @coe_rotation_matrix XR (Fin i) (Fin o) (Fin w) =
  Ok (V3 (vfin (V3 (vx (frame_P i o w)) (vx (frame_Q i o w)) (vx (frame_W i o))))
         (vfin (V3 (vy (frame_P i o w)) (vy (frame_Q i o w)) (vy (frame_W i o))))
         (vfin (V3 (vz (frame_P i o w)) (vz (frame_Q i o w)) (vz (frame_W i o))))).
Proof.
  unfold coe_rotation_matrix. destruct (rotation_F o) as (_ & _ & ->). destruct (rotation_F i) as (-> & _ & _).
  destruct (rotation_F w) as (_ & _ & ->). cbn [bind]. unfold frame_P, frame_Q, frame_W.
  unfold mmul, mcol, vmap. cbn [vx vy vz]. unfold vfin. cbn [vx vy vz].
  unfold dot. cbn [vx vy vz]. xunf. cbn [xadd xmul xlift2].
  apply (f_equal (@Ok _)).
  assert (V : forall T (a b c a' b' c' : T), a = a' -> b = b' -> c = c' -> V3 a b c = V3 a' b' c') by (intros; subst; reflexivity).
  apply V; apply V; apply (f_equal Fin); cbn [vx vy vz]; ring.
Qed.

Lemma mvmul_F a b c v : @mvmul XR (V3 (vfin a) (vfin b) (vfin c)) (vfin v) = vfin (V3 (vdot a v) (vdot b v) (vdot c v)).
Proof. unfold mvmul, vmap. cbn [vx vy vz]. rewrite !dot_F. reflexivity. Qed.

Lemma coe2rv_F mu p e i o w nu : 0 < mu -> 0 < p -> 1 + e * cos nu <> 0 ->
  @coe2rv XR (Fin mu) (Fin p) (Fin e) (Fin i) (Fin o) (Fin w) (Fin nu) =
  Ok (vfin (conic_position p e i o w nu), vfin (conic_velocity mu p e i o w nu)).
Proof.
  intros Hmu Hp Hd. unfold coe2rv. rewrite coe_rotation_F. unfold rv_pqw. cbn [bind].
  assert (0 < mu / p) by now apply Rdiv_lt_0_compat.
  set (s := @nsqrt XR _). assert (Es : s = Fin (sqrt (mu / p))).
  { unfold s. xunf. rewrite xdiv_F by lra. apply xsqrt_F. lra. }
  set (a := @ndiv XR (Fin p) _). assert (Ea : a = Fin (p / (1 + e * cos nu))).
  { unfold a. xunf. cbn [xadd xmul xlift1 xlift2]. apply xdiv_F. assumption. }
  clearbody s a. subst s a.
  set (A := p / _). set (S := sqrt _).
  match goal with |- context [mvmul _ ?x] => change x with (vfin (V3 (cos nu * A) (sin nu * A) (0 * A))) end.
  match goal with |- context [(_, mvmul _ ?x)] => change x with (vfin (V3 (- sin nu * S) ((e + cos nu) * S) (0 * S))) end.
  rewrite !mvmul_F. unfold conic_position, conic_velocity. fold A S.
  do 2 f_equal; apply f_equal; unfold vdot, vmult, vplus; apply vec_eq; cbn [vx vy vz]; ring.
Qed.

(** Finite velocities come from a positive parameter. *)
Lemma coe2rv_velocity_inv mu p e i o w nu r v : 0 < mu ->
  @coe2rv XR (Fin mu) p (Fin e) (Fin i) (Fin o) (Fin w) (Fin nu) = Ok (r, vfin v) ->
  exists q, p = Fin q /\ 0 < q /\ v = conic_velocity mu q e i o w nu.
Proof.
  intros Hmu H. unfold coe2rv in H. rewrite coe_rotation_F in H. unfold rv_pqw in H. cbn [bind] in H.
  apply (f_equal (fun x => match x with Ok (_, b) => b | Err _ => vfin v end)) in H. cbv beta iota in H.
  set (s := @nsqrt XR _) in H.
  assert (Es : exists q, p = Fin q /\ 0 < q /\ s = Fin (sqrt (mu / q))).
  { destruct s as [S|] eqn:ES.
    - unfold s in ES. xunf. xinv. subst. eexists. split; [reflexivity|].
      match goal with HH : 0 <= mu / ?q, HN : ?q <> 0 |- _ =>
        assert (L : 0 < q) by (destruct (Rlt_dec 0 q) as [|L]; [assumption|exfalso];
          assert (L2 : q < 0) by lra; assert (0 < - q) by lra;
          assert (0 < mu / - q) by (apply Rdiv_lt_0_compat; assumption);
          replace (mu / - q) with (- (mu / q)) in * by (field; assumption); lra) end.
      split; [assumption|reflexivity].
    - exfalso. clear ES. unfold mvmul, vmap in H. cbn [vx vy vz] in H. unfold dot in H. cbn [vx vy vz] in H.
      xunf. apply (f_equal (@vx xr)) in H. cbn in H. discriminate. }
  destruct Es as (q & -> & Hq & Es). exists q. split; [reflexivity|]. split; [assumption|].
  rewrite Es in H. set (S := sqrt _) in H.
  match type of H with mvmul _ ?x = _ => change x with (vfin (V3 (- sin nu * S) ((e + cos nu) * S) (0 * S))) in H end.
  rewrite mvmul_F in H. apply vfin_inj in H. rewrite <- H.
  unfold conic_velocity. fold S. unfold vdot, vmult, vplus; apply vec_eq; cbn [vx vy vz]; ring.
Qed.
