(** * Velocities along the chord and the radius: same orbit, direction.

    Every solver but the ones working with orbital elements builds its
    velocities, in one notation or another, as
    [v1 = a (r2 - r1) + b r1 / |r1|], [v2 = a (r2 - r1) - b r2 / |r2|]. *)
From Coq Require Import Reals ZArith Bool Lra Lia Psatz.
From Verif Require Import Num Spec VecFacts.
Local Open Scope R_scope.

(** [|r1| |r2| (1 + cos theta)]. *)
Definition Kgeo (r1 r2 : rvec) : R := vnorm r1 * vnorm r2 + vdot r1 r2.

Definition godal (mu : R) (p : bool) (r1 r2 v1 v2 : rvec) : Prop :=
  exists a b,
    v1 = vplus (vmult a (vminus r2 r1)) (vmult (b / vnorm r1) r1) /\
    v2 = vminus (vmult a (vminus r2 r1)) (vmult (b / vnorm r2) r2) /\
    a * b * Kgeo r1 r2 = mu /\
    (vz (vcross r1 r2) <> 0 -> (0 < a <-> short_way p r1 r2)).

Lemma sq_lt_bounds x n : 0 < n -> x * x < n * n -> - n < x < n.
Proof. intros. split; nra. Qed.
Lemma dot_bounds r1 r2 :
  non_collinear r1 r2 -> - (vnorm r1 * vnorm r2) < vdot r1 r2 < vnorm r1 * vnorm r2.
Proof.
  intros H.
  pose proof (vnorm_pos _ (vcross_nonzero_l _ _ H)) as H1.
  pose proof (vnorm_pos _ (vcross_nonzero_r _ _ H)) as H2.
  pose proof (cauchy_strict r1 r2 H) as C. rewrite <- !vnorm_sq in C.
  apply sq_lt_bounds; [now apply Rmult_lt_0_compat|]. lra.
Qed.
Lemma Kgeo_pos r1 r2 : non_collinear r1 r2 -> 0 < Kgeo r1 r2.
Proof.
  intros H. unfold Kgeo. pose proof (dot_bounds _ _ H). lra.
Qed.

Section Proof.
Variables (mu : R) (r1 r2 : rvec) (a b : R).
Hypothesis H12 : non_collinear r1 r2.
Hypothesis Hab : a * b * Kgeo r1 r2 = mu.
Let v1 := vplus (vmult a (vminus r2 r1)) (vmult (b / vnorm r1) r1).
Let v2 := vminus (vmult a (vminus r2 r1)) (vmult (b / vnorm r2) r2).

Lemma godal_momentum : momentum r1 v1 = vmult a (vcross r1 r2) /\ momentum r2 v2 = vmult a (vcross r1 r2).
Proof.
  unfold momentum, v1, v2. generalize (b / vnorm r1), (b / vnorm r2). clear.
  intros q1 q2. destruct r1 as [x1 y1 z1], r2 as [x2 y2 z2]. vunf. split; f_equal; ring.
Qed.

Lemma godal_energy : energy mu r1 v1 = energy mu r2 v2.
Proof.
  pose proof (vnorm_pos _ (vcross_nonzero_l _ _ H12)) as N1.
  pose proof (vnorm_pos _ (vcross_nonzero_r _ _ H12)) as N2.
  assert (E1 : vdot v1 v1 = a * a * vdot (vminus r2 r1) (vminus r2 r1)
    + 2 * a * (b / vnorm r1) * (vdot r1 r2 - vdot r1 r1) + (b / vnorm r1) * (b / vnorm r1) * vdot r1 r1).
  { unfold v1. generalize (b / vnorm r1). clear. intros q. destruct r1 as [x1 y1 z1], r2 as [x2 y2 z2]. vunf. ring. }
  assert (E2 : vdot v2 v2 = a * a * vdot (vminus r2 r1) (vminus r2 r1)
    - 2 * a * (b / vnorm r2) * (vdot r2 r2 - vdot r1 r2) + (b / vnorm r2) * (b / vnorm r2) * vdot r2 r2).
  { unfold v2. generalize (b / vnorm r2). clear. intros q. destruct r1 as [x1 y1 z1], r2 as [x2 y2 z2]. vunf. ring. }
  unfold energy. rewrite E1, E2, <- Hab, <- !vnorm_sq. unfold Kgeo.
  field. lra.
Qed.

Lemma godal_ecc : mu <> 0 -> ecc_vector mu r1 v1 = ecc_vector mu r2 v2.
Proof.
  intros Hmu.
  pose proof (vnorm_pos _ (vcross_nonzero_l _ _ H12)) as N1.
  pose proof (vnorm_pos _ (vcross_nonzero_r _ _ H12)) as N2.
  unfold ecc_vector. destruct godal_momentum as [M1 M2]. unfold momentum in M1, M2.
  rewrite M1, M2. unfold v1, v2, Kgeo in *.
  pose proof (vnorm_sq r1) as S1. pose proof (vnorm_sq r2) as S2.
  remember (vnorm r1) as n1. remember (vnorm r2) as n2. clear Heqn1 Heqn2 M1 M2 v1 v2.
  (* (v1 - v2) x h = ab K (u1 - u2) *)
  destruct r1 as [x1 y1 z1], r2 as [x2 y2 z2]. vunf.
  set (k := a * b / mu).
  assert (Hk : k * (n1 * n2 + (x1 * x2 + y1 * y2 + z1 * z2)) = 1).
  { unfold k. transitivity (a * b * (n1 * n2 + (x1 * x2 + y1 * y2 + z1 * z2)) / mu); [field; assumption|].
    rewrite Hab. field. assumption. }
  assert (Hab' : a * b = k * mu) by (unfold k; field; assumption).
  assert (Hb : forall n, a * (b / n) = k * mu / n).
  { intros n. unfold Rdiv. rewrite <- Rmult_assoc, Hab'. reflexivity. }
  clear Hab. clearbody k.
  assert (G : forall X Y U1 U2, n1 * n2 * (X - Y) = mu * (n2 * U1 - n1 * U2) ->
    (1 / mu) * X - (1 / n1) * U1 = (1 / mu) * Y - (1 / n2) * U2).
  { intros X Y U1 U2 E.
    assert (E' : X - Y = mu * (n2 * U1 - n1 * U2) / (n1 * n2)).
    { rewrite <- E. field. split; lra. }
    replace X with (Y + mu * (n2 * U1 - n1 * U2) / (n1 * n2)) by lra.
    field. repeat split; lra. }
  set (q1 := b / n1) in *. set (q2 := b / n2) in *.
  assert (A1 : a * q1 * n1 = k * mu) by (unfold q1; rewrite Hb; field; lra).
  assert (A2 : a * q2 * n2 = k * mu) by (unfold q2; rewrite Hb; field; lra).
  f_equal; apply G.
  - transitivity (n2 * (a * q1 * n1) * ((x1*x2+y1*y2+z1*z2) * x1 - (n1*n1) * x2)
        + n1 * (a * q2 * n2) * ((n2*n2) * x1 - (x1*x2+y1*y2+z1*z2)*x2)).
    { rewrite S1, S2. ring. }
    rewrite A1, A2. transitivity (mu * ((k * (n1*n2 + (x1*x2+y1*y2+z1*z2))) * (n2 * x1 - n1 * x2))); [|rewrite Hk; ring].
    ring.
  - transitivity (n2 * (a * q1 * n1) * ((x1*x2+y1*y2+z1*z2) * y1 - (n1*n1) * y2)
        + n1 * (a * q2 * n2) * ((n2*n2) * y1 - (x1*x2+y1*y2+z1*z2)*y2)).
    { rewrite S1, S2. ring. }
    rewrite A1, A2. transitivity (mu * ((k * (n1*n2 + (x1*x2+y1*y2+z1*z2))) * (n2 * y1 - n1 * y2))); [|rewrite Hk; ring].
    ring.
  - transitivity (n2 * (a * q1 * n1) * ((x1*x2+y1*y2+z1*z2) * z1 - (n1*n1) * z2)
        + n1 * (a * q2 * n2) * ((n2*n2) * z1 - (x1*x2+y1*y2+z1*z2)*z2)).
    { rewrite S1, S2. ring. }
    rewrite A1, A2. transitivity (mu * ((k * (n1*n2 + (x1*x2+y1*y2+z1*z2))) * (n2 * z1 - n1 * z2))); [|rewrite Hk; ring].
    ring.
Qed.
End Proof.

Theorem godal_same_orbit mu p r1 r2 v1 v2 :
  0 < mu -> non_collinear r1 r2 -> godal mu p r1 r2 v1 v2 -> same_orbit mu r1 v1 r2 v2.
Proof.
  intros Hmu H12 (a & b & -> & -> & Hab & _). unfold same_orbit.
  destruct (godal_momentum r1 r2 a b) as [-> ->].
  split; [reflexivity|]. split.
  - now apply godal_energy.
  - apply godal_ecc; auto. lra.
Qed.

Theorem godal_direction mu p r1 r2 v1 v2 :
  0 < mu -> vz (vcross r1 r2) <> 0 -> godal mu p r1 r2 v1 v2 -> moves_as_requested p r1 v1.
Proof.
  intros Hmu Hz (a & b & -> & -> & Hab & Hd). specialize (Hd Hz).
  assert (Ha : a <> 0) by (intros ->; rewrite !Rmult_0_l in Hab; lra).
  unfold moves_as_requested. destruct (godal_momentum r1 r2 a b) as [-> _].
  unfold short_way in Hd. cbn [vmult vz].
  set (z := vz (vcross r1 r2)) in *.
  destruct p; destruct (Rlt_dec 0 a).
  - apply Rmult_lt_0_compat; tauto.
  - assert (~ 0 < z) by tauto. nra.
  - assert (z < 0) by tauto. nra.
  - assert (~ z < 0) by tauto. nra.
Qed.

(** ** Geometry of the triangle *)

Definition chord (r1 r2 : rvec) : R := vnorm (vminus r2 r1).
Definition semiper (r1 r2 : rvec) : R := (vnorm r1 + vnorm r2 + chord r1 r2) / 2.

Lemma chord_sq r1 r2 :
  chord r1 r2 * chord r1 r2 = vnorm r1 * vnorm r1 + vnorm r2 * vnorm r2 - 2 * vdot r1 r2.
Proof. unfold chord. rewrite !vnorm_sq. vdes; vunf; ring. Qed.
Lemma chord_pos r1 r2 : non_collinear r1 r2 -> 0 < chord r1 r2.
Proof.
  intros H. apply vnorm_pos. intros E. apply H. clear H.
  destruct r1 as [a b c], r2 as [x y z]. vunf. injection E; intros.
  assert (x = a) by lra. assert (y = b) by lra. assert (z = c) by lra. subst. f_equal; ring.
Qed.
(** Strict triangle inequalities. *)
Lemma triangle r1 r2 :
  non_collinear r1 r2 ->
  chord r1 r2 < vnorm r1 + vnorm r2 /\
  vnorm r1 - vnorm r2 < chord r1 r2 /\ vnorm r2 - vnorm r1 < chord r1 r2.
Proof.
  intros H. pose proof (Kgeo_pos _ _ H) as K. unfold Kgeo in K.
  pose proof (chord_sq r1 r2) as C. pose proof (chord_pos _ _ H) as P.
  pose proof (vnorm_pos _ (vcross_nonzero_l _ _ H)) as H1.
  pose proof (vnorm_pos _ (vcross_nonzero_r _ _ H)) as H2.
  assert (D : vdot r1 r2 < vnorm r1 * vnorm r2).
  { pose proof (dot_bounds _ _ H). lra. }
  split; [|split]; nra.
Qed.
(** [s (s - c) = K / 2]. *)
Lemma semiper_K r1 r2 : semiper r1 r2 * (semiper r1 r2 - chord r1 r2) = Kgeo r1 r2 / 2.
Proof.
  unfold semiper, Kgeo. pose proof (chord_sq r1 r2). nra.
Qed.
