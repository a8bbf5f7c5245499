(** * Transfer geometry: C07, C08, C09, C10. *)
From Coq Require Import Reals ZArith Bool Lra Lia Psatz.
From Verif Require Import Num XReal XRealLemmas MLinalg MAngles Spec VecFacts VecXR AnglesXR.
Local Open Scope R_scope.

(** Concrete positions used by the examples: quarter turns in the equatorial
    plane, in an inclined plane, and in a plane through the z axis. *)
Definition ex_r1 : rvec := V3 1 0 0.
Definition ex_r2 : rvec := V3 0 1 0.
Definition ex_r2i : rvec := V3 0 1 1.
Definition ex_r2p : rvec := V3 0 0 1.
Lemma ex_non_collinear : non_collinear ex_r1 ex_r2.
Proof. unfold non_collinear, ex_r1, ex_r2; vunf. intros H; injection H; lra. Qed.
Lemma ex_non_collinear_i : non_collinear ex_r1 ex_r2i.
Proof. unfold non_collinear, ex_r1, ex_r2i; vunf. intros H; injection H; lra. Qed.
Lemma ex_non_collinear_p : non_collinear ex_r1 ex_r2p.
Proof. unfold non_collinear, ex_r1, ex_r2p; vunf. intros H; injection H; lra. Qed.

(** ** C07 *)

(** Non-collinear positions: the angle exists, lies in (0, 2 pi), is not pi,
    has the right cosine, and is below pi exactly when the short way is the
    requested direction. *)
Theorem C07_transfer_angle : forall r1 r2 prograde,
  non_collinear r1 r2 ->
  exists theta,
    @get_transfer_angle XR (vfin r1) (vfin r2) prograde = Fin theta /\
    0 < theta < 2 * PI /\ theta <> PI /\
    cos theta = vdot r1 r2 / (vnorm r1 * vnorm r2) /\
    (theta < PI <-> short_way prograde r1 r2).
Proof.
  intros r1 r2 p H. eexists. split; [exact (get_transfer_angle_F r1 r2 p H)|].
  exact (transfer_angle_facts r1 r2 p _ H (get_transfer_angle_F r1 r2 p H)).
Qed.
Print Assumptions C07_transfer_angle.

(** Collinear positions: exactly 0 for the same direction, exactly pi
    otherwise. *)
Theorem C07_transfer_angle_collinear : forall r1 r2 prograde,
  r1 <> vzero -> ~ non_collinear r1 r2 ->
  (0 < vdot r1 r2 -> @get_transfer_angle XR (vfin r1) (vfin r2) prograde = Fin 0) /\
  (vdot r1 r2 <= 0 -> @get_transfer_angle XR (vfin r1) (vfin r2) prograde = Fin PI).
Proof.
  intros r1 r2 p H1 Hc.
  assert (E : vcross r1 r2 = vzero) by (destruct (vzero_dec (vcross r1 r2)); tauto).
  rewrite (get_transfer_angle_collinear r1 r2 p H1 E).
  destruct (Rlt_dec 0 (vdot r1 r2)); split; intros; try reflexivity; lra.
Qed.
Print Assumptions C07_transfer_angle_collinear.

Example C07_case : non_collinear ex_r1 ex_r2i.
Proof. exact ex_non_collinear_i. Qed.
Example C07_collinear_case :
  ex_r1 <> vzero /\ ~ non_collinear ex_r1 (V3 (-2) 0 0) /\ vdot ex_r1 (V3 (-2) 0 0) <= 0.
Proof.
  unfold ex_r1, non_collinear; vunf. repeat split.
  - intros H; injection H; lra.
  - intros H; apply H. f_equal; ring.
  - lra.
Qed.

(** ** C08 *)

(** Planes that do not contain the z axis: the two angles add up to a full
    turn.  The property asks for this in every plane; planes containing the z
    axis are refuted below. *)
Theorem C08_complementary_partial : forall r1 r2,
  vz (vcross r1 r2) <> 0 ->
  exists tp tr,
    @get_transfer_angle XR (vfin r1) (vfin r2) true = Fin tp /\
    @get_transfer_angle XR (vfin r1) (vfin r2) false = Fin tr /\
    tp + tr = 2 * PI.
Proof.
  intros r1 r2 Hz.
  assert (H : non_collinear r1 r2) by (intros E; apply Hz; rewrite E; reflexivity).
  eexists _, _. rewrite !(get_transfer_angle_F r1 r2 _ H).
  split; [reflexivity|]. split; [reflexivity|].
  destruct (short_way_dec true r1 r2) as [A|A], (short_way_dec false r1 r2) as [B|B];
    unfold short_way in A, B; lra.
Qed.
Print Assumptions C08_complementary_partial.

Example C08_case : vz (vcross ex_r1 ex_r2i) <> 0.
Proof. unfold ex_r1, ex_r2i; vunf. lra. Qed.

(** In every plane that contains the z axis both directions get the same angle,
    the long way round, so the sum is never 2 pi. *)
Theorem C08_complementary_refuted : forall r1 r2,
  non_collinear r1 r2 -> vz (vcross r1 r2) = 0 ->
  exists t,
    @get_transfer_angle XR (vfin r1) (vfin r2) true = Fin t /\
    @get_transfer_angle XR (vfin r1) (vfin r2) false = Fin t /\
    PI < t /\ t + t <> 2 * PI.
Proof.
  intros r1 r2 H Hz. exists (2 * PI - ang0 r1 r2).
  rewrite !(get_transfer_angle_F r1 r2 _ H). pose proof (ang0_bound r1 r2 H).
  destruct (short_way_dec true r1 r2) as [A|A]; [unfold short_way in A; lra|].
  destruct (short_way_dec false r1 r2) as [B|B]; [unfold short_way in B; lra|].
  repeat split; lra.
Qed.
Print Assumptions C08_complementary_refuted.

Example C08_refuted_case : non_collinear ex_r1 ex_r2p /\ vz (vcross ex_r1 ex_r2p) = 0.
Proof. split; [exact ex_non_collinear_p|]. unfold ex_r1, ex_r2p; vunf. lra. Qed.

(** ** C09 *)
Theorem C09_orbit_normal : forall r1 r2 prograde,
  non_collinear r1 r2 ->
  exists n,
    @get_orbit_normal_vector XR (vfin r1) (vfin r2) prograde = vfin n /\
    vnorm n = 1 /\ vdot n r1 = 0 /\ vdot n r2 = 0 /\
    (if prograde then 0 <= vz n else vz n <= 0).
Proof. exact orbit_normal_unit. Qed.
Print Assumptions C09_orbit_normal.

(** ** C10 *)

(** Unit normal of the plane with the given inclination and node. *)
Definition plane_normal (inc raan : R) : rvec :=
  V3 (sin raan * sin inc) (- cos raan * sin inc) (cos inc).

(** All transfer planes except the equatorial one flown retrograde. *)
Theorem C10_inc_raan_partial : forall r1 r2 prograde n,
  non_collinear r1 r2 ->
  @get_orbit_normal_vector XR (vfin r1) (vfin r2) prograde = vfin n ->
  vx n <> 0 \/ vy n <> 0 \/ 0 < vz n ->
  exists inc raan,
    @get_orbit_inc_and_raan_from_position_vectors XR (vfin r1) (vfin r2) prograde
      = (Fin inc, Fin raan) /\
    0 <= inc <= PI /\ 0 <= raan < 2 * PI /\ n = plane_normal inc raan.
Proof.
  intros r1 r2 p n H E Hn. destruct (inc_raan_F r1 r2 p n H E) as (i & o & A & B & C & D & _).
  exists i, o. auto.
Qed.
Print Assumptions C10_inc_raan_partial.

Lemma ex_normal prograde :
  @get_orbit_normal_vector XR (vfin ex_r1) (vfin ex_r2) prograde
  = vfin (V3 0 0 (if prograde then 1 else -1)).
Proof.
  rewrite (orbit_normal_F _ _ _ ex_non_collinear).
  assert (Ec : vcross ex_r1 ex_r2 = V3 0 0 1) by (unfold ex_r1, ex_r2; vunf; f_equal; ring).
  assert (En : vnorm (V3 0 0 1) = 1).
  { unfold vnorm; vunf. replace (0 * 0 + 0 * 0 + 1 * 1) with 1 by ring. apply sqrt_1. }
  destruct (short_way_dec prograde ex_r1 ex_r2) as [S|S]; destruct prograde;
    unfold short_way in S; rewrite Ec in *; rewrite En; cbn [vz] in S; try lra;
    f_equal; unfold vmult; cbn; f_equal; field.
Qed.
Example C10_case :
  non_collinear ex_r1 ex_r2 /\
  @get_orbit_normal_vector XR (vfin ex_r1) (vfin ex_r2) true = vfin (V3 0 0 1) /\
  (vx (V3 0 0 1) <> 0 \/ vy (V3 0 0 1) <> 0 \/ 0 < vz (V3 0 0 1)).
Proof.
  split; [exact ex_non_collinear|]. split; [exact (ex_normal true)|]. cbn. lra.
Qed.

(** A retrograde transfer in the equatorial plane gets inclination 0 instead
    of pi: the reported plane has the opposite normal. *)
Theorem C10_inc_raan_refuted : exists r1 r2 n inc raan,
  non_collinear r1 r2 /\
  @get_orbit_normal_vector XR (vfin r1) (vfin r2) false = vfin n /\
  @get_orbit_inc_and_raan_from_position_vectors XR (vfin r1) (vfin r2) false
    = (Fin inc, Fin raan) /\
  n <> plane_normal inc raan.
Proof.
  exists ex_r1, ex_r2, (V3 0 0 (-1)).
  destruct (inc_raan_F _ _ false _ ex_non_collinear (ex_normal false)) as (i & o & A & _ & _ & _ & D).
  exists i, o. split; [exact ex_non_collinear|]. split; [exact (ex_normal false)|].
  split; [exact A|]. destruct (D eq_refl eq_refl) as [-> ->].
  unfold plane_normal. rewrite cos_0. intros E; injection E; lra.
Qed.
Print Assumptions C10_inc_raan_refuted.
