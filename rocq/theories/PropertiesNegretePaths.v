(** * The two paths of negrete2024: C52. *)
From Coq Require Import Reals ZArith Bool Lra Lia Psatz.
From Coquelicot Require Complex.
From Verif Require Import Num XReal XRealLemmas MApi MLinalg MAngles MComplex MNegrete MInit Spec SpecLambert VecFacts VecXR UniversalKepler LambertUV LambertRev LambertZ ZMono LambertUnique
  Godal GodalXR GodalIzzo GodalPan GodalMore OrbitXR ApiFacts CallXR PropertiesOrbit ComplexXR PropertiesAngles PropertiesMotion PropertiesStumpff PropertiesUnique PropertiesMultiRev
  PropertiesNegrete PropertiesPaths.
Local Open Scope R_scope.

(** The abscissas of the two paths come out in order. *)
Lemma neg_paths_ordered mu n1 n2 A tof M n at_ rt zl zh :
  @neg_find_multi XR mu n1 n2 A tof M true n at_ rt = Ok (Fin zl) ->
  @neg_find_multi XR mu n1 n2 A tof M false n at_ rt = Ok (Fin zh) -> zl <= zh.
Proof.
  intros H H'. unfold neg_find_multi in H, H'. cbv zeta in H, H'.
  destruct (neg_quadratic_roots _ _ _ _) as [s1 s2].
  skip_check H. skip_check H'.
  destruct (if @nltb XR (cre s2) (cre s1) then _ else _) as [a b].
  destruct (neg_refine_single_root a _ _ _ _ _ _ _ _ _ _) as [x|]; [|discriminate H]. cbn [bind] in H, H'.
  destruct (neg_refine_single_root b _ _ _ _ _ _ _ _ _ _) as [y|]; [|discriminate H]. cbn [bind] in H, H'.
  destruct (@nltb XR y x) eqn:E; apply Ok_inj in H, H'; subst; change (@nltb XR) with xltb in E; cbn in E.
  - destruct (Rlt_dec zl zh); [lra|discriminate].
  - destruct (Rlt_dec zh zl); [discriminate|lra].
Qed.

(** In the range of [M >= 1] revolutions the transfer variable of the equation
    falls as the abscissa grows. *)
Lemma psi_range_order M z z' : (1 <= M)%Z -> psi_range M z -> psi_range M z' -> z <= z' ->
  S1 z' / sqrt (S2 z') <= S1 z / sqrt (S2 z).
Proof.
  intros HM R R' L. pose proof PI_RGT_0 as HP.
  assert (K : forall p, psi_range M p -> 0 < p /\ 0 < sqrt p / 2 - PI * IZR M < PI /\ S1 p / sqrt (S2 p) = sqrt 2 * cos (sqrt p / 2 - PI * IZR M)).
  { intros p Rp. destruct Rp as [[_ E]|[P1 P2]]; [lia|]. split; [exact P1|]. set (s := sqrt p / 2 - PI * IZR M).
    assert (Hs : 0 < s < PI) by (unfold s; lra). split; [exact Hs|].
    destruct (psi_of_facts M (s * s)) as (_ & E & _); [lia|nra|nra|nra|].
    replace (psi_of M (s * s)) with p in E; [now rewrite E, C0_ell by lra|].
    unfold psi_of. destruct (Rlt_dec (s * s) 0); [nra|]. rewrite sqrt_square by lra.
    replace (2 * s + 2 * PI * IZR M) with (sqrt p) by (unfold s; field). symmetry. apply sqrt_sqrt. lra. }
  destruct (K z R) as (_ & B & ->). destruct (K z' R') as (_ & B' & ->). destruct (sqrt_facts 2) as [W _]; [lra|].
  apply Rmult_le_compat_l; [lra|]. apply cos_decr_1; try lra. pose proof (sqrt_le_1_alt _ _ L). lra.
Qed.

Lemma psi_range_far M z : (1 <= M)%Z -> psi_range M z -> 1 / 100000000 <= Rabs z.
Proof.
  intros HM [[_ E]|[P1 P2]]; [lia|]. rewrite Rabs_pos_eq by lra. pose proof PI_RGT_0 as HP. pose proof PI2_1 as P3.
  assert (1 <= IZR M) by (apply IZR_le; exact HM). destruct (sqrt_facts z P1) as [_ Z2].
  assert (2 * PI * 1 <= 2 * PI * IZR M) by (apply Rmult_le_compat_l; lra). assert (2 < sqrt z) by lra. nra.
Qed.

(** C52 for negrete2024: of two runs that differ in [is_low_path] only, the one
    on the low path takes the smaller abscissa; when both abscissas lie in the
    range of the requested number of revolutions (C51), its angular momentum is
    the larger one the short way and the smaller one the long way. *)
Theorem C52_negrete_low_path :
  forall ev mu r1 r2 tof M prograde maxiter atol rtol full_output low v1 v2 high w1 w2,
  non_collinear r1 r2 -> (1 <= M)%Z ->
  @run XR Negrete ev (call mu r1 r2 tof M prograde true maxiter atol rtol full_output) = Ok low -> delivers low v1 v2 ->
  @run XR Negrete ev (call mu r1 r2 tof M prograde false maxiter atol rtol full_output) = Ok high -> delivers high w1 w2 ->
  let A := @neg_A XR (norm (vfin r1)) (norm (vfin r2)) (get_transfer_angle (vfin r1) (vfin r2) prograde) in
  let root path := @neg_find_z XR (Fin mu) (norm (vfin r1)) (norm (vfin r2)) A (Fin tof) M path (Z.max 4 maxiter) (Fin atol) (Fin rtol) in
  exists zl zh, root true = Ok (Fin zl) /\ root false = Ok (Fin zh) /\ zl <= zh /\
    (psi_range M zl -> psi_range M zh ->
     (short_way prograde r1 r2 -> vnorm (vcross r1 w1) <= vnorm (vcross r1 v1)) /\
     (~ short_way prograde r1 r2 -> vnorm (vcross r1 v1) <= vnorm (vcross r1 w1))).
Proof.
  intros ev mu r1 r2 tof M p mi at_ rt fo o v1 v2 o' u1 u2 Hn HM1 H D H' D'. cbn [run] in H, H'.
  unfold negrete2024 in H, H'. cbv zeta. rewrite ?norm_F.
  enter H. apply validated_call in H'. destruct H' as [_ H'].
  cbn [a_mu a_r1 a_r2 a_tof a_M a_is_prograde a_is_low_path a_maxiter a_atol a_rtol a_full_output call] in H'. rewrite ?vsub_F, ?norm_F in H'.
  destruct (transfer_angle r1 r2 p Hn) as (th & ET & F). rewrite ET in *.
  destruct (neg_A_F p r1 r2 th Hn F) as (A & EA & A2 & As). rewrite EA in *.
  do 2 (skip_check H; cbn [bind] in H'). apply bind_ok in H, H'. destruct H as (z & EZ & H). destruct H' as (z' & EZ' & H'). rewrite EZ, EZ'.
  finish H D. rename EV into EV1. rename tpi into tpi1. finish H' D'.
  destruct z as [z|]; [|exfalso; exact (neg_velocities_nan _ _ _ _ _ _ _ _ EV1)].
  destruct z' as [z'|]; [|exfalso; exact (neg_velocities_nan _ _ _ _ _ _ _ _ EV)].
  assert (L : z <= z').
  { unfold neg_find_z in EZ, EZ'. destruct (Z.eqb_spec M 0) as [|_]; [lia|]. exact (neg_paths_ordered _ _ _ _ _ _ _ _ _ _ _ EZ EZ'). }
  exists z, z'. split; [reflexivity|]. split; [reflexivity|]. split; [exact L|]. intros R R'.
  pose proof (psi_range_order _ _ _ HM1 R R' L) as Q.
  apply neg_pair in EV1; [|assumption..|exact (psi_range_far _ _ HM1 R)|exact (psi_range_S2 _ _ R)].
  apply neg_pair in EV; [|assumption..|exact (psi_range_far _ _ HM1 R')|exact (psi_range_S2 _ _ R')].
  unfold Rdiv in Q. split; intros S.
  - apply As in S. apply (fg_moment_le _ _ _ _ _ _ _ _ _ _ Hmu Hn EV1 EV).
    pose proof (Rmult_le_compat_l A _ _ ltac:(lra) Q). unfold Rdiv. lra.
  - rewrite <- As in S. apply (fg_moment_le _ _ _ _ _ _ _ _ _ _ Hmu Hn EV EV1).
    pose proof (Rmult_le_compat_l (- A) _ _ ltac:(lra) Q). unfold Rdiv. lra.
Qed.
Print Assumptions C52_negrete_low_path.
