(** * Returned velocities belong to one orbit, in the requested sense:
    C11, C12, C17 (and the solver that fails it on a special set, C11 for
    der2011). *)
From Coq Require Import Reals ZArith String List Bool Lra Lia Psatz.
Import ListNotations.
From Verif Require Import Num XReal XRealLemmas MApi ApiFacts MScipy MLinalg MAssertions MAngles MVallado MDer MPan MGooding MInit
  Spec VecFacts VecXR AnglesXR CallXR PropertiesAngles PropertiesMotion
  Godal GodalXR GodalIzzo GodalMore GodalPan OrbitXR.
Local Open Scope R_scope.

(** ** Euler's equation for the parabolic transfer *)

(** Time of flight of the parabolic transfer in the requested direction. *)
Definition euler_time (mu : R) (p : bool) (r1 r2 : rvec) : R :=
  let c := vnorm (vminus r2 r1) in
  let m := vnorm r1 + vnorm r2 + c in
  let n := vnorm r1 + vnorm r2 - c in
  (sqrt (m * m * m) - (if short_way_dec p r1 r2 then 1 else -1) * sqrt (n * n * n)) / (6 * sqrt mu).

(** [tof] is the parabolic time within the tolerances, both in the unit of time
    used by der2011. *)
Definition near_parabolic (mu : R) (p : bool) (r1 r2 : rvec) (tof atol rtol : R) : Prop :=
  let m := vnorm r1 + vnorm r2 + vnorm (vminus r2 r1) in
  let unit_rate := 4 * sqrt (mu / (m * m * m)) in
  let T := euler_time mu p r1 r2 in
  Rabs (unit_rate * tof - unit_rate * T) <= atol + rtol * (unit_rate * T).

Lemma der_parabolic_iff mu p r1 r2 tof atol rtol sg :
  0 < mu -> non_collinear r1 r2 ->
  0 < sg * sg < 1 -> (0 < sg <-> short_way p r1 r2) ->
  sg * sg = (vnorm r1 + vnorm r2 - chord r1 r2) / (vnorm r1 + vnorm r2 + chord r1 r2) ->
  (@np_isclose XR
     (@der_normalized_time XR (Fin mu) (Fin (vnorm r1 + vnorm r2 + chord r1 r2)) (Fin tof))
     (@der_parabolic_time XR (Fin sg)) (Fin rtol) (Fin atol) = true
   <-> near_parabolic mu p r1 r2 tof atol rtol).
Proof.
  intros Hmu Hn S2 Sd Sq. destruct (norms_pos _ _ Hn) as [N1 N2].
  destruct (triangle _ _ Hn) as [Tr _]. pose proof (chord_pos _ _ Hn) as Hc.
  unfold near_parabolic, euler_time. fold (chord r1 r2).
  set (m := vnorm r1 + vnorm r2 + chord r1 r2) in *. set (n := vnorm r1 + vnorm r2 - chord r1 r2) in *.
  assert (Hm : 0 < m) by (unfold m; lra). assert (Hnn : 0 < n) by (unfold n; lra). clearbody m n.
  assert (M3 : 0 < m * m * m) by (repeat apply Rmult_lt_0_compat; assumption).
  assert (K : 0 < mu / (m * m * m)) by (apply Rdiv_lt_0_compat; assumption).
  unfold np_isclose, der_normalized_time, der_parabolic_time, cube. xunf. cbn [xsub xadd xmul xabs xlift2 xlift1].
  rewrite !xdiv_F by lra. rewrite xsqrt_F by lra. cbn [xsub xadd xmul xabs xlift2 xlift1]. rewrite xleb_F.
  set (w := if short_way_dec p r1 r2 then 1 else -1).
  assert (Ew : sg = w * sqrt (n / m)).
  { rewrite <- Sq. replace (sg * sg) with (Rsqr sg) by reflexivity. rewrite sqrt_Rsqr_abs. unfold w.
    destruct (short_way_dec p r1 r2) as [L|L].
    - rewrite Rabs_pos_eq; [ring|]. apply Rlt_le. tauto.
    - assert (~ 0 < sg) by tauto. rewrite Rabs_left1 by lra. ring. }
  assert (W2 : w * w = 1) by (unfold w; destruct (short_way_dec p r1 r2); ring).
  assert (E : 4 * sqrt (mu / (m * m * m)) *
     ((sqrt (m * m * m) - w * sqrt (n * n * n)) / (6 * sqrt mu)) = 2 * (1 - sg * sg * sg) / 3).
  { rewrite Ew. rewrite sqrt_div_alt by assumption.
    replace (n * n * n) with (n / m * (n / m) * (n / m) * (m * m * m)) by (field; lra).
    assert (Hq : 0 < n / m) by (now apply Rdiv_lt_0_compat).
    set (q := n / m) in *. clearbody q. rewrite (sqrt_mult (q * q * q)) by (try lra; repeat apply Rmult_le_pos; lra).
    rewrite (sqrt_mult (q * q) q) by (try lra; repeat apply Rmult_le_pos; lra).
    rewrite sqrt_square by lra.
    pose proof (sqrt_lt_R0 _ M3) as QM. pose proof (sqrt_lt_R0 _ Hmu) as QU.
    pose proof (sqrt_sqrt q (Rlt_le _ _ Hq)) as SS.
    transitivity (2 / 3 * (1 - w * (q * sqrt q))); [field; lra|].
    replace (w * sqrt q * (w * sqrt q) * (w * sqrt q)) with (w * w * w * (sqrt q * sqrt q * sqrt q)) by ring.
    rewrite W2, SS. field. }
  rewrite E. rewrite (Rabs_pos_eq (2 * (1 - sg * sg * sg) / 3)).
  - replace (4 * tof * sqrt (mu / (m * m * m))) with (4 * sqrt (mu / (m * m * m)) * tof) by ring. tauto.
  - assert (sg < 1) by nra. assert (sg * sg * sg < 1) by nra. lra.
Qed.

(** ** C11 *)

(** In these ten solvers, whatever the root finder did. *)
Theorem C11_one_orbit : forall s ev mu r1 r2 tof M prograde low_path maxiter atol rtol full_output o v1 v2,
  In s [Vallado; Izzo; Thorne; Delatorre; Jiang; McElreath; Negrete; Battin; Gooding; Arora] ->
  0 < mu -> non_collinear r1 r2 ->
  @run XR s ev (call mu r1 r2 tof M prograde low_path maxiter atol rtol full_output) = Ok o ->
  delivers o v1 v2 ->
  same_orbit mu r1 v1 r2 v2.
Proof.
  intros s ev mu r1 r2 tof M p l mi a r f o v1 v2 Hs Hmu Hn H D.
  assert (G : In s [Vallado; Izzo; Thorne; Delatorre; Jiang; McElreath; Negrete; Gooding; Arora] ->
    godal mu p r1 r2 v1 v2).
  { clear Hs. intros [<-|[<-|[<-|[<-|[<-|[<-|[<-|[<-|[<-|[]]]]]]]]]]; cbn [run] in H;
      eauto using vallado_returns_godal, izzo_returns_godal, thorne_returns_godal,
        delatorre_returns_godal, jiang_returns_godal, mcelreath_returns_godal,
        negrete_returns_godal, gooding_returns_godal, arora_returns_godal. }
  cbn [In] in Hs, G.
  assert (B : s = Battin -> same_orbit mu r1 v1 r2 v2).
  { intros ->. cbn [run] in H. destruct (battin_returns_form _ _ _ _ _ _ _ _ _ _ _ _ _ _ Hn D _ H)
      as (a' & b' & E1 & E2 & E3).
    destruct (Rlt_dec 0 a') as [L|L].
    - apply (godal_same_orbit mu (if Rlt_dec 0 (vz (vcross r1 r2)) then true else false)); try assumption.
      exists a', b'. repeat split; auto. intros _. unfold short_way. destruct (Rlt_dec 0 (vz (vcross r1 r2))); lra.
    - apply (godal_same_orbit mu (if Rlt_dec 0 (vz (vcross r1 r2)) then false else true)); try assumption.
      exists a', b'. repeat split; auto; [lra|]. unfold short_way. destruct (Rlt_dec 0 (vz (vcross r1 r2))); lra. }
  assert (G' : godal mu p r1 r2 v1 v2 -> same_orbit mu r1 v1 r2 v2) by (intros; eapply godal_same_orbit; eauto).
  intuition.
Qed.
Print Assumptions C11_one_orbit.

(** der2011, away from the parabola. *)
Theorem C11_der : forall ev mu r1 r2 tof M prograde low_path maxiter atol rtol full_output o v1 v2,
  non_collinear r1 r2 ->
  (M = 0%Z -> ~ near_parabolic mu prograde r1 r2 tof atol rtol) ->
  @run XR Der ev (call mu r1 r2 tof M prograde low_path maxiter atol rtol full_output) = Ok o ->
  delivers o v1 v2 ->
  same_orbit mu r1 v1 r2 v2.
Proof.
  intros ev mu r1 r2 tof M p l mi a r f o v1 v2 Hn NP H D. cbn [run] in H.
  assert (Hmu : 0 < mu).
  { unfold der2011 in H. apply validated_call in H. apply H. }
  apply (godal_same_orbit mu p); try assumption. eapply der_returns_godal; eauto.
  intros sg S2 Sd Sq. destruct (Z.eqb_spec M 0) as [E|E]; [|reflexivity]. cbn [andb].
  destruct (np_isclose _ _ _ _) eqn:EN; [|reflexivity]. exfalso.
  apply (NP E). apply (der_parabolic_iff mu p r1 r2 tof a r sg); assumption.
Qed.
Print Assumptions C11_der.

(** pan2016, if scipy's root finder returns a point where the residual was
    evaluated without an exception. *)
Theorem C11_pan : forall ev mu r1 r2 tof M prograde low_path maxiter atol rtol full_output o v1 v2,
  non_collinear r1 r2 -> brentq_evaluates ev ->
  @run XR Pan ev (call mu r1 r2 tof M prograde low_path maxiter atol rtol full_output) = Ok o ->
  delivers o v1 v2 ->
  same_orbit mu r1 v1 r2 v2.
Proof.
  intros ev mu r1 r2 tof M p l mi a r f o v1 v2 Hn HB H D. cbn [run] in H.
  assert (Hmu : 0 < mu).
  { unfold pan2016 in H. apply bind_ok in H. destruct H as (u & _ & H). apply validated_call in H. apply H. }
  apply (godal_same_orbit mu p); try assumption. eapply pan_returns_godal; eauto.
Qed.
Print Assumptions C11_pan.

(** At the parabola der2011 returns velocities that belong to no orbit through
    both positions (der.py:150-151 takes [y = sigma] instead of [y = 1] with the
    sign of [sigma]): for all positions, both directions and all tolerances. *)
Theorem C11_der_parabola_refuted : forall ev mu r1 r2 prograde low_path maxiter atol rtol full_output,
  0 < mu -> non_collinear r1 r2 -> 0 <= atol -> 0 <= rtol ->
  let tof := euler_time mu prograde r1 r2 in
  exists o v1 v2,
    @run XR Der ev (call mu r1 r2 tof 0 prograde low_path maxiter atol rtol full_output) = Ok o /\
    delivers o v1 v2 /\ ~ same_orbit mu r1 v1 r2 v2.
Proof.
  intros ev mu r1 r2 p l mi a r f Hmu Hn Ha Hr tof.
  destruct (norms_pos _ _ Hn) as [N1 N2]. pose proof (chord_pos _ _ Hn) as Hc.
  destruct (triangle _ _ Hn) as [Tr _].
  destruct (transfer_angle r1 r2 p Hn) as (th & ET & F).
  destruct (der_sigma_F p r1 r2 th Hn F) as (sg & ES & S2 & Sr & Sd).
  assert (HT : 0 < tof /\ near_parabolic mu p r1 r2 tof a r).
  { assert (HT : 0 < tof).
    { unfold tof, euler_time. fold (chord r1 r2).
      set (m := vnorm r1 + vnorm r2 + chord r1 r2). set (n := vnorm r1 + vnorm r2 - chord r1 r2).
      pose proof (sqrt_lt_R0 _ Hmu) as QU.
      assert (sqrt (n * n * n) < sqrt (m * m * m)).
      { assert (0 < n) by (unfold n; lra). assert (n < m) by (unfold n, m; lra). clearbody n m.
        assert (n * n < m * m) by nra. assert (0 < n * n) by nra. apply sqrt_lt_1; nra. }
      pose proof (sqrt_pos (n * n * n)).
      apply Rdiv_lt_0_compat; [|lra]. destruct (short_way_dec p r1 r2); lra. }
    split; [exact HT|]. unfold near_parabolic. fold tof.
    rewrite Rminus_diag_eq by reflexivity. rewrite Rabs_R0.
    set (u := sqrt _). assert (0 <= u) by apply sqrt_pos. assert (0 <= 4 * u * tof) by nra. nra. }
  destruct HT as [HT NP].
  assert (N12 : r1 <> r2).
  { intros E. apply Hn. rewrite E. destruct r2 as [x y z]. unfold vcross, vzero. cbn [vx vy vz]. f_equal; ring. }
  assert (N10 : r1 <> vzero).
  { intros E. rewrite E in N1. unfold vnorm, vdot, vzero in N1. cbn [vx vy vz] in N1.
    replace (0 * 0 + 0 * 0 + 0 * 0) with 0 in N1 by ring. rewrite sqrt_0 in N1. lra. }
  cbn [run]. unfold der2011.
  rewrite validated_call_ok by (unfold valid_input; repeat split; auto; lia).
  cbn [a_mu a_r1 a_r2 a_tof a_M a_is_prograde a_is_low_path a_maxiter a_atol a_rtol a_full_output call].
  rewrite !vsub_F, !norm_F, ET. fold (chord r1 r2).
  destruct F as [F1 F2 F3 F4 F5 F6 F7 F8 F9].
  unfold assert_transfer_angle_not_zero, assert_transfer_angle_not_pi.
  replace (@neqb XR (Fin th) (nofZ 0)) with false by (symmetry; apply xeqb_Ff; lra).
  replace (@neqb XR (Fin th) npi) with false by (symmetry; apply xeqb_Ff; assumption).
  cbn [bind].
  change (@nadd XR (@nadd XR (Fin (vnorm r1)) (Fin (vnorm r2))) (Fin (chord r1 r2)))
    with (Fin (vnorm r1 + vnorm r2 + chord r1 r2)).
  change (@nsub XR (@nadd XR (Fin (vnorm r1)) (Fin (vnorm r2))) (Fin (chord r1 r2)))
    with (Fin (vnorm r1 + vnorm r2 - chord r1 r2)).
  rewrite ES. cbn [Z.ltb Z.compare andb raise_if bind].
  unfold der_find_path_parameter. cbn [Z.eqb andb].
  rewrite (proj2 (der_parabolic_iff mu p r1 r2 tof a r sg Hmu Hn Sr Sd S2) NP). cbn [bind].
  destruct (tpi_ok (e_clock ev) f 1 ltac:(lia)) as [t Et]. rewrite Et. cbn [bind].
  set (m := vnorm r1 + vnorm r2 + chord r1 r2) in *. set (n := vnorm r1 + vnorm r2 - chord r1 r2) in *.
  assert (Hm : 0 < m) by (unfold m; lra). assert (Hnn : 0 < n) by (unfold n; lra).
  pose proof (sqrt_lt_R0 _ Hm) as QM. pose proof (sqrt_lt_R0 _ Hnn) as QN. pose proof (sqrt_lt_R0 _ Hmu) as QU.
  unfold der_velocities.
  change (@nsqrt XR (Fin m)) with (xsqrt (Fin m)). change (@nsqrt XR (Fin n)) with (xsqrt (Fin n)).
  change (@nsqrt XR (Fin mu)) with (xsqrt (Fin mu)).
  rewrite !xsqrt_F by lra. rewrite !vsub_F, !vdivs_F by lra.
  change (@ndiv XR (Fin sg) (Fin (sqrt n))) with (xdiv (Fin sg) (Fin (sqrt n))).
  change (@ndiv XR (@nofZ XR 1) (Fin (sqrt m))) with (xdiv (Fin 1) (Fin (sqrt m))).
  rewrite !xdiv_F by lra.
  set (vc := sqrt mu * (sg / sqrt n + 1 / sqrt m)). set (vr := sqrt mu * (sg / sqrt n - 1 / sqrt m)).
  change (@nmul XR (Fin (sqrt mu)) (@nadd XR (Fin (sg / sqrt n)) (Fin (1 / sqrt m)))) with (Fin vc).
  change (@nmul XR (Fin (sqrt mu)) (@nsub XR (Fin (sg / sqrt n)) (Fin (1 / sqrt m)))) with (Fin vr).
  rewrite !vscale_F, vadd_F, vsub_F.
  set (w1 := vplus _ _). set (w2 := vminus _ _).
  exists (@mk_out XR f (vfin w1) (vfin w2) 1 t), w1, w2.
  split; [reflexivity|]. split; [destruct f; split; reflexivity|].
  assert (P0 : vc * vr = 0).
  { unfold vc, vr. transitivity (mu * (sg * sg / n - 1 / m)).
    - rewrite <- (sqrt_sqrt mu) at 3 by lra. rewrite <- (sqrt_sqrt n) at 3 by lra. rewrite <- (sqrt_sqrt m) at 3 by lra.
      field. split; lra.
    - rewrite S2. field. split; lra. }
  intros (_ & _ & HE).
  (* the vectors v x (r x v) agree, so the unit vectors r/|r| would too *)
  assert (X1 : vcross w1 (vcross r1 w1) = vmult (vc / chord r1 r2 * (vc / chord r1 r2)) (vcross (vminus r2 r1) (vcross r1 r2))).
  { assert (Z : w1 = vplus (vmult (vc / chord r1 r2) (vminus r2 r1)) (vmult (vr / vnorm r1) r1)).
    { unfold w1. rewrite !vmult_mult. reflexivity. }
    rewrite Z. clear - P0 Hc N1. destruct r1 as [x1 y1 z1], r2 as [x2 y2 z2].
    set (n1 := vnorm _) in *. set (c := chord _ _) in *. clearbody n1 c.
    assert (Q : vc / c * (vr / n1) = 0) by (unfold Rdiv; replace (vc * / c * (vr * / n1)) with (vc * vr * (/ c * / n1)) by ring; rewrite P0; ring).
    set (A := vc / c) in *. set (B := vr / n1) in *. clearbody A B.
    transitivity (vplus (vmult (A * A) (vcross (vminus (V3 x2 y2 z2) (V3 x1 y1 z1)) (vcross (V3 x1 y1 z1) (V3 x2 y2 z2))))
      (vmult (A * B) (vcross (V3 x1 y1 z1) (vcross (V3 x1 y1 z1) (V3 x2 y2 z2))))).
    - unfold vcross, vplus, vmult, vminus. cbn [vx vy vz]. f_equal; ring.
    - rewrite Q. unfold vcross, vplus, vmult, vminus. cbn [vx vy vz]. f_equal; ring. }
  assert (X2 : vcross w2 (vcross r2 w2) = vmult (vc / chord r1 r2 * (vc / chord r1 r2)) (vcross (vminus r2 r1) (vcross r1 r2))).
  { assert (Z : w2 = vminus (vmult (vc / chord r1 r2) (vminus r2 r1)) (vmult (vr / vnorm r2) r2)).
    { unfold w2. rewrite !vmult_mult. reflexivity. }
    rewrite Z. clear - P0 Hc N2. destruct r1 as [x1 y1 z1], r2 as [x2 y2 z2].
    set (n2 := vnorm _) in *. set (c := chord _ _) in *. clearbody n2 c.
    assert (Q : vc / c * (vr / n2) = 0) by (unfold Rdiv; replace (vc * / c * (vr * / n2)) with (vc * vr * (/ c * / n2)) by ring; rewrite P0; ring).
    set (A := vc / c) in *. set (B := vr / n2) in *. clearbody A B.
    transitivity (vminus (vmult (A * A) (vcross (vminus (V3 x2 y2 z2) (V3 x1 y1 z1)) (vcross (V3 x1 y1 z1) (V3 x2 y2 z2))))
      (vmult (A * B) (vcross (V3 x2 y2 z2) (vcross (V3 x1 y1 z1) (V3 x2 y2 z2))))).
    - unfold vcross, vplus, vmult, vminus. cbn [vx vy vz]. f_equal; ring.
    - rewrite Q. unfold vcross, vplus, vmult, vminus. cbn [vx vy vz]. f_equal; ring. }
  unfold ecc_vector in HE. rewrite X1, X2 in HE.
  set (k := vmult (1 / mu) _) in HE. clearbody k.
  apply Hn. clear - HE N1 N2. destruct r1 as [x1 y1 z1], r2 as [x2 y2 z2], k as [kx ky kz].
  set (n1 := vnorm _) in *. set (n2 := vnorm (V3 x2 y2 z2)) in *. clearbody n1 n2.
  unfold vminus, vmult in HE. cbn [vx vy vz] in HE. injection HE as EX EY EZ.
  assert (AX : x1 = n1 / n2 * x2) by (apply (Rmult_eq_reg_l (1 / n1)); [transitivity (1 / n2 * x2); [lra|field; lra]|unfold Rdiv; rewrite Rmult_1_l; apply Rinv_neq_0_compat; lra]).
  assert (AY : y1 = n1 / n2 * y2) by (apply (Rmult_eq_reg_l (1 / n1)); [transitivity (1 / n2 * y2); [lra|field; lra]|unfold Rdiv; rewrite Rmult_1_l; apply Rinv_neq_0_compat; lra]).
  assert (AZ : z1 = n1 / n2 * z2) by (apply (Rmult_eq_reg_l (1 / n1)); [transitivity (1 / n2 * z2); [lra|field; lra]|unfold Rdiv; rewrite Rmult_1_l; apply Rinv_neq_0_compat; lra]).
  unfold vcross, vzero. cbn [vx vy vz]. rewrite AX, AY, AZ. f_equal; ring.
Qed.
Print Assumptions C11_der_parabola_refuted.

(** ** C12 *)

Lemma vz_non_collinear r1 r2 : vz (vcross r1 r2) <> 0 -> non_collinear r1 r2.
Proof. intros H E. apply H. rewrite E. reflexivity. Qed.

(** The returned motion stays in the plane of the two positions and turns in the
    requested sense. *)
Definition direction_honoured (prograde : bool) (r1 r2 v1 : rvec) : Prop :=
  vdot (momentum r1 v1) r1 = 0 /\ vdot (momentum r1 v1) r2 = 0 /\ moves_as_requested prograde r1 v1.

Lemma godal_honoured mu p r1 r2 v1 v2 :
  0 < mu -> vz (vcross r1 r2) <> 0 -> godal mu p r1 r2 v1 v2 -> direction_honoured p r1 r2 v1.
Proof.
  intros Hmu Hz G. split; [|split].
  - unfold momentum. destruct r1 as [x1 y1 z1], v1 as [x2 y2 z2]. unfold vdot, vcross. cbn [vx vy vz]. ring.
  - destruct G as (a & b & -> & _). unfold momentum. set (k := b / vnorm r1). clearbody k.
    destruct r1 as [x1 y1 z1], r2 as [x2 y2 z2]. unfold vdot, vcross, vplus, vmult, vminus. cbn [vx vy vz]. ring.
  - eapply godal_direction; eauto.
Qed.

Theorem C12_direction : forall s ev mu r1 r2 tof M prograde low_path maxiter atol rtol full_output o v1 v2,
  In s [Vallado; Izzo; Thorne; Delatorre; Jiang; McElreath; Negrete; Gooding; Arora] ->
  0 < mu -> vz (vcross r1 r2) <> 0 ->
  @run XR s ev (call mu r1 r2 tof M prograde low_path maxiter atol rtol full_output) = Ok o ->
  delivers o v1 v2 ->
  direction_honoured prograde r1 r2 v1.
Proof.
  intros s ev mu r1 r2 tof M p l mi a r f o v1 v2 Hs Hmu Hz H D.
  pose proof (vz_non_collinear _ _ Hz) as Hn.
  apply (godal_honoured mu p r1 r2 v1 v2); try assumption.
  destruct Hs as [<-|[<-|[<-|[<-|[<-|[<-|[<-|[<-|[<-|[]]]]]]]]]]; cbn [run] in H;
      eauto using vallado_returns_godal, izzo_returns_godal, thorne_returns_godal,
        delatorre_returns_godal, jiang_returns_godal, mcelreath_returns_godal,
        negrete_returns_godal, gooding_returns_godal, arora_returns_godal.
Qed.
Print Assumptions C12_direction.

Theorem C12_der : forall ev mu r1 r2 tof M prograde low_path maxiter atol rtol full_output o v1 v2,
  vz (vcross r1 r2) <> 0 ->
  (M = 0%Z -> ~ near_parabolic mu prograde r1 r2 tof atol rtol) ->
  @run XR Der ev (call mu r1 r2 tof M prograde low_path maxiter atol rtol full_output) = Ok o ->
  delivers o v1 v2 ->
  direction_honoured prograde r1 r2 v1.
Proof.
  intros ev mu r1 r2 tof M p l mi a r f o v1 v2 Hz NP H D. cbn [run] in H.
  pose proof (vz_non_collinear _ _ Hz) as Hn.
  assert (Hmu : 0 < mu).
  { unfold der2011 in H. apply validated_call in H. apply H. }
  apply (godal_honoured mu p r1 r2 v1 v2); try assumption. eapply der_returns_godal; eauto.
  intros sg S2 Sd Sq. destruct (Z.eqb_spec M 0) as [E|E]; [|reflexivity]. cbn [andb].
  destruct (np_isclose _ _ _ _) eqn:EN; [|reflexivity]. exfalso.
  apply (NP E). apply (der_parabolic_iff mu p r1 r2 tof a r sg); assumption.
Qed.
Print Assumptions C12_der.

Theorem C12_pan : forall ev mu r1 r2 tof M prograde low_path maxiter atol rtol full_output o v1 v2,
  vz (vcross r1 r2) <> 0 -> brentq_evaluates ev ->
  @run XR Pan ev (call mu r1 r2 tof M prograde low_path maxiter atol rtol full_output) = Ok o ->
  delivers o v1 v2 ->
  direction_honoured prograde r1 r2 v1.
Proof.
  intros ev mu r1 r2 tof M p l mi a r f o v1 v2 Hz HB H D. cbn [run] in H.
  pose proof (vz_non_collinear _ _ Hz) as Hn.
  assert (Hmu : 0 < mu).
  { unfold pan2016 in H. apply bind_ok in H. destruct H as (u & _ & H). apply validated_call in H. apply H. }
  apply (godal_honoured mu p r1 r2 v1 v2); try assumption. eapply pan_returns_godal; eauto.
Qed.
Print Assumptions C12_pan.

(** ** C17 *)

(** For every value [x] of the iteration variable and every number [m] of
    revolutions, the velocities gooding1990 rebuilds from [x] (if finite) are
    those of one orbit through both positions, in the requested sense. *)
Theorem C17_gooding_every_iterate : forall mu prograde r1 r2 m x mus s k q rho sig vr1 vt1 vr2 vt2 v1 v2,
  0 < mu -> non_collinear r1 r2 ->
  let theta := @get_transfer_angle XR (vfin r1) (vfin r2) prograde in
  let i_h := @get_orbit_normal_vector XR (vfin r1) (vfin r2) prograde in
  let i_r1 := @vdivs XR (vfin r1) (Fin (vnorm r1)) in
  let i_r2 := @vdivs XR (vfin r2) (Fin (vnorm r2)) in
  @goo_geometry XR (Fin mu) (Fin (vnorm r1)) (Fin (vnorm r2)) (@ndiv XR theta (nofZ 2)) = (mus, s, k, q, rho, sig) ->
  @goo_components XR m (Fin (vnorm r1)) (Fin (vnorm r2)) mus k q rho sig x = (vr1, vt1, vr2, vt2) ->
  @vadd XR (vscale vr1 i_r1) (vscale vt1 (cross i_h i_r1)) = vfin v1 ->
  @vadd XR (vscale vr2 i_r2) (vscale vt2 (cross i_h i_r2)) = vfin v2 ->
  same_orbit mu r1 v1 r2 v2 /\
  (vz (vcross r1 r2) <> 0 -> direction_honoured prograde r1 r2 v1).
Proof.
  intros mu p r1 r2 m x mus s k q rho sig vr1 vt1 vr2 vt2 v1 v2 Hmu Hn theta i_h i_r1 i_r2 EG EC E1 E2.
  destruct (transfer_angle r1 r2 p Hn) as (th & ET & F). unfold theta in EG. rewrite ET in EG.
  pose proof (gooding_velocities_godal mu p r1 r2 th m x vr1 vt1 vr2 vt2 v1 v2 mus s k q rho sig Hn Hmu F EG EC E1 E2) as G.
  split.
  - eapply godal_same_orbit; eauto.
  - intros Hz. eapply godal_honoured; eauto.
Qed.
Print Assumptions C17_gooding_every_iterate.

(** ** Cases meeting the hypotheses *)

(** scipy's root finder always failing: an environment meeting [brentq_evaluates]. *)
Definition no_scipy : @env XR :=
  @Env XR (fun _ => Fin 0) 1 (fun _ _ _ _ _ _ => Err (ValueError "f(a) and f(b) must have different signs"))
    (fun _ _ _ _ => Err (ValueError "")).

(** The quarter turn of [C13_case]: vallado2013 returns, and so does pan2016,
    which hands over to it when the radii are equal. *)
Example C11_C12_case : exists tof o v1 v2,
  non_collinear ex_r1 ex_r2 /\ vz (vcross ex_r1 ex_r2) <> 0 /\ brentq_evaluates no_scipy /\
  @run XR Vallado no_scipy (call 1 ex_r1 ex_r2 tof 0 true true 35 (1 / 100000) (1 / 10000000) true) = Ok o /\
  @run XR Pan no_scipy (call 1 ex_r1 ex_r2 tof 0 true true 35 (1 / 100000) (1 / 10000000) true) = Ok o /\
  delivers o v1 v2.
Proof.
  destruct C13_case as (tof & o & Hn & Hr & H). pose proof H as H0.
  apply C13_vallado_solves_lambert in H0; try assumption. destruct H0 as (v1 & v2 & T & D & _).
  exists tof, o, v1, v2. split; [assumption|].
  split; [unfold vcross, ex_r1, ex_r2; cbn [vx vy vz]; lra|].
  split; [unfold brentq_evaluates; discriminate|].
  split; [exact H|]. split; [|exact D].
  cbn [run]. unfold pan2016. cbn [a_M call Z.ltb Z.compare raise_if bind].
  pose proof H as H1. unfold vallado2013 in H1. apply validated_call in H1. destruct H1 as [V _].
  rewrite validated_call_ok by exact V.
  destruct (transfer_angle ex_r1 ex_r2 true Hn) as (th & ET & F).
  cbn [a_is_prograde call]. rewrite ET.
  destruct F as [F1 F2 F3 F4 F5 F6 F7 F8 F9].
  unfold assert_transfer_angle_not_zero, assert_transfer_angle_not_pi.
  replace (@neqb XR (Fin th) (nofZ 0)) with false by (symmetry; apply xeqb_Ff; lra).
  replace (@neqb XR (Fin th) npi) with false by (symmetry; apply xeqb_Ff; assumption).
  cbn [bind]. rewrite !norm_F. destruct ex_norms as (N1 & N2 & _). rewrite N1, N2.
  assert (E : @np_isclose XR (Fin 1) (Fin 1) (nlit 1 100000000) (Fin (1 / 100000)) = true).
  { unfold np_isclose. xunf. cbn [xsub xadd xmul xabs xlift2 xlift1]. apply xleb_F.
    rewrite Rminus_diag_eq, Rabs_R0 by reflexivity. rewrite Rabs_R1. lra. }
  cbn [a_atol call]. rewrite E. exact H.
Qed.

(** The hypotheses of C17 hold for the iterate [x = 0] in every geometry. *)
Example C17_case : exists mus s k q rho sig vr1 vt1 vr2 vt2 v1 v2,
  let theta := @get_transfer_angle XR (vfin ex_r1) (vfin ex_r2) true in
  let i_h := @get_orbit_normal_vector XR (vfin ex_r1) (vfin ex_r2) true in
  let i_r1 := @vdivs XR (vfin ex_r1) (Fin (vnorm ex_r1)) in
  let i_r2 := @vdivs XR (vfin ex_r2) (Fin (vnorm ex_r2)) in
  @goo_geometry XR (Fin 1) (Fin (vnorm ex_r1)) (Fin (vnorm ex_r2)) (@ndiv XR theta (nofZ 2)) = (mus, s, k, q, rho, sig) /\
  @goo_components XR 0 (Fin (vnorm ex_r1)) (Fin (vnorm ex_r2)) mus k q rho sig (Fin 0) = (vr1, vt1, vr2, vt2) /\
  @vadd XR (vscale vr1 i_r1) (vscale vt1 (cross i_h i_r1)) = vfin v1 /\
  @vadd XR (vscale vr2 i_r2) (vscale vt2 (cross i_h i_r2)) = vfin v2.
Proof.
  pose proof ex_non_collinear as Hn. set (r1 := ex_r1) in *. set (r2 := ex_r2) in *.
  destruct (transfer_angle r1 r2 true Hn) as (th & ET & F).
  assert (Hmu : 0 < 1) by lra.
  destruct (gooding_geometry_F 1 true r1 r2 th Hn Hmu F) as (q & sig & EG & Hsig & _).
  destruct (norms_pos _ _ Hn) as [N1 N2]. destruct (semiper_pos _ _ Hn) as [Hs Hcs].
  pose proof (chord_pos _ _ Hn) as Hc.
  assert (Q : 0 < chord r1 r2 / semiper r1 r2) by now apply Rdiv_lt_0_compat.
  destruct (@goo_components XR 0 (Fin (vnorm r1)) (Fin (vnorm r2)) (Fin (sqrt (1 * semiper r1 r2 / 2)))
    (Fin (chord r1 r2 / semiper r1 r2)) (Fin q) (Fin ((vnorm r1 - vnorm r2) / chord r1 r2)) (Fin sig) (Fin 0))
    as [[[vr1 vt1] vr2] vt2] eqn:EC.
  pose proof EC as EC'. unfold goo_components, tlamb in EC'. cbn [Z.eqb Pos.eqb] in EC'. unfold tl_velocity in EC'.
  xunf. cbn [xmul xadd xsub xlift2] in EC'. rewrite !Rmult_0_r, Rplus_0_r in EC'.
  replace (xleb (Fin 0) (Fin 0)) with true in EC' by (symmetry; apply xleb_F; lra).
  replace (xeqb (Fin 0) (Fin 0)) with true in EC' by (symmetry; apply xeqb_F; lra).
  rewrite !xsqrt_F in EC' by lra. cbn [xmul xadd xsub xopp xlift2 xlift1] in EC'.
  rewrite !xdiv_F in EC' by lra.
  do 3 (apply pair_equal_spec in EC'; destruct EC' as [EC' ?]). subst vr1 vt1 vr2 vt2.
  do 6 eexists. do 4 eexists. do 2 eexists. cbv zeta. rewrite ET.
  split; [exact EG|]. split; [exact EC|].
  rewrite orbit_normal_F by assumption. rewrite !vdivs_F, !cross_F by lra.
  rewrite !vscale_F, !vadd_F. split; reflexivity.
Qed.

(** scipy's root finder answering 1. *)
Definition scipy_one : @env XR :=
  @Env XR (fun _ => Fin 0) 1 (fun _ _ _ _ _ _ => Ok (Fin 1, 1%Z)) (fun _ _ _ _ => Err (ValueError "")).

(** A quarter turn plus one revolution by der2011, in the time at which its first
    guess is exact. *)
Example C11_der_case : exists tof o v1 v2,
  non_collinear ex_r1 ex_r2 /\ vz (vcross ex_r1 ex_r2) <> 0 /\
  (1%Z = 0%Z -> ~ near_parabolic 1 true ex_r1 ex_r2 tof (1 / 100000) (1 / 10000000)) /\
  @run XR Der scipy_one (call 1 ex_r1 ex_r2 tof 1 true true 35 (1 / 100000) (1 / 10000000) true) = Ok o /\
  delivers o v1 v2.
Proof.
  pose proof ex_non_collinear as Hn.
  destruct (norms_pos _ _ Hn) as [N1 N2]. pose proof (chord_pos _ _ Hn) as Hc.
  destruct (triangle _ _ Hn) as [Tr _].
  destruct (transfer_angle ex_r1 ex_r2 true Hn) as (th & ET & F).
  destruct (der_sigma_F true ex_r1 ex_r2 th Hn F) as (sg & ES & S2 & Sr & Sd).
  assert (Sp : 0 < sg).
  { apply Sd. unfold short_way, vcross, ex_r1, ex_r2. cbn [vx vy vz]. lra. }
  assert (HM : non_collinear ex_r1 ex_r2) by assumption.
  destruct (der_y_F sg (1 / 2) Sr) as (y & Ey & Y2 & Yp).
  assert (Y0 : 0 < y) by tauto.
  (* the time of the first guess *)
  set (num := acos (1 / 2) - acos y - 1 / 2 * sqrt (1 - 1 / 2 * (1 / 2)) + y * sqrt (1 - y * y) + 1 * PI).
  set (t := num / Rpower (1 - 1 / 2 * (1 / 2)) (3 / 2)).
  assert (Y1 : y < 1) by nra.
  assert (ETf : @der_tof_elliptic XR (Fin sg) (Fin (1 / 2)) (Fin y) 1 = Fin t).
  { unfold der_tof_elliptic, der_acot_x, der_acot_y, der_clamp, pymin, pymax. xunf.
    cbn [xmul xadd xsub xopp xlift2 xlift1].
    repeat match goal with
    | |- context [xltb (Fin ?a) (Fin ?b)] =>
        first [replace (xltb (Fin a) (Fin b)) with true by (symmetry; apply xltb_F; nra)
              |replace (xltb (Fin a) (Fin b)) with false by (symmetry; apply xltb_Ff; nra)]
    | |- context [xleb (Fin ?a) (Fin ?b)] =>
        first [replace (xleb (Fin a) (Fin b)) with true by (symmetry; apply xleb_F; nra)
              |replace (xleb (Fin a) (Fin b)) with false by (symmetry; apply xleb_Ff; nra)]
    end.
    rewrite !xacos_F by nra. rewrite !xsqrt_F by nra.
    cbn [xmul xadd xsub xopp xlift2 xlift1]. rewrite xpow_F by lra. rewrite xdiv_F; [reflexivity|].
    unfold Rpower. pose proof (exp_pos (3 / 2 * ln (1 - 1 / 2 * (1 / 2)))). lra. }
  assert (T1 : 1 < t).
  { assert (P1 : 0 < Rpower (1 - 1 / 2 * (1 / 2)) (3 / 2) < 1).
    { unfold Rpower. split; [apply exp_pos|]. apply Rlt_le_trans with (exp 0); [|rewrite exp_0; lra].
      apply exp_increasing.
      assert (ln (1 - 1 / 2 * (1 / 2)) < ln 1) by (apply ln_increasing; lra). rewrite ln_1 in H. lra. }
    assert (P2 : 1 < num).
    { unfold num. pose proof (acos_bound (1 / 2)) as [A1 _].
      assert (A2 : acos y <= PI / 2).
      { destruct (Rle_lt_dec (acos y) (PI / 2)) as [L|L]; [assumption|exfalso].
        pose proof (acos_bound y). pose proof (cos_lt_0 (acos y) L). rewrite cos_acos in * by lra. lra. }
      assert (A3 : sqrt (1 - 1 / 2 * (1 / 2)) <= 1).
      { apply Rle_trans with (sqrt 1); [apply sqrt_le_1; lra|rewrite sqrt_1; lra]. }
      pose proof (sqrt_pos (1 - y * y)). pose proof PI2_3_2. nra. }
    unfold t. set (P := Rpower _ _) in *. clearbody P num. apply (Rmult_lt_reg_r P); [lra|].
    replace (num / P * P) with num by (field; lra). lra. }
  clearbody num t. clear num.
  set (m := vnorm ex_r1 + vnorm ex_r2 + chord ex_r1 ex_r2) in *.
  assert (Hm : 0 < m) by (unfold m; lra).
  assert (K0 : 0 < 1 / (m * m * m)).
  { apply Rdiv_lt_0_compat; [lra|]. repeat apply Rmult_lt_0_compat; assumption. }
  pose proof (sqrt_lt_R0 _ K0) as K1.
  set (tof := t / (4 * sqrt (1 / (m * m * m)))).
  assert (HT : 0 < tof) by (apply Rdiv_lt_0_compat; lra).
  assert (ETau : @der_normalized_time XR (Fin 1) (Fin m) (Fin tof) = Fin t).
  { unfold der_normalized_time, cube. xunf. cbn [xmul xlift2].
    rewrite xdiv_F by (repeat apply Rmult_integral_contrapositive_currified; lra).
    rewrite xsqrt_F by lra. cbn [xmul xlift2]. f_equal. unfold tof. field. lra. }
  assert (ETp : @der_parabolic_time XR (Fin sg) = Fin (2 * (1 - sg * sg * sg) / 3)).
  { unfold der_parabolic_time, cube. xunf. cbn [xsub xmul xlift2]. now rewrite xdiv_F by lra. }
  assert (S1 : sg < 1) by nra. assert (S3 : 0 < sg * sg * sg < 1) by nra.
  assert (ETm : @der_time_at_minimum XR (Fin sg) (Fin 1) = Fin (2 * (1 - sg * sg * sg) / 3)).
  { unfold der_time_at_minimum. destruct (der_y_F sg 1 Sr) as (y1 & -> & Z2 & Zp).
    assert (y1 = 1) by nra. subst y1. unfold cube. xunf. cbn [xsub xmul xlift2].
    rewrite !xdiv_F by lra. cbn [xsub xmul xlift2]. rewrite xdiv_F by lra. f_equal. field. }
  destruct (@der_velocities XR (Fin 1) (vfin ex_r1) (vfin ex_r2) (Fin (vnorm ex_r1)) (Fin (vnorm ex_r2))
    (Fin (chord ex_r1 ex_r2)) (Fin m) (Fin (vnorm ex_r1 + vnorm ex_r2 - chord ex_r1 ex_r2)) (Fin (1 / 2)) (Fin y))
    as [w1 w2] eqn:EV.
  assert (W : exists v1 v2, w1 = vfin v1 /\ w2 = vfin v2).
  { unfold der_velocities in EV.
    set (n := vnorm ex_r1 + vnorm ex_r2 - chord ex_r1 ex_r2) in *.
    assert (Hnn : 0 < n) by (unfold n; lra).
    pose proof (sqrt_lt_R0 _ Hm) as QM. pose proof (sqrt_lt_R0 _ Hnn) as QN.
    rewrite !vsub_F, !vdivs_F in EV by lra.
    change (@nsqrt XR (Fin m)) with (xsqrt (Fin m)) in EV. change (@nsqrt XR (Fin n)) with (xsqrt (Fin n)) in EV.
    change (@nsqrt XR (Fin 1)) with (xsqrt (Fin 1)) in EV.
    rewrite !xsqrt_F in EV by lra.
    change (@ndiv XR (Fin y) (Fin (sqrt n))) with (xdiv (Fin y) (Fin (sqrt n))) in EV.
    change (@ndiv XR (Fin (1 / 2)) (Fin (sqrt m))) with (xdiv (Fin (1 / 2)) (Fin (sqrt m))) in EV.
    rewrite !xdiv_F in EV by lra.
    change (@nmul XR (Fin (sqrt 1)) (@nadd XR (Fin (y / sqrt n)) (Fin (1 / 2 / sqrt m))))
      with (Fin (sqrt 1 * (y / sqrt n + 1 / 2 / sqrt m))) in EV.
    change (@nmul XR (Fin (sqrt 1)) (@nsub XR (Fin (y / sqrt n)) (Fin (1 / 2 / sqrt m))))
      with (Fin (sqrt 1 * (y / sqrt n - 1 / 2 / sqrt m))) in EV.
    rewrite !vscale_F, vadd_F, vsub_F in EV.
    apply pair_equal_spec in EV. destruct EV as [<- <-]. eauto. }
  destruct W as (v1 & v2 & -> & ->).
  destruct (@tpi_ok XR (e_clock scipy_one) true 1 ltac:(lia)) as [tp Et].
  exists tof, (@mk_out XR true (vfin v1) (vfin v2) 1 tp), v1, v2.
  split; [assumption|]. split; [unfold vcross, ex_r1, ex_r2; cbn [vx vy vz]; lra|].
  split; [discriminate|]. split; [|split; reflexivity].
  cbn [run]. unfold der2011.
  rewrite validated_call_ok.
  2:{ unfold valid_input. split; [lra|]. split; [|split; [|split; [assumption|lia]]].
      - intros E. apply (f_equal vx) in E. cbn [vx ex_r1 vzero] in E. lra.
      - intros E. apply (f_equal vx) in E. cbn [vx ex_r1 ex_r2] in E. lra. }
  cbn [a_mu a_r1 a_r2 a_tof a_M a_is_prograde a_is_low_path a_maxiter a_atol a_rtol a_full_output call].
  rewrite !vsub_F, !norm_F, ET. fold (chord ex_r1 ex_r2).
  destruct F as [F1 F2 F3 F4 F5 F6 F7 F8 F9].
  unfold assert_transfer_angle_not_zero, assert_transfer_angle_not_pi.
  replace (@neqb XR (Fin th) (nofZ 0)) with false by (symmetry; apply xeqb_Ff; lra).
  replace (@neqb XR (Fin th) npi) with false by (symmetry; apply xeqb_Ff; assumption).
  cbn [bind].
  change (@nadd XR (@nadd XR (Fin (vnorm ex_r1)) (Fin (vnorm ex_r2))) (Fin (chord ex_r1 ex_r2))) with (Fin m).
  change (@nsub XR (@nadd XR (Fin (vnorm ex_r1)) (Fin (vnorm ex_r2))) (Fin (chord ex_r1 ex_r2)))
    with (Fin (vnorm ex_r1 + vnorm ex_r2 - chord ex_r1 ex_r2)).
  rewrite ES, ETau, ETp. unfold der_minimum_time. cbn [scipy_one e_brentq].
  rewrite ETm.
  change (@nleb XR (Fin t) (Fin (2 * (1 - sg * sg * sg) / 3))) with (xleb (Fin t) (Fin (2 * (1 - sg * sg * sg) / 3))).
  change (@nltb XR (Fin t) (Fin (2 * (1 - sg * sg * sg) / 3))) with (xltb (Fin t) (Fin (2 * (1 - sg * sg * sg) / 3))).
  replace (xleb (Fin t) (Fin (2 * (1 - sg * sg * sg) / 3))) with false by (symmetry; apply xleb_Ff; lra).
  replace (xltb (Fin t) (Fin (2 * (1 - sg * sg * sg) / 3))) with false by (symmetry; apply xltb_Ff; lra).
  cbn [Z.ltb Z.compare andb raise_if bind].
  unfold der_find_path_parameter. cbn [Z.eqb andb Z.ltb Z.compare orb].
  unfold der_solve_elliptic. change (Z.to_nat 35) with (S 34). cbn [for_range].
  unfold der_elliptic_body at 1. change (@nlit XR 1 2) with (Fin (1 / 2)). rewrite Ey, ETf.
  assert (EB : @nleb XR (@nabs XR (@nsub XR (Fin t) (Fin t)))
    (@nadd XR (Fin (1 / 100000)) (@nmul XR (Fin (1 / 10000000)) (@nabs XR (Fin t)))) = true).
  { xunf. cbn [xsub xadd xmul xabs xlift2 xlift1]. apply xleb_F.
    rewrite Rminus_diag_eq, Rabs_R0 by reflexivity. pose proof (Rabs_pos t). lra. }
  rewrite EB. cbn [bind]. rewrite Et. cbn [bind]. rewrite EV.
  assert (EL : @nltb XR (Fin t) (Fin (2 * (1 - sg * sg * sg) / 3)) = false) by (apply xltb_Ff; lra).
  rewrite EL. reflexivity.
Qed.
