(** * delatorre2018 solves Lambert's problem: C15. *)
From Coq Require Import String ZArith List Bool Lia Reals Lra Psatz.
From Verif Require Import Num XReal XRealLemmas MApi ApiFacts Loops MLinalg MScipy MAssertions MAngles MDelatorre MInit
  Spec SpecLambert VecFacts VecXR AnglesXR UniversalKepler LambertUV LambertRev StumpffXR CallXR Godal GodalXR DelatorreXR StumpffSmooth ZMono
  PropertiesAngles PropertiesMotion PropertiesOrbit.
Local Open Scope R_scope.

(** ** C15 *)

(** Every pair of velocities that delatorre2018 returns belongs to a two-body
    motion from [r1] to [r2] with exactly [M] complete revolutions, and its
    duration is within [atol + rtol * tof] of [tof].  With [M = 0] the end
    points must not be closer to each other than two millionths of the sum of
    the radii (closer, the lower end of the initial bracket is positive and its
    doubling runs the wrong way). *)
Theorem C15_delatorre_solves_lambert :
  forall ev mu r1 r2 tof M prograde low_path maxiter atol rtol full_output o v1 v2,
  non_collinear r1 r2 ->
  (M = 0%Z -> 2 / 1000000 * (vnorm r1 + vnorm r2) <= vnorm (vminus r2 r1)) ->
  0 <= atol -> 0 <= rtol ->
  @run XR Delatorre ev (call mu r1 r2 tof M prograde low_path maxiter atol rtol full_output) = Ok o ->
  delivers o v1 v2 ->
  exists T, lambert_solution mu r1 v1 r2 v2 T M /\ Rabs (T - tof) <= atol + rtol * tof.
Proof.
  intros ev mu r1 r2 tof M p l mi at_ rt fo o v1 v2 Hn Hc Ha Hr H [D1 D2]. cbn [run] in H.
  pose proof H as V. unfold delatorre2018 in V. apply validated_call in V. destruct V as [(_ & _ & _ & Ht & _) _].
  destruct (delatorre_sound ev mu r1 r2 tof M p l mi at_ rt fo o v1 v2 Hn Hc H D1 D2) as (T & L & [E|E]);
    exists T; (split; [assumption|]); [|assumption].
  rewrite E, Rminus_diag_eq, Rabs_R0 by reflexivity. assert (0 <= rt * tof) by (apply Rmult_le_pos; lra). lra.
Qed.
Print Assumptions C15_delatorre_solves_lambert.

(** ** Cases *)
Lemma tor_tof_F P A mu z M :
  0 < mu -> z < PI * PI -> (0 <= M)%Z -> (M <> 0%Z -> 0 < z) -> 0 <= P - sqrt 2 * A * C0 z ->
  @tor_tof XR (Fin P) (Fin (sqrt 2 * A)) (Fin mu) (Fin z) M = Fin (tz mu A (P - sqrt 2 * A * C0 z) z M).
Proof.
  intros Hmu Hz HM HMz HV.
  destruct (@tor_tof XR (Fin P) (Fin (sqrt 2 * A)) (Fin mu) (Fin z) M) as [t|] eqn:E.
  { apply tor_tof_inv in E; auto. destruct E as [_ ->]. reflexivity. }
  exfalso. pose proof (S1_pos z Hz) as HS. revert E. unfold tor_tof.
  rewrite tor_stumpff0_F, tor_stumpff1_F.
  replace (@nmul XR (nofZ 4) (Fin z)) with (Fin (4 * z)) by reflexivity.
  rewrite tor_stumpff2_F, tor_stumpff3_F.
  replace (@nsub XR (Fin P) (@nmul XR (Fin (sqrt 2 * A)) (Fin (C0 z)))) with (Fin (P - sqrt 2 * A * C0 z)) by reflexivity.
  set (V := P - sqrt 2 * A * C0 z) in *. clearbody V.
  assert (S3' : S1 z * S1 z * S1 z <> 0) by (repeat apply Rmult_integral_contrapositive_currified; lra).
  assert (Hq : 0 <= 2 * V / mu) by (apply Rmult_le_pos; [lra|left; now apply Rinv_0_lt_compat]).
  assert (Hq2 : (M <> 0)%Z -> 0 < 2 * mu * (z * z * z)) by (intros NM; specialize (HMz NM); repeat apply Rmult_lt_0_compat; lra).
  assert (Hq3 : (M <> 0)%Z -> 0 <= V * V * V / (2 * mu * (z * z * z))).
  { intros NM. apply Rmult_le_pos; [repeat apply Rmult_le_pos; lra|left; apply Rinv_0_lt_compat; auto]. }
  xunf. cbn [xsub xadd xmul xlift2]. rewrite xdiv_F by lra. rewrite xsqrt_F by assumption. cbn [xmul xlift2].
  rewrite xdiv_F by assumption. destruct (Z.eqb_spec M 0); [discriminate|].
  rewrite xdiv_F by (specialize (Hq2 n); lra). rewrite xsqrt_F by auto. cbn [xmul xlift2]. rewrite xdiv_F by assumption. discriminate.
Qed.

(** Three-quarter turn (the retrograde motion between positions a quarter turn
    apart), [mu = 1]. *)
Lemma ex_nc : non_collinear ex_r1 ex_r2.
Proof. unfold non_collinear, vcross, vzero, ex_r1, ex_r2; cbn [vx vy vz]. intros E. injection E. lra. Qed.
Lemma ex_retro : exists th, @get_transfer_angle XR (vfin ex_r1) (vfin ex_r2) false = Fin th /\
  angle_facts false ex_r1 ex_r2 th /\ halfA ex_r1 ex_r2 th = -1.
Proof.
  assert (Hn := ex_nc).
  destruct (transfer_angle ex_r1 ex_r2 false Hn) as (th & E & F). exists th. split; [exact E|]. split; [exact F|].
  pose proof (halfA_sq false ex_r1 ex_r2 th Hn F) as S. destruct ex_norms as (N1 & N2 & _).
  rewrite N1, N2 in S. replace (vdot ex_r1 ex_r2) with 0 in S by (unfold vdot, ex_r1, ex_r2; cbn [vx vy vz]; ring).
  assert (~ 0 < cos (th / 2)).
  { rewrite (af_half _ _ _ _ F). unfold short_way, vcross, ex_r1, ex_r2; cbn [vx vy vz]. lra. }
  assert (halfA ex_r1 ex_r2 th <= 0).
  { unfold halfA. pose proof (sqrt_pos 2). pose proof (sqrt_pos (vnorm ex_r1 * vnorm ex_r2)).
    assert (0 <= sqrt 2 * sqrt (vnorm ex_r1 * vnorm ex_r2)) by (now apply Rmult_le_pos). nra. }
  nra.
Qed.

Lemma tor_velocities_F mu p r1 r2 th P Q z :
  non_collinear r1 r2 -> 0 < mu -> angle_facts p r1 r2 th -> 0 < P - Q * C0 z ->
  exists v1 v2,
  @tor_velocities XR (Fin mu) (vfin r1) (vfin r2) (Fin (vnorm r1)) (Fin (vnorm r2)) (Fin th) (Fin P) (Fin Q) (Fin z)
    = (vfin v1, vfin v2).
Proof.
  intros Hn Hm F HV. destruct (norms_pos _ _ Hn) as [N1 N2]. unfold tor_velocities. rewrite tor_stumpff0_F.
  replace (@nsub XR (Fin P) (@nmul XR (Fin Q) (Fin (C0 z)))) with (Fin (P - Q * C0 z)) by reflexivity.
  set (V := P - Q * C0 z) in *. clearbody V.
  pose proof (af_sin _ _ _ _ F) as S0. pose proof (af_cos _ _ _ _ F) as Cb.
  assert (N12 : 0 < vnorm r1 * vnorm r2) by nra.
  set (q := vnorm r1 * vnorm r2 * (1 - cos th) / V).
  assert (Hq : 0 < q) by (apply Rdiv_lt_0_compat; nra).
  assert (Eq : @ndiv XR (@nmul XR (@nmul XR (Fin (vnorm r1)) (Fin (vnorm r2))) (@nsub XR (nofZ 1) (@ncos XR (Fin th)))) (Fin V) = Fin q).
  { xunf. cbn [xmul xsub xlift1 xlift2]. rewrite xdiv_F by lra. reflexivity. }
  rewrite Eq. clearbody q.
  assert (Hs : 0 < sqrt (mu * q)) by (apply sqrt_lt_R0; nra).
  assert (Eg : @ndiv XR (@nmul XR (@nmul XR (Fin (vnorm r1)) (Fin (vnorm r2))) (@nsin XR (Fin th))) (@nsqrt XR (@nmul XR (Fin mu) (Fin q)))
    = Fin (vnorm r1 * vnorm r2 * sin th / sqrt (mu * q))).
  { xunf. cbn [xmul xsub xlift1 xlift2]. rewrite xsqrt_F by nra. rewrite xdiv_F by lra. reflexivity. }
  assert (Ef : forall n, 0 < n -> @nsub XR (nofZ 1) (@ndiv XR (@nmul XR (Fin n) (@nsub XR (nofZ 1) (@ncos XR (Fin th)))) (Fin q))
    = Fin (1 - n * (1 - cos th) / q)).
  { intros n _. xunf. cbn [xmul xsub xlift1 xlift2]. rewrite xdiv_F by lra. reflexivity. }
  assert (Hg : vnorm r1 * vnorm r2 * sin th / sqrt (mu * q) <> 0).
  { apply Rmult_integral_contrapositive_currified; [apply Rmult_integral_contrapositive_currified; lra|apply Rinv_neq_0_compat; lra]. }
  rewrite Eg, !Ef, !vscale_F, !vsub_F, !vdivs_F by assumption. eauto.
Qed.

Lemma ex_delatorre M l z tof zl zh :
  (0 <= M)%Z -> z < PI * PI -> (M <> 0%Z -> 0 < z) ->
  tof = tz 1 (-1) (2 + sqrt 2 * C0 z) z M -> 0 < 2 + sqrt 2 * C0 z ->
  (@tor_find_z XR 1 (Fin 2) (Fin (sqrt 2 * -1)) (Fin 1) (Fin tof) M l 35 (Fin (1 / 100000)) (Fin (1 / 10000000)) =
    tor_solve_bracketed (Fin 2) (Fin (sqrt 2 * -1)) (Fin 1) (Fin tof) M zl zh 35 (Fin (1 / 100000)) (Fin (1 / 10000000))) ->
  zl = Fin z ->
  exists o v1 v2,
    @run XR Delatorre no_scipy (call 1 ex_r1 ex_r2 tof M false l 35 (1 / 100000) (1 / 10000000) true) = Ok o /\
    delivers o v1 v2.
Proof.
  intros HM Hz HMz Et HV Ef ->. destruct ex_retro as (th & Eth & AF & EA). pose proof ex_nc as Hn.
  destruct ex_norms as (N1 & N2 & D0).
  assert (S : @tor_tof XR (Fin 2) (Fin (sqrt 2 * -1)) (Fin 1) (Fin z) M = Fin tof).
  { rewrite tor_tof_F by (lra || assumption || (replace (2 - sqrt 2 * -1 * C0 z) with (2 + sqrt 2 * C0 z) by ring; lra)).
    rewrite Et. do 2 f_equal. ring. }
  destruct (tor_velocities_F 1 false ex_r1 ex_r2 th 2 (sqrt 2 * -1) z Hn ltac:(lra) AF ltac:(lra)) as (v1 & v2 & Ev).
  assert (Htof : 0 < tof).
  { pose proof Ev as Ev'. apply (tor_velocities_inv 1 false ex_r1 ex_r2 th) in Ev'; [|assumption|lra|assumption].
    destruct Ev' as (HV' & E1 & E2).
    assert (L : lambert_solution 1 ex_r1 v1 ex_r2 v2 (tz 1 (halfA ex_r1 ex_r2 th) (2 - sqrt 2 * -1 * C0 z) z M) M).
    { apply (z_solution 1 ex_r1 ex_r2 v1 v2 (halfA ex_r1 ex_r2 th)); auto; try lra.
      - apply (halfA_sq false); assumption.
      - rewrite N1, N2, EA. ring. }
    destruct L as [[L _] _]. rewrite EA in L. replace (2 - sqrt 2 * -1 * C0 z) with (2 + sqrt 2 * C0 z) in L by ring. lra. }
  assert (V : valid_input 1 ex_r1 ex_r2 tof M).
  { unfold valid_input, ex_r1, ex_r2, vzero. repeat split; try lra; try assumption; intros E; injection E; lra. }
  eexists _, v1, v2. cbn [run]. unfold delatorre2018. rewrite validated_call_ok by exact V.
  cbn [call a_mu a_tof a_is_prograde a_rtol a_atol a_maxiter a_full_output a_M a_is_low_path no_scipy e_fuel].
  rewrite !norm_F, Eth. rewrite tor_Q_F by assumption. rewrite EA, N1, N2.
  replace (@nadd XR (Fin 1) (Fin 1)) with (Fin 2) by (xunf; cbn [xadd xlift2]; f_equal; ring).
  rewrite Ef. unfold tor_solve_bracketed. rewrite S.
  replace (@neqb XR (@nsub XR (Fin tof) (Fin tof)) (nofZ 0)) with true.
  2:{ symmetry. apply xeqb_F. ring. }
  cbn [bind]. rewrite N1, N2 in Ev. rewrite Ev.
  split; [reflexivity|]. split; reflexivity.
Qed.

(** The hypotheses of C15 hold, without revolutions... *)
Example C15_case : exists tof o v1 v2,
  non_collinear ex_r1 ex_r2 /\ 2 / 1000000 * (vnorm ex_r1 + vnorm ex_r2) <= vnorm (vminus ex_r2 ex_r1) /\
  @run XR Delatorre no_scipy (call 1 ex_r1 ex_r2 tof 0 false true 35 (1 / 100000) (1 / 10000000) true) = Ok o /\
  delivers o v1 v2.
Proof.
  pose proof PI_RGT_0 as Hpi. pose proof PI2_3_2 as Hpi2.
  assert (HV : 0 < 2 + sqrt 2 * C0 (-1)).
  { assert (0 < sqrt 2) by (apply sqrt_lt_R0; lra). unfold C0, U0. destruct (Rlt_dec 0 (-1)) as [L|L]; [lra|]. destruct (Rlt_dec (-1) 0) as [L'|L']; [|exfalso; apply L'; lra].
    match goal with |- context [cosh ?x] => assert (0 < cosh x) by (unfold cosh; pose proof (exp_pos x); pose proof (exp_pos (- x)); lra) end. nra. }
  set (tof := tz 1 (-1) (2 + sqrt 2 * C0 (-1)) (-1) 0).
  set (zh := PI * PI - 1 / 1000000000000).
  assert (W2 : sqrt 2 * sqrt 2 = 2) by (apply sqrt_sqrt; lra).
  assert (W0 : 0 < sqrt 2) by (apply sqrt_lt_R0; lra).
  assert (Hzh : 8 < zh < PI * PI) by (unfold zh; nra).
  assert (HC : -1 <= C0 zh).
  { unfold C0, U0. destruct (Rlt_dec 0 zh) as [L|L]; [apply COS_bound|exfalso; apply L; lra]. }
  assert (HVh : 0 < 2 + sqrt 2 * C0 zh) by nra.
  destruct (ex_delatorre 0 true (-1) tof (Fin (-1)) (Fin zh) ltac:(lia) ltac:(lra) ltac:(lia) eq_refl HV) as (o & v1 & v2 & R);
    [|reflexivity|].
  - unfold tor_find_z. cbn [Z.eqb]. unfold tor_initial_bracket. rewrite pi_sq_bracket. fold zh.
    replace (@nltb XR (nofZ 0) (Fin (sqrt 2 * -1))) with false by (symmetry; apply xltb_Ff; lra).
    unfold tor_expand. cbn [while_true].
    assert (S : forall z, z < PI * PI -> 0 < 2 + sqrt 2 * C0 z -> @tor_tof XR (Fin 2) (Fin (sqrt 2 * -1)) (Fin 1) (Fin z) 0 = Fin (tz 1 (-1) (2 + sqrt 2 * C0 z) z 0)).
    { intros z Hz Hv. rewrite tor_tof_F by (lra || lia || (replace (2 - sqrt 2 * -1 * C0 z) with (2 + sqrt 2 * C0 z) by ring; lra)).
      do 2 f_equal. ring. }
    replace (@nopp XR (nofZ 1)) with (Fin (-1)) by reflexivity.
    rewrite S by (assumption || nra). fold tof.
    replace (@nltb XR (Fin tof) (Fin tof)) with false by (symmetry; apply xltb_Ff; lra).
    rewrite S by lra.
    replace (@nltb XR (Fin (tz 1 (-1) (2 + sqrt 2 * C0 zh) zh 0)) (Fin tof)) with false; [reflexivity|].
    symmetry. apply xltb_Ff. unfold tof.
    replace (2 + sqrt 2 * C0 (-1)) with (2 - sqrt 2 * -1 * C0 (-1)) in * by ring.
    replace (2 + sqrt 2 * C0 zh) with (2 - sqrt 2 * -1 * C0 zh) in * by ring.
    rewrite !tz_Gz by lra.
    apply Rmult_le_compat_l; [left; apply Rdiv_lt_0_compat; [lra|rewrite sqrt_1; lra]|].
    left. apply Gz_increasing; try lra. rewrite Rabs_left; nra.
  - exists tof, o, v1, v2. split; [exact ex_nc|]. split; [|exact R].
    destruct ex_norms as (-> & -> & _). unfold vnorm, vminus, ex_r1, ex_r2, vdot; cbn [vx vy vz].
    apply Rle_trans with (sqrt 1); [rewrite sqrt_1; lra|]. apply sqrt_le_1; lra.
Qed.

(** ... and with one. *)
Example C15_case_multi : exists tof low_path o v1 v2,
  non_collinear ex_r1 ex_r2 /\
  @run XR Delatorre no_scipy (call 1 ex_r1 ex_r2 tof 1 false low_path 35 (1 / 100000) (1 / 10000000) true) = Ok o /\
  delivers o v1 v2.
Proof.
  assert (W0 : 0 < sqrt 2) by (apply sqrt_lt_R0; lra).
  assert (W2 : sqrt 2 * sqrt 2 = 2) by (apply sqrt_sqrt; lra).
  assert (HV : forall z, 0 < z -> 0 < 2 + sqrt 2 * C0 z).
  { intros z Hz. assert (-1 <= C0 z) by (unfold C0, U0; destruct (Rlt_dec 0 z) as [L|L]; [apply COS_bound|exfalso; apply L; lra]). nra. }
  assert (S : forall z, 0 < z -> z < PI * PI -> @tor_tof XR (Fin 2) (Fin (sqrt 2 * -1)) (Fin 1) (Fin z) 1 = Fin (tz 1 (-1) (2 + sqrt 2 * C0 z) z 1)).
  { intros z Hz Hv. specialize (HV z Hz). rewrite tor_tof_F by (lra || lia || (replace (2 - sqrt 2 * -1 * C0 z) with (2 + sqrt 2 * C0 z) by ring; lra)).
    do 2 f_equal. ring. }
  set (lo := 1 / 1000000000000). set (hi := PI * PI - lo).
  assert (Hlo : 0 < lo < PI * PI) by (unfold lo; pose proof PI2_3_2; nra).
  destruct (@tor_find_minimum_time XR (Fin 2) (Fin (sqrt 2 * -1)) (Fin 1) 1 (Fin (1 / 100000)) (Fin (1 / 10000000))) as [zm tm] eqn:Em.
  pose proof Em as B. apply tor_minimum_box in B. fold lo hi in B. destruct B as (z & -> & B).
  assert (Etm : tm = Fin (tz 1 (-1) (2 + sqrt 2 * C0 z) z 1)).
  { rewrite <- S by (unfold hi in B; lra). unfold tor_find_minimum_time in Em.
    destruct (match for_range _ _ _ _ with Break _ => _ | Next _ => _ | Raise _ => _ end) as [a b]. injection Em as <- <-. reflexivity. }
  destruct (Rle_dec (tz 1 (-1) (2 + sqrt 2 * C0 z) z 1) (tz 1 (-1) (2 + sqrt 2 * C0 lo) lo 1)) as [C|C].
  - exists (tz 1 (-1) (2 + sqrt 2 * C0 lo) lo 1), true.
    destruct (ex_delatorre 1 true lo _ (Fin lo) (Fin z) ltac:(lia) ltac:(lra) ltac:(lra) eq_refl (HV lo ltac:(lra))) as (o & v1 & v2 & R); [|reflexivity|].
    + unfold tor_find_z. cbn [Z.eqb Pos.eqb]. rewrite Em, Etm.
      match goal with |- context [@nltb XR (Fin ?a) (Fin ?b)] => replace (@nltb XR (Fin a) (Fin b)) with false by (symmetry; apply xltb_Ff; exact C) end.
      reflexivity.
    + exists o, v1, v2. split; [exact ex_nc|exact R].
  - exists (tz 1 (-1) (2 + sqrt 2 * C0 z) z 1), false.
    destruct (ex_delatorre 1 false z _ (Fin z) (Fin hi) ltac:(lia) ltac:(unfold hi in B; lra) ltac:(lra) eq_refl (HV z ltac:(lra))) as (o & v1 & v2 & R); [|reflexivity|].
    + unfold tor_find_z. cbn [Z.eqb Pos.eqb]. rewrite Em, Etm.
      match goal with |- context [@nltb XR (Fin ?a) (Fin ?b)] => replace (@nltb XR (Fin a) (Fin b)) with false by (symmetry; apply xltb_Ff; lra) end.
      reflexivity.
    + exists o, v1, v2. split; [exact ex_nc|exact R].
Qed.
