(** * vallado2013 and pan2016 do not terminate on some quick transfers: C53. *)
From Coq Require Import String ZArith List Bool Lia Reals Lra Psatz.
From Coquelicot Require Import Coquelicot.
From Verif Require Import Num XReal XRealLemmas MApi ApiFacts Loops MLinalg MScipy MAssertions MAngles MStumpff MVallado MPan MInit
  Spec SpecLambert VecFacts VecXR AnglesXR StumpffXR UniversalKepler LambertUV LambertRev LambertZ CallXR ValladoGen ValladoXR GodalXR GodalPan
  PropertiesAngles PropertiesStumpff OrbitXR JiangLoop PropertiesMotion PropertiesOrbit PropertiesFlags PropertiesExceptions PropertiesTermination PropertiesTerminationXR.
Local Open Scope R_scope.

(** Line 116 of vallado.py multiplies the two radii where the formula adds them.
    On a quarter turn between two equal radii [stuck_radius] the multiplied
    formula sends [psi = -2 pi^2], the first hyperbolic value tried, to itself. *)
Definition stuck_psi : R := - (2 * (PI * PI)).
Definition stuck_radius : R := (1 - stuck_psi * S3 stuck_psi / (8 / 10)) / sqrt (S2 stuck_psi).

(** Time of the parabola on a quarter turn of radius [rho], for [mu = 1]. *)
Definition quarter_parabola (rho : R) : R :=
  let y := rho * (2 - sqrt 2) in
  sqrt (y / (1 / 2)) * sqrt (y / (1 / 2)) * sqrt (y / (1 / 2)) * (1 / 6) + rho * sqrt y.

Lemma stuck_pos : 0 < S2 stuck_psi /\ 0 < stuck_radius.
Proof.
  pose proof PI_RGT_0 as HPI. assert (P : 0 < PI * PI) by nra.
  assert (H : 0 < S2 stuck_psi) by (apply S2_positive; unfold stuck_psi; lra). split; [exact H|].
  apply Rdiv_lt_0_compat; [|now apply sqrt_lt_R0]. pose proof (S3_positive stuck_psi) as H3.
  assert (stuck_psi * S3 stuck_psi / (8 / 10) < 0); [|lra]. unfold stuck_psi in *. set (s := S3 _) in *. clearbody s. nra.
Qed.

(** The universal variable stays negative there. *)
Lemma stuck_y : stuck_radius + stuck_radius - stuck_radius * S1 stuck_psi / sqrt (S2 stuck_psi) < 0.
Proof.
  destruct stuck_pos as [_ HR]. pose proof PI_RGT_0 as HPI. assert (P : 0 < PI * PI) by nra.
  set (z := - (PI * PI / 2)). replace stuck_psi with (4 * z) by (unfold stuck_psi, z; field).
  assert (P1 : 0 < S1 z) by (apply S1_pos; unfold z; lra).
  rewrite S1_double, S2_double. destruct (sqrt_pos_facts 2) as [W1 W2]; [lra|].
  rewrite sqrt_div, sqrt_square by nra.
  replace (stuck_radius * (S1 z * C0 z) / (S1 z / sqrt 2)) with (stuck_radius * (sqrt 2 * C0 z)) by (field; lra).
  assert (C : 2 < C0 z).
  { unfold C0, U0. destruct (Rlt_dec 0 z); [unfold z in *; lra|]. destruct (Rlt_dec z 0); [|unfold z in *; lra].
    rewrite Rmult_1_r. set (s := sqrt (- z)). assert (Q : s * s = PI * PI / 2) by (unfold s; rewrite sqrt_sqrt; unfold z; lra).
    assert (S0 : 0 < s) by (apply sqrt_lt_R0; lra).
    replace s with (2 * (s / 2)) by field. rewrite cosh_double. pose proof (sinh_gt_self (s / 2) ltac:(lra)).
    pose proof PI2_3_2 as P3. unfold PI2 in P3. set (h := sinh (s / 2)) in *. clearbody h.
    assert (s / 2 * (s / 2) < h * h) by (apply Rmult_le_0_lt_compat; lra). nra. }
  assert (1 < sqrt 2) by nra. assert (2 < sqrt 2 * C0 z) by nra. nra.
Qed.

Lemma stuck_fixed : 8 / 10 * (1 / S3 stuck_psi) * (1 - stuck_radius * stuck_radius * sqrt (S2 stuck_psi) / stuck_radius) = stuck_psi.
Proof.
  destruct stuck_pos as [H2 HR]. pose proof (sqrt_lt_R0 _ H2) as Q. pose proof (S3_positive stuck_psi) as H3.
  replace (stuck_radius * stuck_radius * sqrt (S2 stuck_psi) / stuck_radius) with (stuck_radius * sqrt (S2 stuck_psi)) by (field; lra).
  unfold stuck_radius at 1. field. lra.
Qed.

(** The inner loop repeats the same state. *)
Lemma readjust_stuck fuel lo :
  @val_readjust XR (Fin stuck_radius) (Fin stuck_radius) (Fin stuck_radius) fuel lo (Fin stuck_psi)
    (@val_y_at_psi XR (Fin stuck_psi) (Fin stuck_radius) (Fin stuck_radius) (Fin stuck_radius)) = Raise OutOfFuel.
Proof.
  destruct stuck_pos as [H2 HR]. pose proof (S3_positive stuck_psi) as H3. unfold val_readjust. rewrite val_y_F by assumption.
  set (y := stuck_radius + stuck_radius - stuck_radius * S1 stuck_psi / sqrt (S2 stuck_psi)). assert (Hy : y < 0) by apply stuck_y.
  apply (while_true_diverges _ (fun st => exists l, st = (l, Fin stuck_psi, Fin y))); [eauto|].
  intros t (l & ->). exists (Fin stuck_psi, Fin stuck_psi, Fin y). split; [|eauto].
  replace (@nltb XR (Fin y) (nofZ 0)) with true by (symmetry; apply xltb_F; lra).
  assert (E : @nmul XR (@nmul XR (nlit 8 10) (@ndiv XR (nofZ 1) (c3 (Fin stuck_psi))))
    (@nsub XR (nofZ 1) (@ndiv XR (@nmul XR (@nmul XR (Fin stuck_radius) (Fin stuck_radius)) (nsqrt (c2 (Fin stuck_psi)))) (Fin stuck_radius))) = Fin stuck_psi).
  { rewrite c2_F, c3_F. xunf. rewrite xsqrt_F by lra. cbn [xlift2 xmul]. rewrite !xdiv_F by lra. cbn [xlift2 xmul xsub]. f_equal. apply stuck_fixed. }
  rewrite E, val_y_F by assumption. reflexivity.
Qed.

Lemma quarter_norm rho : 0 < rho -> vnorm (V3 rho 0 0) = rho /\ vnorm (V3 0 rho 0) = rho.
Proof.
  intros H. unfold vnorm, vdot. cbn [vx vy vz]. split.
  - replace (_ + _ + _) with (rho * rho) by ring. apply sqrt_square. lra.
  - replace (_ + _ + _) with (rho * rho) by ring. apply sqrt_square. lra.
Qed.
Lemma quarter_nc rho : 0 < rho -> 0 < vz (vcross (V3 rho 0 0) (V3 0 rho 0)) /\ non_collinear (V3 rho 0 0) (V3 0 rho 0).
Proof. intros H. assert (E : 0 < vz (vcross (V3 rho 0 0) (V3 0 rho 0))) by (unfold vcross; cbn [vx vy vz]; nra). split; [exact E|]. apply vz_non_collinear. lra. Qed.

Lemma quarter_parabola_pos rho : 0 < rho -> 0 < quarter_parabola rho.
Proof.
  intros H. unfold quarter_parabola. destruct (sqrt_pos_facts 2) as [W1 W2]; [lra|]. assert (sqrt 2 < 2) by nra.
  set (y := rho * (2 - sqrt 2)). assert (Y : 0 < y) by (unfold y; apply Rmult_lt_0_compat; lra).
  pose proof (sqrt_lt_R0 _ Y). assert (Z : 0 < y / (1 / 2)) by lra. pose proof (sqrt_lt_R0 _ Z).
  set (a := sqrt (y / (1 / 2))) in *. assert (0 < a * a * a) by (repeat apply Rmult_lt_0_compat; assumption).
  assert (0 < rho * sqrt y) by now apply Rmult_lt_0_compat. lra.
Qed.

(** A prograde quarter turn in half the time of the parabola, no revolutions:
    valid and feasible (C21), and vallado2013 never answers. *)
Theorem C53_vallado_refuted : exists rho tof, 0 < rho /\ 0 < tof /\ non_collinear (V3 rho 0 0) (V3 0 rho 0) /\
  forall low_path maxiter atol rtol full_output, (2 <= maxiter)%Z -> rtol <= 1 ->
  hangs Vallado (call 1 (V3 rho 0 0) (V3 0 rho 0) tof 0 true low_path maxiter atol rtol full_output).
Proof.
  destruct stuck_pos as [H2 HR]. pose proof PI_RGT_0 as HPI. set (rho := stuck_radius) in *.
  destruct (quarter_nc rho HR) as [HZ Hn]. destruct (quarter_norm rho HR) as [N1 N2].
  pose proof (quarter_parabola_pos rho HR) as TP.
  exists rho, (quarter_parabola rho / 2). split; [exact HR|]. split; [lra|]. split; [exact Hn|].
  intros l mi at_ rt fo Hmi Hrt ev. cbn [run]. unfold vallado2013.
  rewrite validated_call_ok by (apply non_collinear_valid; try assumption; lra).
  cbn [call a_mu a_tof a_is_prograde a_rtol a_maxiter a_full_output]. rewrite !norm_F. cbv zeta.
  destruct (val_A_F _ _ true Hn) as (A & EA & HA2 & HA0 & HAs). rewrite EA. rewrite N1, N2 in *.
  assert (EAR : A = rho).
  { assert (0 < A) by (apply HAs; exact HZ). unfold vdot in HA2. cbn [vx vy vz] in HA2. nra. }
  subst A. replace (@neqb XR (Fin rho) (nofZ 0)) with false by (symmetry; apply (proj2 (xeqb_Ff rho 0)); lra).
  destruct (Z.to_nat mi) as [|[|n]] eqn:En; [lia|lia|].
  assert (PP : @nltb XR (nofZ 0) (Fin rho) = true) by (apply xltb_F; lra).
  assert (HS2 : S2 0 = 1 / 2). { unfold S2, U2. destruct (Rlt_dec 0 0); [lra|]. field. }
  destruct at_0 as (_ & HS1 & HS3). destruct (sqrt_pos_facts 2) as [W1 W2]; [lra|]. assert (W3 : sqrt 2 < 2) by nra.
  set (y := rho * (2 - sqrt 2)). assert (Y : 0 < y) by (unfold y; apply Rmult_lt_0_compat; lra).
  assert (Ey : @val_y_at_psi XR (nofZ 0) (Fin rho) (Fin rho) (Fin rho) = Fin y).
  { change (@nofZ XR 0) with (Fin 0). rewrite val_y_F by lra. rewrite HS2, HS1. f_equal. unfold y.
    replace (1 / 2) with (/ 2) by field. rewrite sqrt_inv. field. lra. }
  assert (E1 : @val_body XR (Fin 1) (Fin (quarter_parabola rho / 2)) (Fin rt) (Fin rho) (Fin rho) (Fin rho) (e_fuel ev) 1
      (nofZ 0, nmul (nopp (nofZ 4)) (sq npi), nmul (nofZ 4) (sq npi)) = Raise OutOfFuel \/
    exists lo up, @val_body XR (Fin 1) (Fin (quarter_parabola rho / 2)) (Fin rt) (Fin rho) (Fin rho) (Fin rho) (e_fuel ev) 1
      (nofZ 0, nmul (nopp (nofZ 4)) (sq npi), nmul (nofZ 4) (sq npi)) = Next (Fin stuck_psi, lo, up)).
  { unfold val_body. rewrite Ey, PP. unfold val_readjust. destruct (e_fuel ev) as [|k]; [left; reflexivity|right]. cbn [while_true].
    replace (@nltb XR (Fin y) (nofZ 0)) with false by (symmetry; apply (proj2 (xltb_Ff y 0)); lra).
    change (@nofZ XR 0) with (Fin 0). rewrite val_tof_F by lra. rewrite HS2, HS3.
    replace ((_ + rho * sqrt y) / sqrt 1) with (quarter_parabola rho) by (rewrite sqrt_1; unfold quarter_parabola; fold y; field).
    set (T := quarter_parabola rho) in *.
    replace (@nltb XR (@nabs XR _) (Fin rt)) with false.
    2: { symmetry. change (@nsub XR (Fin T) (Fin (T / 2))) with (Fin (T - T / 2)). change (@ndiv XR) with xdiv. rewrite xdiv_F by lra.
         replace ((T - T / 2) / (T / 2)) with 1 by (field; lra). apply (xltb_Ff (Rabs 1) rt). rewrite Rabs_R1. exact Hrt. }
    replace (@nleb XR (Fin T) (Fin (T / 2))) with false by (symmetry; apply (xleb_Ff T (T / 2)); lra). cbn [negb].
    eexists. eexists. apply f_equal. apply (f_equal (fun u => (u, _, _))). xunf. cbv [xlift1 xlift2 xmul xadd xsub xopp]. rewrite xdiv_F by lra.
    apply (f_equal Fin). unfold stuck_psi. field. }
  cbn [for_range]. destruct E1 as [->|(lo & up & ->)]; [reflexivity|].
  assert (E2 : forall i, @val_body XR (Fin 1) (Fin (quarter_parabola rho / 2)) (Fin rt) (Fin rho) (Fin rho) (Fin rho) (e_fuel ev) i
    (Fin stuck_psi, lo, up) = Raise OutOfFuel).
  { intros i. unfold val_body. rewrite PP. unfold rho. rewrite readjust_stuck. reflexivity. }
  rewrite E2. reflexivity.
Qed.
Print Assumptions C53_vallado_refuted.

(** pan2016 sends equal radii to vallado2013. *)
Theorem C53_pan_refuted : exists rho tof, 0 < rho /\ 0 < tof /\ non_collinear (V3 rho 0 0) (V3 0 rho 0) /\
  forall low_path maxiter atol rtol full_output, (2 <= maxiter)%Z -> 0 <= atol -> rtol <= 1 ->
  hangs Pan (call 1 (V3 rho 0 0) (V3 0 rho 0) tof 0 true low_path maxiter atol rtol full_output).
Proof.
  destruct C53_vallado_refuted as (rho & tof & HR & HT & Hn & H). exists rho, tof. split; [exact HR|]. split; [exact HT|]. split; [exact Hn|].
  intros l mi at_ rt fo Hmi Ha Hrt ev. specialize (H l mi at_ rt fo Hmi Hrt ev). cbn [run] in *. unfold pan2016. cbn [call a_M Z.ltb Z.compare raise_if bind].
  set (v := vallado2013 _ _ _) in *. clearbody v.
  rewrite validated_call_ok by (apply non_collinear_valid; try assumption; lra).
  destruct (transfer_angle _ _ true Hn) as (th & ET & F). destruct (quarter_norm rho HR) as [N1 N2].
  cbn [call a_is_prograde a_atol]. rewrite ET, !norm_F, N1, N2. cbv zeta.
  unfold assert_transfer_angle_not_zero, assert_transfer_angle_not_pi.
  replace (@neqb XR (Fin th) (nofZ 0)) with false.
  2: { symmetry. apply (xeqb_Ff th 0). intros E. apply (af_sin _ _ _ _ F). rewrite E. apply sin_0. }
  replace (@neqb XR (Fin th) npi) with false by (symmetry; apply (xeqb_Ff th PI); apply (af_npi _ _ _ _ F)). cbn [bind].
  replace (np_isclose _ _ _ _) with true; [exact H|]. symmetry. unfold np_isclose.
  change (@nleb XR (Fin (Rabs (rho - rho))) (Fin (at_ + 1 / 100000000 * Rabs rho)) = true). apply xleb_F.
  rewrite Rminus_diag_eq, Rabs_R0 by reflexivity. pose proof (Rabs_pos rho). lra.
Qed.
Print Assumptions C53_pan_refuted.
