(** * Elements of a state: what [rv2coe] computes on a conic. *)
From Coq Require Import Reals ZArith Bool Lra Lia Psatz.
From Verif Require Import Num XReal XRealLemmas MLinalg MAngles MElements Spec SpecElements VecFacts VecXR ElementsXR
  AnglesXR KeplerXR PropertiesElements.
Local Open Scope R_scope.

Lemma atan2_polar k t : 0 < k -> same_angle (Ratan2 (k * sin t) (k * cos t)) t.
Proof.
  intros Hk. pose proof (sc t) as S.
  assert (E : sqrt (k * cos t * (k * cos t) + k * sin t * (k * sin t)) = k).
  { replace (k * cos t * (k * cos t) + k * sin t * (k * sin t)) with (k * k * (sin t * sin t + cos t * cos t)) by ring. rewrite S, Rmult_1_r. apply sqrt_square. lra. }
  destruct (Ratan2_cos_sin (k * cos t) (k * sin t)) as [C1 S1]. { destruct (Req_dec (cos t) 0) as [Z|Z]; [right|left; apply Rmult_integral_contrapositive_currified; lra]. intros Z2. apply Rmult_integral in Z2. destruct Z2 as [Z2|Z2]; [lra|]. rewrite Z, Z2 in S. lra. }
  unfold same_angle. rewrite C1, S1, E. split; field; lra.
Qed.

Lemma mod_2pi t : exists m, @nmod XR (Fin t) (@nmul XR (nofZ 2) npi) = Fin m /\ same_angle m t /\ 0 <= m < 2 * PI.
Proof.
  pose proof PI_RGT_0. exists (t - 2 * PI * Rfloor (t / (2 * PI))). split.
  - xunf. cbn [xmul xlift2]. unfold xmod. destruct (Req_EM_T (2 * PI) 0); [lra|reflexivity].
  - destruct (mod_2pi_facts t) as (C & S & B). unfold same_angle. auto.
Qed.
Lemma wrap t : exists m, @nsub XR (@nmod XR (@nadd XR (Fin t) npi) (@nmul XR (nofZ 2) npi)) npi = Fin m /\ same_angle m t /\ - PI <= m < PI.
Proof.
  destruct (mod_2pi (t + PI)) as (m & E & (C & S) & B). exists (m - PI). split.
  - change (@nadd XR (Fin t) npi) with (Fin (t + PI)). rewrite E. reflexivity.
  - unfold same_angle. unfold Rminus. rewrite cos_plus, sin_plus, cos_neg, sin_neg, cos_PI, sin_PI, C, S, neg_cos, neg_sin. repeat split; lra.
Qed.

Lemma half_tan t : cos t <> -1 -> same_angle (2 * atan (sin t / (1 + cos t))) t.
Proof.
  intros H. pose proof (sc t) as S. set (u := sin t / (1 + cos t)).
  assert (D : 1 + cos t <> 0) by lra. assert (P : 0 < 1 + cos t) by (pose proof (COS_bound t); lra).
  assert (U : 1 + u * u = 2 / (1 + cos t)).
  { unfold u. apply Rmult_eq_reg_r with ((1 + cos t) * (1 + cos t)); [|nra]. field_simplify; [|assumption..]. nra. }
  assert (Q : 0 < 1 + u * u) by nra.
  unfold same_angle. rewrite cos_2a, sin_2a, cos_atan_pos, sin_atan_pos.
  assert (SS : sqrt (1 + u * u) * sqrt (1 + u * u) = 1 + u * u) by (apply sqrt_sqrt; lra).
  assert (SP : 0 < sqrt (1 + u * u)) by now apply sqrt_lt_R0. set (q := sqrt (1 + u * u)) in *. clearbody q.
  split.
  - transitivity ((1 - u * u) / (q * q)); [field; lra|]. rewrite SS, U. replace (1 - u * u) with (2 - 2 / (1 + cos t)) by lra. field. lra.
  - transitivity (2 * u / (q * q)); [field; lra|]. rewrite SS, U. unfold u. field. lra.
Qed.
Lemma tan_half x : cos x <> -1 -> cos (x / 2) <> 0 /\ tan (x / 2) = sin x / (1 + cos x).
Proof.
  intros H. assert (E1 : cos x = 2 * cos (x / 2) * cos (x / 2) - 1) by (replace x with (2 * (x / 2)) at 1 by field; apply cos_2a_cos).
  assert (E2 : sin x = 2 * sin (x / 2) * cos (x / 2)) by (replace x with (2 * (x / 2)) at 1 by field; apply sin_2a).
  assert (Z : cos (x / 2) <> 0) by (intros Z; rewrite Z in E1; lra). split; [exact Z|]. unfold tan. rewrite E1, E2. field. split; [|assumption]. nra.
Qed.

(** ** True anomaly from the position and velocity products *)
Lemma anomaly_elliptic e nu : 0 < e < 1 -> 0 < 1 + e * cos nu -> cos nu <> -1 ->
  let E := Ratan2 (e * sin nu * sqrt (1 - e * e) / (1 + e * cos nu)) (e * (cos nu + e) / (1 + e * cos nu)) in
  exists t, @E_to_nu XR (Fin E) (Fin e) = Fin t /\ same_angle t nu.
Proof.
  intros He Hd Hn E. pose proof (sc nu) as S. set (q := sqrt (1 - e * e)) in *.
  assert (Q : 0 < q /\ q * q = 1 - e * e) by (split; [apply sqrt_lt_R0; nra|apply sqrt_sqrt; nra]). destruct Q as [Q1 Q2].
  assert (SQ : sqrt (e * (cos nu + e) / (1 + e * cos nu) * (e * (cos nu + e) / (1 + e * cos nu)) + e * sin nu * q / (1 + e * cos nu) * (e * sin nu * q / (1 + e * cos nu))) = e).
  { replace (_ + _) with (e * e); [apply sqrt_square; lra|]. 
    apply Rmult_eq_reg_r with ((1 + e * cos nu) * (1 + e * cos nu)); [|nra].
    transitivity (e * e * ((cos nu + e) * (cos nu + e) + sin nu * sin nu * (q * q))); [|field; lra]. rewrite Q2. replace (sin nu * sin nu) with (1 - cos nu * cos nu) by lra. ring. }
  pose proof (COS_bound nu) as CB.
  destruct (Ratan2_cos_sin (e * (cos nu + e) / (1 + e * cos nu)) (e * sin nu * q / (1 + e * cos nu))) as [C1 S1].
  { destruct (Req_dec (e * (cos nu + e) / (1 + e * cos nu)) 0) as [Z|Z]; [right|left; exact Z]. intros Z2. rewrite Z, Z2 in SQ. replace (0 * 0 + 0 * 0) with 0 in SQ by ring. rewrite sqrt_0 in SQ. lra. }
  fold E in C1, S1. rewrite SQ in C1, S1.
  assert (C2 : cos E = (cos nu + e) / (1 + e * cos nu)) by (rewrite C1; field; lra). assert (S2 : sin E = sin nu * q / (1 + e * cos nu)) by (rewrite S1; field; lra). clear C1 S1. clearbody E.
  assert (D1 : 1 + cos E = (1 + e) * (1 + cos nu) / (1 + e * cos nu)) by (rewrite C2; field; lra).
  assert (N1 : cos E <> -1). { intros Z. rewrite Z in D1. assert (0 < (1 + e) * (1 + cos nu) / (1 + e * cos nu)) by (apply Rdiv_lt_0_compat; nra). lra. }
  destruct (tan_half E N1) as [Z T]. eexists. split; [apply E_to_nu_F; [lra|exact Z]|]. destruct (kE_pos e ltac:(lra)) as (K1 & K2 & _).
  assert (Kq : q = kE e * (1 + e)).
  { assert (X : (q - kE e * (1 + e)) * (q + kE e * (1 + e)) = 0).
    { replace ((q - kE e * (1 + e)) * (q + kE e * (1 + e))) with (q * q - kE e * kE e * ((1 + e) * (1 + e))) by ring. rewrite Q2, K2. field. lra. }
    apply Rmult_integral in X. destruct X; [lra|nra]. }
  replace (/ kE e * tan (E / 2)) with (sin nu / (1 + cos nu)); [apply half_tan; exact Hn|].
  rewrite T, D1, S2, Kq. field. repeat split; lra.
Qed.

Lemma anomaly_hyperbolic e nu : 1 < e -> 0 < 1 + e * cos nu ->
  let ch := e * (cos nu + e) / (1 + e * cos nu) in let sh := e * sin nu * sqrt (e * e - 1) / (1 + e * cos nu) in
  0 < ch - sh /\ 0 < (ch + sh) / (ch - sh) /\
  same_angle (2 * atan (/ kH e * tanh (ln ((ch + sh) / (ch - sh)) / 2 / 2))) nu.
Proof.
  intros He Hd ch sh. pose proof (sc nu) as S. pose proof (COS_bound nu) as CB. set (q := sqrt (e * e - 1)) in *.
  assert (Q : 0 < q /\ q * q = e * e - 1) by (split; [apply sqrt_lt_R0; nra|apply sqrt_sqrt; nra]). destruct Q as [Q1 Q2].
  destruct (kH_pos e He) as (K1 & K2 & _).
  assert (Kq : q = kH e * (e + 1)).
  { assert (X : (q - kH e * (e + 1)) * (q + kH e * (e + 1)) = 0).
    { replace ((q - kH e * (e + 1)) * (q + kH e * (e + 1))) with (q * q - kH e * kH e * ((e + 1) * (e + 1))) by ring. rewrite Q2, K2. field. lra. }
    apply Rmult_integral in X. destruct X; [lra|nra]. }
  pose proof (half_tan nu) as HT. set (c := cos nu) in *. set (s := sin nu) in *. change (cos nu) with c in HT. change (sin nu) with s in HT. clearbody c s q.
  assert (PR : (c + e + s * q) * (c + e - s * q) = (1 + e * c) * (1 + e * c)).
  { replace ((c + e + s * q) * (c + e - s * q)) with ((c + e) * (c + e) - s * s * (q * q)) by ring. rewrite Q2. replace (s * s) with (1 - c * c) by lra. ring. }
  assert (A : 0 < c + e + s * q /\ 0 < c + e - s * q).
  { assert (0 < (1 + e * c) * (1 + e * c)) by nra. destruct (Rlt_dec 0 (c + e + s * q)) as [L|L]; [split; [exact L|]|]; nra. }
  destruct A as [A1 A2].
  assert (D : ch - sh = e * (c + e - s * q) / (1 + e * c)) by (unfold ch, sh; field; lra).
  assert (R : (ch + sh) / (ch - sh) = (c + e + s * q) / (1 + e * c) * ((c + e + s * q) / (1 + e * c))).
  { transitivity ((c + e + s * q) / (c + e - s * q)); [unfold ch, sh; field; repeat split; nra|].
    transitivity ((c + e + s * q) * (c + e + s * q) / ((1 + e * c) * (1 + e * c))); [|field; lra]. rewrite <- PR. field. lra. }
  assert (G : 0 < (c + e + s * q) / (1 + e * c)) by (apply Rdiv_lt_0_compat; lra).
  split; [rewrite D; apply Rdiv_lt_0_compat; nra|]. split; [rewrite R; nra|].
  rewrite R, ln_mult by assumption. set (g := (c + e + s * q) / (1 + e * c)) in *.
  replace ((ln g + ln g) / 2 / 2) with (ln g / 2) by field. rewrite tanh_exp. replace (2 * (ln g / 2)) with (ln g) by field. rewrite exp_ln by exact G.
  assert (C1 : c <> -1). { intros ->. nra. }
  replace (/ kH e * ((g - 1) / (g + 1))) with (s / (1 + c)).
  - exact (HT C1).
  - assert (E1 : (g - 1) / (g + 1) = ((e - 1) * (1 - c) + s * q) / ((e + 1) * (1 + c) + s * q)) by (unfold g; field; repeat split; nra).
    assert (P1 : 0 < (e + 1) * (1 + c) + s * q) by nra.
    rewrite E1. apply Rmult_eq_reg_r with (kH e * (1 + c) * ((e + 1) * (1 + c) + s * q)); [|repeat apply Rmult_integral_contrapositive_currified; lra].
    transitivity (s * kH e * ((e + 1) * (1 + c) + s * q)); [field; lra|]. transitivity ((1 + c) * ((e - 1) * (1 - c) + s * q)); [|field; lra].
    rewrite Kq. replace ((1 + c) * ((e - 1) * (1 - c) + s * (kH e * (e + 1)))) with ((e - 1) * (1 - c * c) + (1 + c) * (s * (kH e * (e + 1)))) by ring.
    replace (1 - c * c) with (s * s) by lra. replace (e - 1) with (kH e * kH e * (e + 1)) by (rewrite K2; field; lra). ring.
Qed.

(** ** The quantities of [rv2coe] on a conic *)
Section State.
Variables mu p e i o w nu : R.
Hypothesis Hmu : 0 < mu.
Hypothesis Hp : 0 < p.
Hypothesis He : 0 <= e.
Hypothesis Hd : 0 < 1 + e * cos nu.
Hypothesis Hi : 0 <= i <= PI.
Let r := conic_position p e i o w nu.
Let v := conic_velocity mu p e i o w nu.
Let K := sqrt (mu * p).
Let rn := p / (1 + e * cos nu).

Definition node : rvec := vmult (K * sin i) (V3 (cos o) (sin o) 0).

Lemma K_facts : 0 < K /\ K * K = mu * p.
Proof. assert (0 < mu * p) by now apply Rmult_lt_0_compat. split; [now apply sqrt_lt_R0|apply sqrt_sqrt; lra]. Qed.
Lemma rn_pos : 0 < rn. Proof. now apply Rdiv_lt_0_compat. Qed.
Lemma r_rn : vnorm r = rn.
Proof. apply conic_radius; try assumption; [apply frame_PP|apply frame_QQ|apply frame_PQ]. Qed.
Lemma h_state : momentum r v = vmult K (frame_W i o).
Proof. rewrite <- (frame_cross i o w). apply conic_momentum; assumption. Qed.
Lemma hh : vdot (momentum r v) (momentum r v) = mu * p.
Proof. destruct K_facts as [_ E]. rewrite h_state, vdot_mult_l, vdot_mult_r, frame_WW, Rmult_1_r. exact E. Qed.
Lemma node_state : vcross (V3 0 0 1) (momentum r v) = node.
Proof. rewrite h_state. unfold vcross, node, vmult, frame_W. cbn [vx vy vz]. apply vec_eq; cbn [vx vy vz]; ring. Qed.
Lemma r_node : vdot r node = rn * K * sin i * cos (w + nu).
Proof.
  rewrite cos_plus. unfold r, conic_position. fold rn. unfold node, vdot, vmult, vplus, frame_P, frame_Q. cbn [vx vy vz]. pose proof (sc o) as S.
  transitivity (rn * K * sin i * ((cos w * cos nu - sin w * sin nu) * (sin o * sin o + cos o * cos o))); [ring|]. rewrite S. ring.
Qed.
Lemma r_h_node : vdot r (vcross (momentum r v) node) / K = rn * K * sin i * sin (w + nu).
Proof.
  destruct K_facts as [K1 _]. rewrite h_state, sin_plus. unfold r, conic_position. fold rn. unfold node, vdot, vcross, vmult, vplus, frame_P, frame_Q, frame_W. cbn [vx vy vz].
  pose proof (sc o) as S. pose proof (sc i) as I. apply Rmult_eq_reg_r with K; [|lra]. unfold Rdiv. rewrite Rmult_assoc, Rinv_l, Rmult_1_r by lra.
  transitivity (rn * K * K * sin i * (sin w * cos nu + cos w * sin nu) * ((sin o * sin o + cos o * cos o) * ((sin i * sin i) * (sin o * sin o + cos o * cos o) + cos i * cos i)) ).
  - ring_simplify. replace (cos i ^ 2) with (1 - sin i ^ 2) by nra. replace (cos o ^ 4) with ((1 - sin o ^ 2) ^ 2) by nra. replace (cos o ^ 2) with (1 - sin o ^ 2) by nra. ring.
  - rewrite !S, Rmult_1_r, I. ring.
Qed.
Lemma r_v : vdot r v = rn * sqrt (mu / p) * e * sin nu.
Proof.
  unfold r, v, conic_position, conic_velocity. fold rn. set (q := sqrt (mu / p)). 
  pose proof (frame_PP i o w) as PP. pose proof (frame_QQ i o w) as QQ. pose proof (frame_PQ i o w) as PQ. set (P := frame_P i o w) in *. set (Q := frame_Q i o w) in *. clearbody P Q q.
  transitivity (rn * q * (- sin nu * cos nu * vdot P P + sin nu * (e + cos nu) * vdot Q Q + (cos nu * (e + cos nu) - sin nu * sin nu) * vdot P Q)).
  - unfold vdot, vmult, vplus. cbn [vx vy vz]. ring.
  - rewrite PP, QQ, PQ. ring.
Qed.
Lemma v_v : vdot v v = mu / p * (1 + 2 * e * cos nu + e * e).
Proof. apply conic_vv; try assumption; [apply frame_PP|apply frame_QQ|apply frame_PQ]. Qed.
Lemma e_state : ecc_vector mu r v = vmult e (frame_P i o w).
Proof. apply conic_ecc; try assumption; [apply frame_PP|apply frame_QQ|apply frame_PQ]. Qed.
Lemma ec : sqrt (vdot (vmult e (frame_P i o w)) (vmult e (frame_P i o w))) = e.
Proof. rewrite vdot_mult_l, vdot_mult_r, frame_PP. replace (e * (e * 1)) with (e * e) by ring. now apply sqrt_square. Qed.

Definition nu_of : xr :=
  let a := @ndiv XR (Fin p) (@nsub XR (nofZ 1) (@sq XR (Fin e))) in
  let ka := @nmul XR (Fin mu) a in
  if @nltb XR (nofZ 0) a then
    @E_to_nu XR (@natan2 XR (@ndiv XR (Fin (vdot r v)) (@nsqrt XR ka)) (@nsub XR (@ndiv XR (@nmul XR (Fin rn) (Fin (vdot v v))) (Fin mu)) (nofZ 1))) (Fin e)
  else
    let sh := @ndiv XR (Fin (vdot r v)) (@nsqrt XR (@nopp XR ka)) in
    let ch := @nsub XR (@ndiv XR (@nmul XR (Fin rn) (@sq XR (Fin (sqrt (vdot v v))))) (Fin mu)) (nofZ 1) in
    @H_to_nu XR (@ndiv XR (@nln XR (@ndiv XR (@nadd XR ch sh) (@nsub XR ch sh))) (nofZ 2)) (Fin e).

Lemma rv2coe_F tol :
  @rv2coe XR (Fin mu) (vfin r) (vfin v) (Fin tol) =
  let circular := xltb (Fin e) (Fin tol) in
  let equatorial := xltb (Fin i) (Fin tol) in
  let '(raan, argp, t) :=
    if equatorial && negb circular then
      (Fin 0, @nmod XR (Fin (Ratan2 (vy (vmult e (frame_P i o w))) (vx (vmult e (frame_P i o w))))) (@nmul XR (nofZ 2) npi),
       Fin (Ratan2 (vdot (momentum r v) (vcross (vmult e (frame_P i o w)) r) / K) (vdot r (vmult e (frame_P i o w)))))
    else if negb equatorial && circular then
      (@nmod XR (Fin (Ratan2 (K * sin i * sin o) (K * sin i * cos o))) (@nmul XR (nofZ 2) npi), Fin 0,
       Fin (Ratan2 (rn * K * sin i * sin (w + nu)) (rn * K * sin i * cos (w + nu))))
    else if equatorial && circular then
      (Fin 0, Fin 0, @nmod XR (Fin (Ratan2 (vy r) (vx r))) (@nmul XR (nofZ 2) npi))
    else
      (@nmod XR (Fin (Ratan2 (K * sin i * sin o) (K * sin i * cos o))) (@nmul XR (nofZ 2) npi),
       @nmod XR (@nsub XR (Fin (Ratan2 (rn * K * sin i * sin (w + nu)) (rn * K * sin i * cos (w + nu)))) nu_of) (@nmul XR (nofZ 2) npi),
       nu_of) in
  Coe (Fin p) (Fin e) (Fin i) raan argp (@nsub XR (@nmod XR (@nadd XR t npi) (@nmul XR (nofZ 2) npi)) npi).
Proof.
  destruct K_facts as [K1 K2]. pose proof rn_pos as RP. pose proof r_rn as RN.
  unfold rv2coe. change (V3 (@nofZ XR 0) (nofZ 0) (nofZ 1)) with (vfin (V3 0 0 1)).
  rewrite !cross_F. fold (momentum r v). rewrite node_state, ?cross_F, !dot_F.
  assert (S1 : @nsqrt XR (Fin (vdot r r)) = Fin rn). { xunf. rewrite xsqrt_F by apply vdot_pos. f_equal. exact RN. }
  assert (S2 : @nsqrt XR (Fin (vdot v v)) = Fin (sqrt (vdot v v))) by (xunf; apply xsqrt_F, vdot_pos).
  assert (S3 : @nsqrt XR (Fin (vdot (momentum r v) (momentum r v))) = Fin K). { xunf. rewrite hh. apply xsqrt_F. nra. }
  rewrite S1, S2, S3.
  assert (E : @vdivs XR (vsub (vscale (@nsub XR (Fin (vdot v v)) (@ndiv XR (Fin mu) (Fin rn))) (vfin r)) (vscale (Fin (vdot r v)) (vfin v))) (Fin mu) = vfin (vmult e (frame_P i o w))).
  { replace (@ndiv XR (Fin mu) (Fin rn)) with (Fin (mu / rn)) by (symmetry; apply xdiv_F; lra). change (@nsub XR (Fin (vdot v v)) (Fin (mu / rn))) with (Fin (vdot v v - mu / rn)).
    rewrite !vscale_F, vsub_F, vdivs_F by lra. rewrite <- RN. rewrite ecc_formula by lra. now rewrite e_state. }
  rewrite E, ?cross_F, !dot_F.
  assert (S4 : @nsqrt XR (Fin (vdot (vmult e (frame_P i o w)) (vmult e (frame_P i o w)))) = Fin e) by (xunf; rewrite xsqrt_F by apply vdot_pos; now rewrite ec).
  rewrite S4.
  assert (S5 : @ndiv XR (Fin (vdot (momentum r v) (momentum r v))) (Fin mu) = Fin p) by (rewrite hh; xunf; rewrite xdiv_F by lra; f_equal; field; lra).
  rewrite S5.
  assert (S6 : @nacos XR (@ndiv XR (vz (vfin (momentum r v))) (Fin K)) = Fin i).
  { rewrite h_state. unfold vfin, vmult, frame_W. cbn [vz]. xunf. rewrite xdiv_F by lra. replace (K * cos i / K) with (cos i) by (field; lra). rewrite xacos_F by apply COS_bound. f_equal. now apply acos_cos. }
  match goal with |- context [@nacos XR ?X] => replace (@nacos XR X) with (Fin i) by (symmetry; exact S6) end.
  assert (S7 : @nabs XR (Fin i) = Fin i) by (xunf; cbn [xabs xlift1]; f_equal; apply Rabs_right; lra). rewrite S7.
  assert (S8 : @ndiv XR (Fin (vdot r (vcross (momentum r v) node))) (Fin K) = Fin (rn * K * sin i * sin (w + nu))) by (xunf; rewrite xdiv_F by lra; f_equal; apply r_h_node).
  assert (S9 : @ndiv XR (Fin (vdot (momentum r v) (vcross (vmult e (frame_P i o w)) r))) (Fin K) = Fin (vdot (momentum r v) (vcross (vmult e (frame_P i o w)) r) / K)) by (apply xdiv_F; lra).
  rewrite S8, S9, r_node. reflexivity.
Qed.

Lemma ce_value : rn * (mu / p * (1 + 2 * e * cos nu + e * e)) / mu - 1 = e * (cos nu + e) / (1 + e * cos nu).
Proof. unfold rn. field. repeat split; lra. Qed.
Lemma se_value d : 0 < d -> rn * sqrt (mu / p) * e * sin nu / sqrt (mu * (p / d)) = e * sin nu * sqrt d / (1 + e * cos nu).
Proof.
  intros Hd'. assert (M : 0 < mu / p) by now apply Rdiv_lt_0_compat.
  replace (mu * (p / d)) with (p * p * (mu / p) / d) by (field; split; lra).
  assert (0 < p * p * (mu / p)) by (apply Rmult_lt_0_compat; nra).
  rewrite (sqrt_div (p * p * (mu / p)) d) by lra. rewrite sqrt_mult by nra. rewrite sqrt_square by lra.
  pose proof (sqrt_lt_R0 _ M). pose proof (sqrt_lt_R0 _ Hd'). unfold rn. field. repeat split; lra.
Qed.

Lemma nu_of_F : 0 < e -> e <> 1 -> (e < 1 -> cos nu <> -1) -> exists t, nu_of = Fin t /\ same_angle t nu.
Proof.
  intros E0 E1 Ea. unfold nu_of. rewrite r_v, v_v. change (@sq XR (Fin e)) with (Fin (e * e)). change (@nsub XR (nofZ 1) (Fin (e * e))) with (Fin (1 - e * e)).
  assert (N : 1 - e * e <> 0). { intros Z. assert (X : (1 - e) * (1 + e) = 0) by lra. apply Rmult_integral in X. lra. }
  replace (@ndiv XR (Fin p) (Fin (1 - e * e))) with (Fin (p / (1 - e * e))) by (symmetry; apply xdiv_F; exact N).
  change (@nmul XR (Fin mu) (Fin (p / (1 - e * e)))) with (Fin (mu * (p / (1 - e * e)))).
  change (@nltb XR (nofZ 0) (Fin (p / (1 - e * e)))) with (xltb (Fin 0) (Fin (p / (1 - e * e)))).
  assert (CE : forall X, X = mu / p * (1 + 2 * e * cos nu + e * e) -> @nsub XR (@ndiv XR (@nmul XR (Fin rn) (Fin X)) (Fin mu)) (nofZ 1) = Fin (e * (cos nu + e) / (1 + e * cos nu))).
  { intros X ->. xunf. cbn [xmul xlift2]. rewrite xdiv_F by lra. cbn [xsub xlift2]. f_equal. exact ce_value. }
  destruct (Rlt_dec e 1) as [L|L].
  - assert (P1 : 0 < 1 - e * e) by nra. assert (A : 0 < p / (1 - e * e)) by now apply Rdiv_lt_0_compat. rewrite (proj2 (xltb_F _ _)) by exact A.
    assert (MA : 0 < mu * (p / (1 - e * e))) by now apply Rmult_lt_0_compat. pose proof (sqrt_lt_R0 _ MA).
    rewrite CE by reflexivity. replace (@nsqrt XR (Fin (mu * (p / (1 - e * e))))) with (Fin (sqrt (mu * (p / (1 - e * e))))) by (symmetry; apply xsqrt_F; lra).
    match goal with |- context [@ndiv XR (Fin ?A) (Fin ?B)] => replace (@ndiv XR (Fin A) (Fin B)) with (Fin (A / B)) by (symmetry; apply xdiv_F; lra) end.
    rewrite se_value by exact P1. apply anomaly_elliptic; [lra|exact Hd|apply Ea; exact L].
  - assert (P1 : 0 < e * e - 1) by nra. assert (A : p / (1 - e * e) < 0). { replace (p / (1 - e * e)) with (- (p / (e * e - 1))) by (field; lra). assert (0 < p / (e * e - 1)) by now apply Rdiv_lt_0_compat. lra. }
    rewrite (proj2 (xltb_Ff _ _)) by lra.
    change (@nopp XR (Fin (mu * (p / (1 - e * e))))) with (Fin (- (mu * (p / (1 - e * e))))). replace (- (mu * (p / (1 - e * e)))) with (mu * (p / (e * e - 1))) by (field; lra).
    assert (MA : 0 < mu * (p / (e * e - 1))) by (apply Rmult_lt_0_compat; [lra|now apply Rdiv_lt_0_compat]). pose proof (sqrt_lt_R0 _ MA).
    replace (@nsqrt XR (Fin (mu * (p / (e * e - 1))))) with (Fin (sqrt (mu * (p / (e * e - 1))))) by (symmetry; apply xsqrt_F; lra).
    set (V := mu / p * (1 + 2 * e * cos nu + e * e)) in *. change (@sq XR (Fin (sqrt V))) with (Fin (sqrt V * sqrt V)). rewrite CE by (apply sqrt_sqrt; unfold V; rewrite <- v_v; apply vdot_pos).
    match goal with |- context [@ndiv XR (Fin ?A) (Fin ?B)] => replace (@ndiv XR (Fin A) (Fin B)) with (Fin (A / B)) by (symmetry; apply xdiv_F; lra) end.
    rewrite se_value by exact P1. destruct (anomaly_hyperbolic e nu ltac:(lra) Hd) as (D1 & D2 & D3). cbv zeta in D1, D2, D3.
    set (ch := e * (cos nu + e) / (1 + e * cos nu)) in *. set (sh := e * sin nu * sqrt (e * e - 1) / (1 + e * cos nu)) in *. clearbody ch sh.
    change (@nadd XR (Fin ch) (Fin sh)) with (Fin (ch + sh)). change (@nsub XR (Fin ch) (Fin sh)) with (Fin (ch - sh)).
    replace (@ndiv XR (Fin (ch + sh)) (Fin (ch - sh))) with (Fin ((ch + sh) / (ch - sh))) by (symmetry; apply xdiv_F; lra).
    replace (@nln XR (Fin ((ch + sh) / (ch - sh)))) with (Fin (ln ((ch + sh) / (ch - sh)))) by (symmetry; apply xln_F; lra).
    match goal with |- context [@ndiv XR (Fin ?A) (nofZ 2)] => replace (@ndiv XR (Fin A) (nofZ 2)) with (Fin (A / 2)) by (symmetry; apply xdiv_F; lra) end.
    rewrite H_to_nu_F by lra. eexists. split; [reflexivity|exact D3].
Qed.
Lemma nu_of_parabola : e = 1 -> nu_of = NaN.
Proof.
  intros E1. unfold nu_of. rewrite E1. change (@sq XR (Fin 1)) with (Fin (1 * 1)). change (@nsub XR (nofZ 1) (Fin (1 * 1))) with (Fin (1 - 1 * 1)).
  replace (@ndiv XR (Fin p) (Fin (1 - 1 * 1))) with NaN.
  - assert (A : forall x : xr, @nadd XR x NaN = NaN) by (now intros []). assert (M : forall x : xr, @nmul XR x NaN = NaN) by (now intros []). assert (B : forall x : xr, @ndiv XR x NaN = NaN) by (now intros []).
    assert (SB : forall x : xr, @nsub XR x NaN = NaN) by (now intros []).
    change (@nltb XR (nofZ 0) NaN) with false. cbv iota. rewrite M. change (@nsqrt XR (@nopp XR NaN)) with NaN. rewrite B, A, SB, B. unfold H_to_nu. change (@ntanh XR (@ndiv XR (@ndiv XR (@nln XR NaN) (nofZ 2)) (nofZ 2))) with NaN. rewrite M. reflexivity.
  - replace (1 - 1 * 1) with 0 by ring. xunf. unfold xdiv. destruct (Req_EM_T 0 0); [reflexivity|lra].
Qed.
End State.
