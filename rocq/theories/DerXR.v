(** * der2011 over the reals: the time equation, its derivatives and the
    velocities. *)
From Coq Require Import ZArith List Bool Lia Reals Lra Psatz.
From Coquelicot Require Import Coquelicot.
From Verif Require Import Num XReal XRealLemmas MApi MScipy MLinalg MAngles MDer RDerive UniversalKepler LambertUV LambertRev LambertZ DelatorreXR
  Spec VecFacts VecXR Loops CallXR Godal SpecLambert GodalXR GodalIzzo GodalMore MIzzo Hyp2F1 IzzoXR PropertiesDerivIzzo.
Local Open Scope R_scope.

Section Der.
Variable sg : R.
Hypothesis Hs : 0 < sg * sg < 1.

Let Y (x : R) : R := sqrt (1 - sg * sg * (1 - x * x)).
(** The direction of motion as a sign. *)
Definition sgn : R := if Rlt_dec 0 sg then 1 else -1.

Lemma sg_bounds : -1 < sg < 1.
Proof. split; nra. Qed.
Lemma sgn_sq : sgn * sgn = 1.
Proof. unfold sgn. destruct (Rlt_dec 0 sg); lra. Qed.
Lemma sgn_cases : (sgn = 1 /\ 0 < sg) \/ (sgn = -1 /\ sg < 0).
Proof. unfold sgn. destruct (Rlt_dec 0 sg) as [H|H]; [left; auto|right; split; [reflexivity|]]. assert (sg <> 0) by (intros ->; lra). lra. Qed.
Lemma Yf x : 0 < Y x /\ Y x * Y x = 1 - sg * sg * (1 - x * x).
Proof. apply Y_facts. apply sg_bounds. Qed.

Lemma der_y_val x : @der_y XR (Fin sg) (Fin x) = Fin (sgn * Y x).
Proof.
  destruct (der_y_F sg x Hs) as (y & E & E2 & Ed). rewrite E. apply (f_equal Fin). destruct (Yf x) as [P PE].
  destruct sgn_cases as [[-> L]|[-> L]].
  - assert (0 < y) by tauto. assert (y * y = Y x * Y x) by lra. nra.
  - assert (~ 0 < y) by (rewrite Ed; lra). assert (y * y = Y x * Y x) by lra. nra.
Qed.

Lemma der_clamp_id x : -1 <= x <= 1 -> @der_clamp XR (Fin x) = Fin x.
Proof.
  intros H. unfold der_clamp, pymin, pymax. xunf. cbn [xopp xlift1].
  destruct (xltb (Fin (- (1))) (Fin x)) eqn:E; [|apply xltb_Ff in E; replace (- (1)) with x by lra];
    destruct (xltb (Fin x) (Fin 1)) eqn:E1; try reflexivity; apply xltb_Ff in E1; apply (f_equal Fin); lra.
Qed.

Lemma Y_in x : -1 < x < 1 -> Rabs x < Y x < 1.
Proof.
  intros H. destruct (Yf x) as [P E]. assert (0 < 1 - x * x) by nra. split.
  - destruct (Rlt_dec (Rabs x) (Y x)) as [|N]; [assumption|exfalso].
    assert (Rabs x * Rabs x = x * x) by (unfold Rabs; destruct (Rcase_abs x); ring).
    assert (Y x * Y x <= Rabs x * Rabs x) by nra. nra.
  - nra.
Qed.
Lemma Y_out x : 1 < x -> 1 < Y x < x.
Proof. intros H. destruct (Yf x) as [P E]. assert (0 < x * x - 1) by nra. split; nra. Qed.

(** The angle between the two arccosines. *)
Lemma acos_difference x : -1 < x < 1 ->
  acos x - sgn * acos (Y x) = acos (x * Y x + sg * (1 - x * x)).
Proof.
  intros H. destruct (Yf x) as [P E]. destruct (Y_in x H) as [B1 B2].
  pose proof (Rle_abs x) as Ax. pose proof (Rle_abs (- x)) as Ay. rewrite Rabs_Ropp in Ay.
  pose proof (cos_acos x ltac:(lra)) as Ca. pose proof (cos_acos (Y x) ltac:(lra)) as Cb.
  destruct (acos_bound x) as [A1 A2]. destruct (acos_bound (Y x)) as [A3 A4].
  set (a := acos x) in *. set (b := acos (Y x)) in *.
  assert (Sa : 0 <= sin a) by (apply sin_ge_0; lra). assert (Sb : 0 <= sin b) by (apply sin_ge_0; lra).
  pose proof (sin2_cos2 a) as Ta. pose proof (sin2_cos2 b) as Tb. unfold Rsqr in Ta, Tb. rewrite Ca in Ta. rewrite Cb in Tb.
  assert (Q : 0 < 1 - x * x) by nra.
  assert (SS : sgn * (sin a * sin b) = sg * (1 - x * x)).
  { assert (Esb : sin b = sgn * sg * sin a).
    { assert (0 <= sgn * sg) by (destruct sgn_cases as [[-> ?]|[-> ?]]; lra). pose proof sgn_sq as W.
      assert (sin b * sin b = (sgn * sg * sin a) * (sgn * sg * sin a)).
      { transitivity ((sgn * sgn) * (sg * sg) * (sin a * sin a)); [rewrite W; nra|ring]. }
      assert (0 <= sgn * sg * sin a) by (apply Rmult_le_pos; lra). nra. }
    rewrite Esb. transitivity ((sgn * sgn) * sg * (sin a * sin a)); [ring|]. rewrite sgn_sq. replace (sin a * sin a) with (1 - x * x) by lra. ring. }
  (* b < a and a + b < PI *)
  assert (ba : b <= a).
  { destruct (Rle_dec b a) as [|N]; [assumption|exfalso]. apply Rnot_le_lt in N. pose proof (cos_decreasing_1 a b ltac:(lra) ltac:(lra) ltac:(lra) ltac:(lra) N). lra. }
  assert (ab : a + b <= PI).
  { destruct (Rle_dec (a + b) PI) as [|N]; [assumption|exfalso]. apply Rnot_le_lt in N.
    pose proof (cos_decreasing_1 (PI - b) a ltac:(lra) ltac:(lra) ltac:(lra) ltac:(lra) ltac:(lra)) as K.
    rewrite <- Rtrigo_facts.cos_pi_minus in K || idtac. replace (cos (PI - b)) with (- cos b) in K by (rewrite cos_minus, cos_PI, sin_PI; ring). lra. }
  rewrite <- SS, <- Ca at 1. rewrite <- Cb.
  destruct sgn_cases as [[-> _]|[-> _]].
  - replace (cos a * cos b + 1 * (sin a * sin b)) with (cos (a - b)) by (rewrite cos_minus; ring).
    rewrite acos_cos by lra. ring.
  - replace (cos a * cos b + -1 * (sin a * sin b)) with (cos (a + b)) by (rewrite cos_plus; ring).
    rewrite acos_cos by lra. ring.
Qed.

Lemma pow32 q : 0 < q -> @npow XR (Fin q) (@nlit XR 3 2) = Fin (q * sqrt q).
Proof.
  intros H. change (xpow (Fin q) (Fin (3 / 2)) = Fin (q * sqrt q)). rewrite xpow_F by assumption.
  apply (f_equal Fin). replace (3 / 2) with (1 + / 2) by field. rewrite Rpower_plus, Rpower_1, Rpower_sqrt by assumption. reflexivity.
Qed.

Lemma der_tof_elliptic_F x M : -1 < x < 1 ->
  @der_tof_elliptic XR (Fin sg) (Fin x) (@der_y XR (Fin sg) (Fin x)) M = Fin (T_ell sg M x).
Proof.
  intros H. rewrite der_y_val. destruct (Yf x) as [P E]. destruct (Y_in x H) as [B1 B2].
  pose proof (Rabs_pos x). pose proof sgn_sq as W. assert (Q : 0 < 1 - x * x) by nra. destruct (sqrt_facts _ Q) as [Q1 Q2].
  unfold der_tof_elliptic, der_acot_x, der_acot_y. rewrite (der_clamp_id x) by lra.
  change (@nsub XR (@nofZ XR 1) (@sq XR (Fin x))) with (Fin (1 - x * x)). rewrite pow32 by assumption.
  change (@nsub XR (@nofZ XR 1) (@sq XR (Fin (sgn * Y x)))) with (Fin (1 - sgn * Y x * (sgn * Y x))).
  assert (EY : 1 - sgn * Y x * (sgn * Y x) = sg * sg * (1 - x * x)).
  { transitivity (1 - sgn * sgn * (Y x * Y x)); [ring|]. rewrite W, E. ring. }
  assert (EC : (if @nleb XR (@nofZ XR 0) (Fin (sgn * Y x)) then @nacos XR (der_clamp (Fin (sgn * Y x))) else @nopp XR (@nacos XR (der_clamp (@nopp XR (Fin (sgn * Y x)))))) = Fin (sgn * acos (Y x))).
  { change (@nleb XR (@nofZ XR 0) (Fin (sgn * Y x))) with (xleb (Fin 0) (Fin (sgn * Y x))). change (@nopp XR (Fin (sgn * Y x))) with (Fin (- (sgn * Y x))).
    destruct sgn_cases as [[-> _]|[-> _]].
    - rewrite (proj2 (xleb_F _ _)) by lra. rewrite Rmult_1_l, der_clamp_id by lra. change (xacos (Fin (Y x)) = Fin (1 * acos (Y x))). rewrite xacos_F by lra. apply (f_equal Fin). ring.
    - rewrite (proj2 (xleb_Ff _ _)) by lra. replace (- (-1 * Y x)) with (Y x) by ring. rewrite der_clamp_id by lra.
      change (xlift1 Ropp (xacos (Fin (Y x))) = Fin (-1 * acos (Y x))). rewrite xacos_F by lra. apply (f_equal Fin). ring. }
  rewrite EC, EY. unfold pymax. xunf. assert (Q3 : 0 < sg * sg * (1 - x * x)) by (apply Rmult_lt_0_compat; lra).
  rewrite (proj2 (xltb_F _ _)) by lra. rewrite xacos_F by lra. rewrite !xsqrt_F by lra.
  cbn [xmul xadd xsub xopp xlift1 xlift2]. assert (0 < (1 - x * x) * sqrt (1 - x * x)) by (apply Rmult_lt_0_compat; lra).
  rewrite xdiv_F by lra. apply (f_equal Fin).
  unfold T_ell. fold (Y x). rewrite <- (acos_difference x H).
  assert (ES : sqrt (sg * sg * (1 - x * x)) = sgn * sg * sqrt (1 - x * x)).
  { rewrite sqrt_mult by lra. f_equal. change (sg * sg) with (Rsqr sg). rewrite sqrt_Rsqr_abs. destruct sgn_cases as [[-> L]|[-> L]]; [rewrite Rabs_pos_eq by lra|rewrite Rabs_left by lra]; ring. }
  rewrite ES. set (q := sqrt (1 - x * x)) in *. rewrite <- Q2.
  replace (sgn * Y x * (sgn * sg * q)) with (sgn * sgn * (Y x * sg * q)) by ring. rewrite W. field. lra.
Qed.

Lemma sinh_arcosh u : 1 <= u -> sinh (arcosh u) = sqrt (u * u - 1).
Proof.
  intros H. destruct (cosh_arcosh u H) as [C P]. pose proof (cosh_sinh_sq (arcosh u)) as E. rewrite C in E.
  assert (0 <= sinh (arcosh u)).
  { destruct (Req_dec (arcosh u) 0) as [-> |]; [rewrite sinh_0; lra|]. left. apply sinh_pos. lra. }
  symmetry. apply sqrt_lem_1; nra.
Qed.

Lemma arcosh_difference x : 1 < x ->
  arcosh x - sgn * arcosh (Y x) = arcsinh (sqrt (x * x - 1) * (Y x - sg * x)).
Proof.
  intros H. destruct (Yf x) as [P E]. destruct (Y_out x H) as [B1 B2]. assert (Q : 0 < x * x - 1) by nra. destruct (sqrt_facts _ Q) as [Q1 Q2].
  destruct (cosh_arcosh x) as [C1 D1]; [lra|]. destruct (cosh_arcosh (Y x)) as [C2 D2]; [lra|].
  pose proof (sinh_arcosh x ltac:(lra)) as S1. pose proof (sinh_arcosh (Y x) ltac:(lra)) as S2.
  assert (ES : sqrt (Y x * Y x - 1) = sgn * sg * sqrt (x * x - 1)).
  { replace (Y x * Y x - 1) with (sg * sg * (x * x - 1)) by lra. rewrite sqrt_mult by lra. f_equal. change (sg * sg) with (Rsqr sg). rewrite sqrt_Rsqr_abs. destruct sgn_cases as [[-> L]|[-> L]]; [rewrite Rabs_pos_eq by lra|rewrite Rabs_left by lra]; ring. }
  rewrite ES in S2. set (q := sqrt (x * x - 1)) in *. rewrite <- (arcsinh_sinh (arcosh x - sgn * arcosh (Y x))). f_equal.
  set (a := arcosh x) in *. set (b := arcosh (Y x)) in *.
  assert (SA : forall u v, sinh (u + v) = sinh u * cosh v + cosh u * sinh v).
  { intros u v. unfold sinh, cosh. rewrite Ropp_plus_distr, !exp_plus. field. }
  assert (SM : forall u v, sinh (u - v) = sinh u * cosh v - cosh u * sinh v).
  { intros u v. unfold sinh, cosh. replace (u - v) with (u + - v) by ring. rewrite Ropp_plus_distr, Ropp_involutive, !exp_plus. field. }
  destruct sgn_cases as [[EE _]|[EE _]]; rewrite EE in *.
  - rewrite Rmult_1_l, SM, S1, S2, C1, C2. ring.
  - replace (a - -1 * b) with (a + b) by ring. rewrite SA, S1, S2, C1, C2. ring.
Qed.

Lemma der_tof_hyperbolic_F x : 1 < x ->
  @der_tof_hyperbolic XR (Fin sg) (Fin x) (@der_y XR (Fin sg) (Fin x)) = Fin (T_hyp sg x).
Proof.
  intros H. rewrite der_y_val. destruct (Yf x) as [P E]. destruct (Y_out x H) as [B1 B2].
  pose proof sgn_sq as W. assert (Q : 0 < x * x - 1) by nra. destruct (sqrt_facts _ Q) as [Q1 Q2].
  unfold der_tof_hyperbolic, der_acoth.
  change (@nsub XR (@sq XR (Fin x)) (@nofZ XR 1)) with (Fin (x * x - 1)). rewrite pow32 by assumption.
  change (@nsub XR (@sq XR (Fin (sgn * Y x))) (@nofZ XR 1)) with (Fin (sgn * Y x * (sgn * Y x) - 1)).
  assert (EY : sgn * Y x * (sgn * Y x) - 1 = sg * sg * (x * x - 1)).
  { transitivity (sgn * sgn * (Y x * Y x) - 1); [ring|]. rewrite W, E. ring. }
  assert (EC : (if @nleb XR (@nofZ XR 0) (Fin (sgn * Y x)) then @nacosh XR (Fin (sgn * Y x)) else @nopp XR (@nacosh XR (@nopp XR (Fin (sgn * Y x))))) = Fin (sgn * arcosh (Y x))).
  { change (@nleb XR (@nofZ XR 0) (Fin (sgn * Y x))) with (xleb (Fin 0) (Fin (sgn * Y x))). change (@nopp XR (Fin (sgn * Y x))) with (Fin (- (sgn * Y x))).
    destruct sgn_cases as [[-> _]|[-> _]].
    - rewrite (proj2 (xleb_F _ _)) by lra. rewrite Rmult_1_l. change (xacosh (Fin (Y x)) = Fin (1 * arcosh (Y x))). rewrite xacosh_F by lra. apply (f_equal Fin). ring.
    - rewrite (proj2 (xleb_Ff _ _)) by lra. replace (- (-1 * Y x)) with (Y x) by ring.
      change (xlift1 Ropp (xacosh (Fin (Y x))) = Fin (-1 * arcosh (Y x))). rewrite xacosh_F by lra. apply (f_equal Fin). ring. }
  rewrite EC, EY. xunf. rewrite (proj2 (xleb_F 0 x)) by lra. unfold pymax. xunf. assert (Q3 : 0 < sg * sg * (x * x - 1)) by (apply Rmult_lt_0_compat; lra).
  rewrite (proj2 (xltb_F _ _)) by lra. rewrite xacosh_F by lra. rewrite !xsqrt_F by lra.
  cbn [xmul xadd xsub xopp xlift1 xlift2]. assert (0 < (x * x - 1) * sqrt (x * x - 1)) by (apply Rmult_lt_0_compat; lra).
  rewrite xdiv_F by lra. apply (f_equal Fin).
  unfold T_hyp. fold (Y x). rewrite <- (arcosh_difference x H).
  assert (ES : sqrt (sg * sg * (x * x - 1)) = sgn * sg * sqrt (x * x - 1)).
  { rewrite sqrt_mult by lra. f_equal. change (sg * sg) with (Rsqr sg). rewrite sqrt_Rsqr_abs. destruct sgn_cases as [[-> L]|[-> L]]; [rewrite Rabs_pos_eq by lra|rewrite Rabs_left by lra]; ring. }
  rewrite ES. replace (1 - x * x) with (- (x * x - 1)) by ring. set (q := sqrt (x * x - 1)) in *. rewrite <- Q2.
  replace (sgn * Y x * (sgn * sg * q)) with (sgn * sgn * (Y x * sg * q)) by ring. rewrite W. field. lra.
Qed.
End Der.

Lemma der_lambda p r1 r2 sg :
  non_collinear r1 r2 ->
  sg * sg = (vnorm r1 + vnorm r2 - chord r1 r2) / (vnorm r1 + vnorm r2 + chord r1 r2) ->
  0 < sg * sg < 1 -> (0 < sg <-> short_way p r1 r2) -> lambda_facts p r1 r2 sg.
Proof.
  intros Hn E B D. destruct (norms_pos _ _ Hn) as [N1 N2]. pose proof (chord_pos _ _ Hn) as Hc. split.
  - rewrite E. unfold semiper. field. lra.
  - intros ->. lra.
  - intros _. exact D.
Qed.

Lemma der_velocities_fg mu p r1 r2 sg x v1 v2 :
  non_collinear r1 r2 -> 0 < mu -> lambda_facts p r1 r2 sg -> 0 < sg * sg < 1 ->
  @der_velocities XR (Fin mu) (vfin r1) (vfin r2) (Fin (vnorm r1)) (Fin (vnorm r2)) (Fin (chord r1 r2))
    (Fin (vnorm r1 + vnorm r2 + chord r1 r2)) (Fin (vnorm r1 + vnorm r2 - chord r1 r2)) (Fin x) (@der_y XR (Fin sg) (Fin x))
    = (vfin v1, vfin v2) ->
  let y := sqrt (1 - sg * sg * (1 - x * x)) in
  fg_pair mu r1 r2 (sqrt 2 * semiper r1 r2 * sg) (semiper r1 r2 * ((y - sg * x) * (y - sg * x))) v1 v2.
Proof.
  intros Hn Hm LF Hs H y. destruct (norms_pos _ _ Hn) as [N1 N2]. pose proof (chord_pos _ _ Hn) as Hc.
  destruct (triangle _ _ Hn) as (T & _ & _). pose proof (lf_sq _ _ _ _ LF) as L2. pose proof (lf_nz _ _ _ _ LF) as Lz.
  destruct (Yf sg Hs x) as [Yp Y2]. fold y in Yp, Y2. rewrite der_y_val in H by assumption. fold y in H.
  pose proof (semiper_K r1 r2) as SK. destruct (semiper_pos _ _ Hn) as [S0 S1].
  assert (Em : vnorm r1 + vnorm r2 + chord r1 r2 = 2 * semiper r1 r2) by (unfold semiper; field).
  assert (En : vnorm r1 + vnorm r2 - chord r1 r2 = 2 * semiper r1 r2 * (sg * sg)) by (unfold semiper in *; lra).
  rewrite Em, En in H. clear Em En. set (s := semiper r1 r2) in *. set (c := chord r1 r2) in *.
  pose proof (sgn_sq sg) as W. pose proof (sgn_cases sg Hs) as WC. set (w := sgn sg) in *.
  unfold der_velocities in H. rewrite vsub_F in H.
  assert (Qn : sqrt (2 * s * (sg * sg)) = w * sg * sqrt (2 * s)).
  { rewrite sqrt_mult by lra. change (sg * sg) with (Rsqr sg). rewrite sqrt_Rsqr_abs. destruct WC as [[-> L]|[-> L]]; [rewrite Rabs_pos_eq by lra|rewrite Rabs_left by lra]; ring. }
  destruct (sqrt_facts (2 * s)) as [M1 M2]; [lra|]. destruct (sqrt_facts mu) as [U1 U2]; [lra|].
  assert (W1 : w * sg <> 0) by (destruct WC as [[-> L]|[-> L]]; lra). assert (W0 : w <> 0) by (intros E; rewrite E in W; lra).
  set (q := sqrt (2 * s)) in *. set (u := sqrt mu) in *.
  set (a := u * (y + sg * x) / (sg * q * c)). set (b := u * (y - sg * x) / (sg * q)).
  assert (Eta : 0 < y - sg * x) by (apply xy_eta; auto; [nra|lra]).
  assert (Eta' : 0 < y + sg * x).
  { replace (y + sg * x) with (y - sg * (- x)) by ring. apply xy_eta; auto; [nra|lra|]. rewrite Y2. ring. }
  assert (B0 : 0 < 2 * s * (sg * sg)) by (apply Rmult_lt_0_compat; lra).
  assert (V : v1 = vplus (vmult a (vminus r2 r1)) (vmult (b / vnorm r1) r1) /\ v2 = vminus (vmult a (vminus r2 r1)) (vmult (b / vnorm r2) r2)).
  { assert (A0 : @nmul XR (@nsqrt XR (Fin mu)) (@nadd XR (@ndiv XR (Fin (w * y)) (@nsqrt XR (Fin (2 * s * (sg * sg))))) (@ndiv XR (Fin x) (@nsqrt XR (Fin (2 * s))))) = Fin (a * c)).
    { xunf. rewrite !xsqrt_F by lra. fold q u. rewrite Qn. rewrite !xdiv_F by (try lra; apply Rmult_integral_contrapositive; split; lra).
      cbn [xmul xadd xlift2]. apply (f_equal Fin). unfold a. field; repeat split; lra. }
    assert (B1 : @nmul XR (@nsqrt XR (Fin mu)) (@nsub XR (@ndiv XR (Fin (w * y)) (@nsqrt XR (Fin (2 * s * (sg * sg))))) (@ndiv XR (Fin x) (@nsqrt XR (Fin (2 * s))))) = Fin b).
    { xunf. rewrite !xsqrt_F by lra. fold q u. rewrite Qn. rewrite !xdiv_F by (try lra; apply Rmult_integral_contrapositive; split; lra).
      cbn [xmul xadd xsub xlift2]. apply (f_equal Fin). unfold b. field; repeat split; lra. }
    rewrite A0, B1 in H. rewrite !vdivs_F, !vscale_F, vadd_F, vsub_F in H by lra.
    apply pair_equal_spec in H. destruct H as [H1 H2]. apply vfin_inj in H1, H2. subst v1 v2.
    clearbody a b. clear - Hc N1 N2. split; apply vec_eq; vunf; field; fold c; lra. }
  destruct V as [V1 V2].
  assert (EV : b / a = s * ((y - sg * x) * (y - sg * x))).
  { assert (D : (y - sg * x) * (y + sg * x) * s = c) by (transitivity ((y * y - sg * sg * (x * x)) * s); [ring|]; rewrite Y2; nra).
    unfold a, b. transitivity (c * (y - sg * x) / (y + sg * x)); [field; repeat split; lra|]. rewrite <- D. field. lra. }
  rewrite <- EV. apply ab_fg; try assumption.
  - assert (D : (y - sg * x) * (y + sg * x) * s = c) by (transitivity ((y * y - sg * sg * (x * x)) * s); [ring|]; rewrite Y2; nra).
    transitivity ((u * u) * ((y - sg * x) * (y + sg * x)) / (sg * sg * (q * q) * c) * Kgeo r1 r2); [unfold a, b; field; repeat split; lra|].
    rewrite U2, M2. replace (Kgeo r1 r2) with (2 * s * (s * (sg * sg))) by (unfold s in *; nra).
    transitivity (mu * ((y - sg * x) * (y + sg * x) * s) / c); [field; repeat split; lra|]. rewrite D. field. lra.

  - apply (lambda_A p); assumption.
  - destruct (sqrt_facts 2) as [W3 W4]; [lra|]. unfold a.
    replace (u * (y + sg * x) / (sg * q * c) * (sqrt 2 * s * sg)) with (u * (y + sg * x) * (sqrt 2 * s) / (q * c)) by (field; repeat split; lra).
    apply Rdiv_lt_0_compat; [|now apply Rmult_lt_0_compat].
    apply Rmult_lt_0_compat; now apply Rmult_lt_0_compat.
Qed.
