(** * mcelreath2025's equation, its roots and its derivatives: C51 and C27. *)
From Coq Require Import Reals ZArith Bool Lra Lia Psatz.
From Coquelicot Require Import Coquelicot.
From Verif Require Import Num XReal XRealLemmas MApi MLinalg MAngles MComplex MMcelreath MInit Spec SpecLambert VecFacts VecXR UniversalKepler LambertUV LambertRev LambertZ ZMono LambertUnique
  Godal GodalXR GodalIzzo GodalMore OrbitXR ApiFacts CallXR ComplexXR McelreathXR PropertiesAngles PropertiesMotion PropertiesOrbit PropertiesStumpff PropertiesUnique PropertiesMultiRev PropertiesNegrete.
Local Open Scope R_scope.

(** ** The unknown of the solver *)

(** [x] is the change of eccentric anomaly of a transfer with [M] complete
    revolutions: real for an ellipse, zero for a parabola, imaginary for a
    hyperbola. *)
Inductive anomaly (M : Z) : @cplx XR -> Prop :=
| anomaly_ell t : 2 * PI * IZR M < t < 2 * PI * (IZR M + 1) -> anomaly M (cr t)
| anomaly_hyp w : M = 0%Z -> 0 < w -> anomaly M (ci w).

(** The half-angle variable of [LambertZ] it stands for. *)
Inductive names (M : Z) : @cplx XR -> R -> Prop :=
| names_ell s : 0 < s < PI -> names M (cr (2 * s + 2 * PI * IZR M)) (s * s)
| names_par : M = 0%Z -> names M (cr 0) 0
| names_hyp s : M = 0%Z -> 0 < s -> names M (ci (2 * s)) (- (s * s)).

Lemma anomaly_names M x : anomaly M x -> exists z, z <> 0 /\ names M x z.
Proof.
  pose proof PI_RGT_0 as HP. intros [t H|w EM H].
  - set (s := t / 2 - PI * IZR M). replace t with (2 * s + 2 * PI * IZR M) by (unfold s; field). assert (Hs : 0 < s < PI) by (unfold s; lra). exists (s * s).
    split; [nra|]. now constructor.
  - replace w with (2 * (w / 2)) by field. exists (- (w / 2 * (w / 2))). split; [nra|]. constructor; [assumption|lra].
Qed.
Lemma names_range M x z : names M x z -> z < PI * PI /\ (M <> 0%Z -> 0 < z).
Proof. pose proof PI_RGT_0 as HP. intros [s H|H|s H H']; (split; [nra|intros; nra || contradiction]). Qed.

(** The sign [(-1)^M]. *)
Definition sgM (M : Z) : R := IZR ((-1) ^ M).
Lemma sgM_sq M : (0 <= M)%Z -> sgM M * sgM M = 1.
Proof.
  intros H. unfold sgM. rewrite <- mult_IZR. rewrite <- Z.pow_mul_l. change (-1 * -1)%Z with 1%Z. now rewrite Z.pow_1_l.
Qed.
Lemma sgM_turn M s : (0 <= M)%Z -> cos (s + PI * IZR M) = sgM M * cos s /\ sin (s + PI * IZR M) = sgM M * sin s.
Proof.
  unfold sgM. intros H. revert M H. apply natlike_ind.
  - rewrite Rmult_0_r, Rplus_0_r. cbn. lra.
  - intros M H [I1 I2]. rewrite Z.pow_succ_r by assumption. rewrite mult_IZR. unfold Z.succ. rewrite plus_IZR.
    replace (s + PI * (IZR M + IZR 1)) with (s + PI * IZR M + PI) by (change (IZR 1) with 1; ring). rewrite neg_cos, neg_sin, I1, I2. cbn. lra.
Qed.

Section Model.
Variables (mu : R) (r1 r2 : rvec) (p : bool) (th : R) (M : Z).
Hypothesis Hm : 0 < mu.
Hypothesis Hn : non_collinear r1 r2.
Hypothesis F : angle_facts p r1 r2 th.
Hypothesis HM : (0 <= M)%Z.
Let m0 := sqrt (vnorm r1 * vnorm r2) * cos (th / 2).
Let A := sqrt 2 * m0.
Let m := sgM M * m0.
Let Rs := vnorm r1 + vnorm r2.

Lemma mce_m_F : @mce_m XR (Fin (vnorm r1)) (Fin (vnorm r2)) (Fin th) M = Fin m.
Proof.
  destruct (norms_pos _ _ Hn) as [N1 N2]. assert (0 < vnorm r1 * vnorm r2) by now apply Rmult_lt_0_compat.
  unfold mce_m. xunf. cbn [xmul xlift2]. rewrite xsqrt_F by lra. rewrite xdiv_F by lra. cbn [xmul xlift1 xlift2]. apply (f_equal Fin). unfold m, m0, sgM. ring.
Qed.
Lemma mce_A : A * A = Kgeo r1 r2 /\ (0 < A <-> short_way p r1 r2).
Proof.
  destruct (norms_pos _ _ Hn) as [N1 N2]. assert (P : 0 < vnorm r1 * vnorm r2) by now apply Rmult_lt_0_compat.
  destruct (sqrt_facts _ P) as [Q1 Q2]. destruct (sqrt_facts 2) as [W1 W2]; [lra|]. split.
  - rewrite <- (af_K _ _ _ _ F). unfold A, m0. transitivity (sqrt 2 * sqrt 2 * (sqrt (vnorm r1 * vnorm r2) * sqrt (vnorm r1 * vnorm r2)) * (cos (th / 2) * cos (th / 2))); [ring|].
    rewrite W2, Q2, (af_half_sq _ _ _ _ F). field.
  - rewrite <- (af_half _ _ _ _ F). unfold A, m0. rewrite <- Rmult_assoc. assert (0 < sqrt 2 * sqrt (vnorm r1 * vnorm r2)) by now apply Rmult_lt_0_compat. split; intros; nra.
Qed.

(** The code's [cos (x / 2)] and its denominator. *)
Lemma names_cos x z : names M x z -> @ccos XR (@cscale XR (nlit 1 2) x) = cr (sgM M * C0 z).
Proof.
  intros [s H|H|s H H'].
  - rewrite mce_half_r, cr_cos. rewrite C0_ell by lra. apply cc_eq; [|reflexivity]. replace ((2 * s + 2 * PI * IZR M) / 2) with (s + PI * IZR M) by field. now apply sgM_turn.
  - rewrite mce_half_r, cr_cos. destruct at_0 as [-> _]. rewrite H. apply cc_eq; [|reflexivity]. replace (0 / 2) with 0 by field. rewrite cos_0. unfold sgM. cbn. ring.
  - rewrite mce_half_i, ci_cos. rewrite C0_hyp by lra. rewrite H. apply cc_eq; [|reflexivity]. replace (2 * s / 2) with s by field. unfold sgM. cbn. ring.
Qed.
Let V z := Rs - sqrt 2 * A * C0 z.
Lemma V_eq z : Rs - 2 * m * (sgM M * C0 z) = V z.
Proof.
  destruct (sqrt_facts 2) as [W1 W2]; [lra|]. unfold V, A, m. pose proof (sgM_sq M HM) as S.
  transitivity (Rs - 2 * (sgM M * sgM M) * m0 * C0 z); [ring|]. rewrite S. transitivity (Rs - (sqrt 2 * sqrt 2) * m0 * C0 z); [rewrite W2; ring|ring].
Qed.

(** *** Velocities *)
Lemma mce_pair x z v1 v2 : names M x z ->
  (@mce_velocities XR (Fin mu) (vfin r1) (vfin r2) (Fin (vnorm r1)) (Fin (vnorm r2)) (Fin th) (Fin m) x = (vfin v1, vfin v2) <->
   fg_pair mu r1 r2 A (V z) v1 v2).
Proof.
  intros HN. destruct (norms_pos _ _ Hn) as [N1 N2]. pose proof (chord_pos _ _ Hn) as C0'. unfold chord in C0'.
  pose proof (af_sin _ _ _ _ F) as S0. pose proof (af_cos _ _ _ _ F) as CB. destruct mce_A as [A2 As].
  unfold mce_velocities, mce_universal_values. cbv zeta. rewrite (names_cos x z HN). cbn [cre cr cc]. rewrite vsub_F, norm_F.
  set (c := vnorm (vminus r2 r1)) in *. 
  replace (@nsub XR (@nadd XR (Fin (vnorm r1)) (Fin (vnorm r2))) (@nmul XR (@nmul XR (nofZ 2) (Fin m)) (Fin (sgM M * C0 z)))) with (Fin (V z))
    by (rewrite <- V_eq; reflexivity).
  assert (P : 0 < vnorm r1 * vnorm r2) by now apply Rmult_lt_0_compat.
  set (K := vnorm r1 * vnorm r2 * (1 - cos th)). assert (K0 : 0 < K) by (apply Rmult_lt_0_compat; lra).
  set (k1 := vnorm r1 * vnorm r2 * sin th). assert (K1 : k1 <> 0) by (apply Rmult_integral_contrapositive; split; lra).
  (* the pair for positive V *)
  assert (E : 0 < V z ->
    @nmul XR (Fin c) (@nsqrt XR (@nmul XR (Fin mu) (@ndiv XR (Fin K) (Fin (V z))))) = Fin (c * sqrt (mu * (K / V z))) /\
    @nsqrt XR (@ndiv XR (Fin mu) (@ndiv XR (Fin K) (Fin (V z)))) = Fin (sqrt (mu / (K / V z)))).
  { intros HV. assert (0 < K / V z) by now apply Rdiv_lt_0_compat. xunf. rewrite xdiv_F by lra. cbn [xmul xlift2]. rewrite xdiv_F by lra.
    rewrite (xsqrt_F (mu * (K / V z))) by (left; now apply Rmult_lt_0_compat). rewrite (xsqrt_F (mu / (K / V z))) by (left; now apply Rdiv_lt_0_compat). split; reflexivity. }
  change (@nmul XR (@nmul XR (Fin (vnorm r1)) (Fin (vnorm r2))) (@nsub XR (nofZ 1) (@ncos XR (Fin th)))) with (Fin K).
  change (@nmul XR (@nmul XR (Fin (vnorm r1)) (Fin (vnorm r2))) (@nsin XR (Fin th))) with (Fin k1).
  change (@nsub XR (nofZ 1) (@ncos XR (Fin th))) with (Fin (1 - cos th)). change (@nsin XR (Fin th)) with (Fin (sin th)).
  assert (PV : 0 < V z -> let a := sqrt (mu * (K / V z)) / k1 in let b := sqrt (mu / (K / V z)) * (1 - cos th) / sin th in
    a * b * Kgeo r1 r2 = mu /\ 0 < a * A /\ b / a = V z).
  { intros HV a b. set (q := K / V z). assert (Q : 0 < q) by now apply Rdiv_lt_0_compat.
    assert (E1 : sqrt (mu / q) = sqrt (mu * q) / q) by now apply sqrt_div_mult. assert (Q0 : 0 < mu * q) by now apply Rmult_lt_0_compat.
    destruct (sqrt_facts _ Q0) as [R1 R2]. unfold a, b. fold q. rewrite E1. set (r := sqrt (mu * q)) in *.
    assert (SC : sin th * sin th = (1 - cos th) * (1 + cos th)) by (pose proof (sin2_cos2 th) as SC; unfold Rsqr in SC; lra).
    split; [|split].
    - rewrite <- (af_K _ _ _ _ F). unfold k1. apply Rmult_eq_reg_r with q; [|lra]. rewrite <- R2.
      transitivity (r * r * ((1 - cos th) * (1 + cos th)) / (sin th * sin th)); [field; repeat split; lra|]. rewrite <- SC. field. lra.
    - assert (G : 0 < sin th * A).
      { destruct (Rlt_dec 0 (sin th)) as [L|L].
        - assert (0 < A) by (apply As, (af_short _ _ _ _ F); assumption). now apply Rmult_lt_0_compat.
        - assert (~ 0 < A) by (intros X; apply L, (af_short _ _ _ _ F), As, X). assert (A <> 0) by (intros X; rewrite X in A2; pose proof (Kgeo_pos _ _ Hn); lra). nra. }
      replace (r / k1 * A) with (r / (vnorm r1 * vnorm r2) / (sin th * sin th) * (sin th * A)) by (unfold k1; field; repeat split; lra).
      apply Rmult_lt_0_compat; [|assumption]. apply Rdiv_lt_0_compat; [now apply Rdiv_lt_0_compat|nra].
    - transitivity (K / q); [unfold K, k1; field; repeat split; lra|]. unfold q. field. split; lra. }
  assert (FV : forall a b, 0 < V z -> a = sqrt (mu * (K / V z)) / k1 -> b = sqrt (mu / (K / V z)) * (1 - cos th) / sin th ->
    (@vadd XR (@vscale XR (Fin (c * sqrt (mu * (K / V z)) / k1)) (@vdivs XR (vfin (vminus r2 r1)) (Fin c))) (@vscale XR (Fin b) (@vdivs XR (vfin r1) (Fin (vnorm r1)))),
     @vsub XR (@vscale XR (Fin (c * sqrt (mu * (K / V z)) / k1)) (@vdivs XR (vfin (vminus r2 r1)) (Fin c))) (@vscale XR (Fin b) (@vdivs XR (vfin r2) (Fin (vnorm r2))))) =
    (vfin (vplus (vmult a (vminus r2 r1)) (vmult (b / vnorm r1) r1)), vfin (vminus (vmult a (vminus r2 r1)) (vmult (b / vnorm r2) r2)))).
  { intros a b HV Ea Eb. rewrite !vdivs_F by lra. rewrite !vscale_F, vadd_F, vsub_F. clear Eb. subst a. apply pair_equal_spec. split; apply f_equal, vec_eq; vunf; field; repeat split; lra. }
  split.
  - intros H.
    assert (HV : 0 < V z).
    { destruct (Rlt_dec 0 (V z)) as [|L]; [assumption|]. exfalso.
      assert (E0 : @nsqrt XR (@nmul XR (Fin mu) (@ndiv XR (Fin K) (Fin (V z)))) = NaN).
      { change (xsqrt (xmul (Fin mu) (xdiv (Fin K) (Fin (V z)))) = NaN). destruct (Req_dec (V z) 0) as [E0|E0].
        - rewrite E0. unfold xdiv, xlift2. destruct (Req_EM_T 0 0); [reflexivity|lra].
        - rewrite xdiv_F by assumption. cbn [xmul xlift2]. apply xsqrt_neg. assert (0 < - V z) by lra.
          assert (0 < mu * (K / - V z)) by (apply Rmult_lt_0_compat; [assumption|now apply Rdiv_lt_0_compat]).
          replace (mu * (K / V z)) with (- (mu * (K / - V z))) by (field; lra). lra. }
      rewrite E0 in H. apply pair_equal_spec in H. destruct H as [H _]. apply (f_equal vx) in H. discriminate H. }
    destruct (E HV) as [E1 E2]. destruct (PV HV) as (P1 & P2 & P3).
    rewrite E1, E2 in H. set (a := sqrt (mu * (K / V z)) / k1) in *. set (b := sqrt (mu / (K / V z)) * (1 - cos th) / sin th) in *.
    assert (X1 : @ndiv XR (Fin (c * sqrt (mu * (K / V z)))) (Fin k1) = Fin (c * sqrt (mu * (K / V z)) / k1)) by now apply xdiv_F.
    assert (X2 : @ndiv XR (@nmul XR (Fin (sqrt (mu / (K / V z)))) (Fin (1 - cos th))) (Fin (sin th)) = Fin b) by now apply xdiv_F.
    rewrite X1, X2, (FV a b HV eq_refl eq_refl) in H. apply pair_equal_spec in H. destruct H as [H1 H3]. apply vfin_inj in H1, H3.
    rewrite <- P3. apply ab_fg; [assumption|assumption|now symmetry|now symmetry|exact P1|exact A2|exact P2].
  - intros G. pose proof (fg_V _ _ _ _ _ _ _ G) as HV. destruct (E HV) as [E1 E2]. destruct (PV HV) as (P1 & P2 & P3). rewrite E1, E2.
    set (a := sqrt (mu * (K / V z)) / k1) in *. set (b := sqrt (mu / (K / V z)) * (1 - cos th) / sin th) in *.
    replace (@ndiv XR (Fin (c * sqrt (mu * (K / V z)))) (Fin k1)) with (Fin (c * sqrt (mu * (K / V z)) / k1)) by (symmetry; now apply xdiv_F).
    replace (@ndiv XR (@nmul XR (Fin (sqrt (mu / (K / V z)))) (Fin (1 - cos th))) (Fin (sin th))) with (Fin b) by (symmetry; now apply xdiv_F).
    rewrite (FV a b HV eq_refl eq_refl).
    assert (G' : fg_pair mu r1 r2 A (b / a) (vplus (vmult a (vminus r2 r1)) (vmult (b / vnorm r1) r1)) (vminus (vmult a (vminus r2 r1)) (vmult (b / vnorm r2) r2)))
      by (apply ab_fg; [assumption|assumption|reflexivity|reflexivity|exact P1|exact A2|exact P2]).
    rewrite P3 in G'. destruct G as [_ _ -> ->]. destruct G' as [_ _ -> ->]. reflexivity.
Qed.

(** *** The time *)
Lemma mce_time x z : names M x z -> z <> 0 -> 0 < V z ->
  @mce_tof_equation XR x (Fin Rs) (Fin m) = cr (sqrt mu * tz mu A (V z) z M).
Proof.
  intros HN Z0 HV. destruct (sqrt_facts _ Hm) as [M1 _]. destruct (sqrt_facts _ HV) as [V1 V2]. destruct (sqrt_facts 2) as [W1 W2]; [lra|].
  pose proof PI_RGT_0 as HP. pose proof (sgM_sq M HM) as SG. destruct HN as [s H|H|s H H']; [|contradiction|].
  - set (x := 2 * s + 2 * PI * IZR M). destruct (sgM_turn M s HM) as [TC TS].
    assert (Ex : x / 2 = s + PI * IZR M) by (unfold x; field). pose proof (sin_gt_0 s ltac:(lra) ltac:(lra)) as SP.
    assert (EY : my Rs m x = V (s * s)) by (unfold my; rewrite Ex, TC, <- V_eq, C0_ell by lra; reflexivity).
    assert (Sx : sin (x / 2) * sin (x / 2) = sin s * sin s) by (rewrite Ex, TS; transitivity (sgM M * sgM M * (sin s * sin s)); [ring|rewrite SG; ring]).
    assert (SN : sin (x / 2) <> 0) by (intros E; rewrite E in Sx; nra).
    rewrite mce_tof_r by (rewrite ?EY; assumption). apply cc_eq; [|reflexivity]. rewrite tz_ell by assumption.
    unfold mt. assert (EQ : mq Rs m x = sqrt 2 * sin s / sqrt (V (s * s))).
    { unfold mq, ma. rewrite EY, Sx. replace (2 * (sin s * sin s)) with ((sqrt 2 * sin s) * (sqrt 2 * sin s)) by (transitivity (sqrt 2 * sqrt 2 * (sin s * sin s)); [ring|rewrite W2; ring]).
      rewrite sqrt_div by nra. rewrite sqrt_square by nra. reflexivity. }
    rewrite EQ. replace (x - sin x) with (2 * s - sin (2 * s) + 2 * PI * IZR M) by (unfold x; rewrite sin_turn; ring).
    assert (Em : 2 * m * (sin (x / 2) / (sqrt 2 * sin s / sqrt (V (s * s)))) = A * sqrt (V (s * s))).
    { rewrite Ex, TS. unfold m, A. transitivity (2 * (sgM M * sgM M) * m0 * sqrt (V (s * s)) / sqrt 2); [field; lra|]. rewrite SG. replace 2 with (sqrt 2 * sqrt 2) at 1 by exact W2. field. lra. }
    rewrite Em. set (k := 2 * s - sin (2 * s) + 2 * PI * IZR M). set (v := sqrt (V (s * s))) in *. rewrite <- V2. set (w := sqrt 2) in *. set (q := sin s) in *. clearbody k v w q.
    transitivity (A * v + v * v * v * k / (w * w * w * (q * q * q))); [field; lra|]. rewrite W2. field. lra.
  - assert (S1' : sgM M = 1) by (rewrite H; reflexivity). assert (Em' : m = m0) by (unfold m; rewrite S1'; ring).
    assert (Ex : 2 * s / 2 = s) by field. assert (SP : 0 < sinh s) by (rewrite <- sinh_0; now apply sinh_lt).
    assert (EY : hy Rs m (2 * s) = V (- (s * s))) by (unfold hy; rewrite Ex, <- V_eq, C0_hyp, S1' by lra; ring).
    rewrite mce_tof_i by (rewrite ?EY; lra). apply cc_eq; [|reflexivity]. rewrite H, tz_hyp by assumption.
    unfold ht. assert (EQ : hq Rs m (2 * s) = sqrt 2 * sinh s / sqrt (V (- (s * s)))).
    { unfold hq, ha. rewrite EY, Ex. replace (2 * (sinh s * sinh s)) with ((sqrt 2 * sinh s) * (sqrt 2 * sinh s)) by (transitivity (sqrt 2 * sqrt 2 * (sinh s * sinh s)); [ring|rewrite W2; ring]).
      rewrite sqrt_div by nra. rewrite sqrt_square by nra. reflexivity. }
    rewrite EQ, Ex.
    assert (Em : 2 * m * (sinh s / (sqrt 2 * sinh s / sqrt (V (- (s * s))))) = A * sqrt (V (- (s * s)))).
    { rewrite Em'. unfold A. transitivity (2 * m0 * sqrt (V (- (s * s))) / sqrt 2); [field; lra|]. replace 2 with (sqrt 2 * sqrt 2) at 1 by exact W2. field. lra. }
    rewrite Em. set (k := sinh (2 * s) - 2 * s). set (v := sqrt (V (- (s * s)))) in *. rewrite <- V2. set (w := sqrt 2) in *. set (q := sinh s) in *. clearbody k v w q.
    transitivity (A * v + v * v * v * k / (w * w * w * (q * q * q))); [field; lra|]. rewrite W2. field. lra.
Qed.

Lemma mce_time_par : M = 0%Z -> 0 < V 0 -> @mce_parabolic_tof XR (Fin Rs) (Fin m) = Fin (sqrt mu * tz mu A (V 0) 0 0).
Proof.
  intros E HV. destruct (sqrt_facts _ Hm) as [M1 _]. destruct (sqrt_facts _ HV) as [V1 V2]. destruct (sqrt_facts 2) as [W1 W2]; [lra|].
  assert (Em : m = m0) by (unfold m, sgM; rewrite E; cbn; ring). assert (EV : Rs - 2 * m = V 0) by (rewrite <- V_eq; destruct at_0 as [-> _]; unfold sgM; rewrite E; cbn; ring).
  unfold mce_parabolic_tof, cube. xunf. cbn [xmul xsub xlift2]. rewrite EV. rewrite xsqrt_F by nra. cbn [xmul xlift2]. rewrite xdiv_F by lra. cbn [xadd xlift2].
  apply (f_equal Fin). rewrite tz_par by assumption. rewrite sqrt_mult by lra. rewrite Em. unfold A. set (v := sqrt (V 0)) in *. rewrite <- V2. set (w := sqrt 2) in *. clearbody v w.
  transitivity (w * m0 * v + (w * w) * w * (v * v * v) / 6); [field|]. rewrite W2. field. lra.
Qed.
End Model.

Lemma V_fg mu r1 r2 A V v1 v2 z x : fg_pair mu r1 r2 A V v1 v2 -> x - V = sqrt 2 * A * C0 z -> V = x - sqrt 2 * A * C0 z.
Proof. intros _ H. lra. Qed.

(** ** C51 *)

(** Every change of eccentric anomaly with [M] revolutions at which the code's
    velocities are defined stands for a transfer: they solve Lambert's problem
    with [M] revolutions in the requested sense, and the code's time equation
    is [sqrt mu] times the time of flight. *)
Theorem C51_mcelreath_time :
  forall mu r1 r2 M prograde x v1 v2,
  0 < mu -> vz (vcross r1 r2) <> 0 -> (0 <= M)%Z -> anomaly M x ->
  let n1 := @norm XR (vfin r1) in
  let n2 := @norm XR (vfin r2) in
  let th := @get_transfer_angle XR (vfin r1) (vfin r2) prograde in
  let m := @mce_m XR n1 n2 th M in
  @mce_velocities XR (Fin mu) (vfin r1) (vfin r2) n1 n2 th m x = (vfin v1, vfin v2) ->
  exists T, @mce_tof_equation XR x (nadd n1 n2) m = creal (Fin (sqrt mu * T)) /\
    lambert_solution mu r1 v1 r2 v2 T M /\ moves_as_requested prograde r1 v1.
Proof.
  intros mu r1 r2 M p x v1 v2 Hm Hz HM HA. pose proof (vz_non_collinear _ _ Hz) as Hn. cbv zeta. rewrite !norm_F.
  destruct (transfer_angle r1 r2 p Hn) as (th & ET & F). rewrite ET.
  rewrite (mce_m_F r1 r2 th M Hn). destruct (anomaly_names M x HA) as (z & Z0 & HN). destruct (names_range _ _ _ HN) as [Z1 Z2].
  rewrite (mce_pair mu r1 r2 p th M Hm Hn F HM x z v1 v2 HN). intros G. destruct (mce_A r1 r2 p th Hn F) as [A2 As].
  pose proof (fg_V _ _ _ _ _ _ _ G) as HV. eexists. split.
  - change (@nadd XR (Fin (vnorm r1)) (Fin (vnorm r2))) with (Fin (vnorm r1 + vnorm r2)). rewrite creal_F. exact (mce_time mu r1 r2 th M Hm HM x z HN Z0 HV).
  - split; [|exact (fg_moves mu r1 r2 _ _ v1 v2 p Hm Hz G As)]. apply fg_lambert; try assumption. ring.
Qed.
Print Assumptions C51_mcelreath_time.

(** The same for the parabola, [x = 0]. *)
Theorem C51_mcelreath_parabola :
  forall mu r1 r2 prograde v1 v2,
  0 < mu -> vz (vcross r1 r2) <> 0 ->
  let n1 := @norm XR (vfin r1) in
  let n2 := @norm XR (vfin r2) in
  let th := @get_transfer_angle XR (vfin r1) (vfin r2) prograde in
  let m := @mce_m XR n1 n2 th 0 in
  @mce_velocities XR (Fin mu) (vfin r1) (vfin r2) n1 n2 th m (creal (Fin 0)) = (vfin v1, vfin v2) ->
  exists T, @mce_parabolic_tof XR (nadd n1 n2) m = Fin (sqrt mu * T) /\
    lambert_solution mu r1 v1 r2 v2 T 0 /\ moves_as_requested prograde r1 v1.
Proof.
  intros mu r1 r2 p v1 v2 Hm Hz. pose proof (vz_non_collinear _ _ Hz) as Hn. cbv zeta. rewrite !norm_F.
  destruct (transfer_angle r1 r2 p Hn) as (th & ET & F). rewrite ET.
  rewrite (mce_m_F r1 r2 th 0 Hn). rewrite creal_F. assert (HN : names 0 (cr 0) 0) by now constructor. destruct (names_range _ _ _ HN) as [Z1 Z2].
  rewrite (mce_pair mu r1 r2 p th 0 Hm Hn F ltac:(lia) _ _ v1 v2 HN). intros G. destruct (mce_A r1 r2 p th Hn F) as [A2 As].
  pose proof (fg_V _ _ _ _ _ _ _ G) as HV. eexists. split.
  - change (@nadd XR (Fin (vnorm r1)) (Fin (vnorm r2))) with (Fin (vnorm r1 + vnorm r2)). exact (mce_time_par mu r1 r2 th 0 Hm ltac:(lia) eq_refl HV).
  - split; [|exact (fg_moves mu r1 r2 _ _ v1 v2 p Hm Hz G As)]. apply fg_lambert; try assumption; [lia|ring].
Qed.
Print Assumptions C51_mcelreath_parabola.

(** Conversely every transfer of the requested kind is a root of the equation
    the solver iterates on, or the parabola it treats separately. *)
Theorem C51_mcelreath_roots :
  forall mu r1 r2 v1 v2 tof M prograde,
  0 < mu -> vz (vcross r1 r2) <> 0 ->
  lambert_solution mu r1 v1 r2 v2 tof M -> moves_as_requested prograde r1 v1 ->
  let n1 := @norm XR (vfin r1) in
  let n2 := @norm XR (vfin r2) in
  let th := @get_transfer_angle XR (vfin r1) (vfin r2) prograde in
  let m := @mce_m XR n1 n2 th M in
  (M = 0%Z /\ @mce_parabolic_tof XR (nadd n1 n2) m = Fin (sqrt mu * tof) /\
   @mce_velocities XR (Fin mu) (vfin r1) (vfin r2) n1 n2 th m (creal (Fin 0)) = (vfin v1, vfin v2)) \/
  exists x, anomaly M x /\
    @mce_tof_equation XR x (nadd n1 n2) m = creal (Fin (sqrt mu * tof)) /\
    @mce_velocities XR (Fin mu) (vfin r1) (vfin r2) n1 n2 th m x = (vfin v1, vfin v2).
Proof.
  intros mu r1 r2 v1 v2 tof M p Hm Hz L D. pose proof (vz_non_collinear _ _ Hz) as Hn. cbv zeta. rewrite !norm_F.
  destruct (transfer_angle r1 r2 p Hn) as (th & ET & F). rewrite ET. rewrite (mce_m_F r1 r2 th M Hn).
  change (@nadd XR (Fin (vnorm r1)) (Fin (vnorm r2))) with (Fin (vnorm r1 + vnorm r2)).
  destruct (mce_A r1 r2 p th Hn F) as [A2 As]. pose proof PI_RGT_0 as HP.
  destruct (solution_fg _ _ _ _ _ _ _ Hm Hn L) as (HM & B & V & z & G & Hz1 & Hz2 & EC & ETz).
  set (A := sqrt 2 * (sqrt (vnorm r1 * vnorm r2) * cos (th / 2))) in *.
  assert (EB : B = A).
  { destruct (fg_sense _ _ _ _ _ _ _ Hm Hn G) as [B0 SB]. rewrite (sense_of_request _ _ _ _ _ _ _ _ Hm Hz L D), <- As in SB.
    pose proof (fg_A _ _ _ _ _ _ _ G) as X. unfold Kgeo in A2. assert (Z : (A - B) * (A + B) = 0) by lra.
    assert (A0 : A <> 0) by (intros E; rewrite E in A2; pose proof (Kgeo_pos _ _ Hn) as K; unfold Kgeo in K; lra).
    apply Rmult_integral in Z. destruct Z as [Z|Z]; [lra|]. exfalso.
    destruct (Rlt_dec 0 A) as [Q|Q]; [assert (0 < B) by tauto; lra|]. assert (0 < B) by lra. tauto. }
  rewrite EB in *. assert (EV : V = vnorm r1 + vnorm r2 - sqrt 2 * A * C0 z) by lra. pose proof (fg_V _ _ _ _ _ _ _ G) as HV. rewrite EV in G, HV, ETz.
  assert (PS : forall x, names M x z ->
    @mce_velocities XR (Fin mu) (vfin r1) (vfin r2) (Fin (vnorm r1)) (Fin (vnorm r2)) (Fin th) (Fin (sgM M * (sqrt (vnorm r1 * vnorm r2) * cos (th / 2)))) x = (vfin v1, vfin v2)).
  { intros x HN. apply (mce_pair mu r1 r2 p th M Hm Hn F HM x z v1 v2 HN). exact G. }
  destruct (Rtotal_order z 0) as [Z0|[Z0|Z0]].
  - right. assert (EM : M = 0%Z) by (destruct (Z.eq_dec M 0) as [|N]; [assumption|]; specialize (Hz2 N); lra).
    set (s := sqrt (- z)). assert (S0 : 0 < - z) by lra. destruct (sqrt_facts _ S0) as [S1' S2']. fold s in S1', S2'.
    assert (HN : names M (ci (2 * s)) z) by (replace z with (- (s * s)) by lra; now constructor).
    exists (ci (2 * s)). split; [apply anomaly_hyp; [assumption|lra]|]. split; [|now apply PS].
    rewrite creal_F, ETz. exact (mce_time mu r1 r2 th M Hm HM _ z HN ltac:(lra) HV).
  - left. assert (EM : M = 0%Z) by (destruct (Z.eq_dec M 0) as [|N]; [assumption|]; specialize (Hz2 N); lra). split; [assumption|].
    split; [|apply PS; rewrite Z0; now constructor]. rewrite ETz. rewrite Z0 in *. rewrite EM at 2. exact (mce_time_par mu r1 r2 th M Hm HM EM HV).
  - right. set (s := sqrt z). destruct (sqrt_facts _ Z0) as [S1' S2']. fold s in S1', S2'. assert (Hs : 0 < s < PI) by (split; [assumption|nra]).
    assert (HN : names M (cr (2 * s + 2 * PI * IZR M)) z) by (rewrite <- S2'; now constructor).
    exists (cr (2 * s + 2 * PI * IZR M)). split; [apply anomaly_ell; lra|]. split; [|now apply PS].
    rewrite creal_F, ETz. exact (mce_time mu r1 r2 th M Hm HM _ z HN ltac:(lra) HV).
Qed.
Print Assumptions C51_mcelreath_roots.

(** What the solver returns belongs to the abscissa it settled on, and answers
    the request exactly when the time equation there gives the requested time. *)
Theorem C51_mcelreath_answers :
  forall ev mu r1 r2 tof M prograde low_path maxiter atol rtol full_output o v1 v2,
  vz (vcross r1 r2) <> 0 ->
  @run XR McElreath ev (call mu r1 r2 tof M prograde low_path maxiter atol rtol full_output) = Ok o ->
  delivers o v1 v2 ->
  let n1 := @norm XR (vfin r1) in
  let n2 := @norm XR (vfin r2) in
  let th := @get_transfer_angle XR (vfin r1) (vfin r2) prograde in
  let m := @mce_m XR n1 n2 th M in
  exists x k,
    @mce_find_x XR (nmul (nsqrt (Fin mu)) (Fin tof)) n1 n2 m th M low_path maxiter (Fin atol) (Fin rtol) = Ok (x, k) /\
    (anomaly M x ->
     exists T, @mce_tof_equation XR x (nadd n1 n2) m = creal (Fin (sqrt mu * T)) /\
       lambert_solution mu r1 v1 r2 v2 T M /\ moves_as_requested prograde r1 v1 /\
       (lambert_solution mu r1 v1 r2 v2 tof M <-> T = tof)) /\
    (x = creal (Fin 0) -> M = 0%Z ->
     exists T, @mce_parabolic_tof XR (nadd n1 n2) m = Fin (sqrt mu * T) /\
       lambert_solution mu r1 v1 r2 v2 T 0 /\ moves_as_requested prograde r1 v1 /\
       (lambert_solution mu r1 v1 r2 v2 tof 0 <-> T = tof)).
Proof.
  intros ev mu r1 r2 tof M p l mi at_ rt fo o v1 v2 Hz H D. pose proof (vz_non_collinear _ _ Hz) as Hn. cbn [run] in H. cbv zeta.
  unfold mcelreath2025 in H. enter H.
  do 2 skip_check H. apply bind_ok in H. destruct H as ([x k] & EX & H). rewrite <- !norm_F in EX, H. finish H D. exists x, k. split; [exact EX|].
  split; [intros HA|intros EX0 EM].
  - destruct (C51_mcelreath_time mu r1 r2 M p x v1 v2 Hmu Hz HM HA EV) as (T & T1 & T2 & T3). exists T. split; [exact T1|]. split; [exact T2|]. split; [exact T3|].
    split; [intros T4; exact (time_unique _ _ _ _ _ _ _ _ Hmu Hn T2 T4)|intros <-; exact T2].
  - rewrite EX0, EM in EV. rewrite EM. destruct (C51_mcelreath_parabola mu r1 r2 p v1 v2 Hmu Hz EV) as (T & T1 & T2 & T3). exists T. split; [exact T1|]. split; [exact T2|]. split; [exact T3|].
    split; [intros T4; exact (time_unique _ _ _ _ _ _ _ _ Hmu Hn T2 T4)|intros <-; exact T2].
Qed.
Print Assumptions C51_mcelreath_answers.

(** The quarter turn: at [x = PI / 2] the hypotheses of [C51_mcelreath_time]
    hold with the circular velocities. *)
Example C51_case : anomaly 0 (creal (Fin (PI / 2))) /\ vz (vcross ex_r1 ex_r2) <> 0 /\
  let n1 := @norm XR (vfin ex_r1) in
  let n2 := @norm XR (vfin ex_r2) in
  let th := @get_transfer_angle XR (vfin ex_r1) (vfin ex_r2) true in
  pair (vfin (V3 0 1 0)) (vfin (V3 (-1) 0 0)) =
  @mce_velocities XR (Fin 1) (vfin ex_r1) (vfin ex_r2) n1 n2 th (@mce_m XR n1 n2 th 0) (creal (Fin (PI / 2))).
Proof.
  pose proof PI_RGT_0 as P. assert (AN : anomaly 0 (cr (PI / 2))) by (constructor; lra).
  assert (Z : vz (vcross ex_r1 ex_r2) <> 0) by (unfold ex_r1, ex_r2; vunf; lra).
  split; [exact AN|]. split; [exact Z|]. cbv zeta. rewrite creal_F. symmetry.
  pose proof (vz_non_collinear _ _ Z) as Hn. destruct ex_norms as [N1 [N2 DT]]. rewrite !norm_F.
  destruct (transfer_angle ex_r1 ex_r2 true Hn) as (th & ET & F). rewrite ET.
  rewrite (mce_m_F ex_r1 ex_r2 th 0 Hn). destruct (mce_A ex_r1 ex_r2 true th Hn F) as [A2 As].
  assert (HN : names 0 (cr (PI / 2)) (PI / 4 * (PI / 4))).
  { replace (PI / 2) with (2 * (PI / 4) + 2 * PI * IZR 0) by (cbn; field). constructor. lra. }
  rewrite (mce_pair 1 ex_r1 ex_r2 true th 0 Rlt_0_1 Hn F ltac:(lia) _ _ _ _ HN).
  assert (SW : short_way true ex_r1 ex_r2) by (unfold short_way, ex_r1, ex_r2; vunf; lra). apply As in SW.
  set (A := sqrt 2 * (sqrt (vnorm ex_r1 * vnorm ex_r2) * cos (th / 2))) in *. clearbody A.
  assert (E : vdot ex_r1 ex_r2 = 0) by (unfold ex_r1, ex_r2; vunf; ring).
  assert (A = 1) as ->. { unfold Kgeo in A2. rewrite N1, N2, E in A2. nra. }
  assert (EC : sqrt 2 * 1 * C0 (PI / 4 * (PI / 4)) = 1).
  { rewrite C0_ell by lra. rewrite cos_PI4. destruct (sqrt_facts 2) as [W1 W2]; [lra|]. field. lra. }
  rewrite EC, N1, N2. replace (1 + 1 - 1) with 1 by ring. split.
  - rewrite N1, N2, E. ring.
  - lra.
  - rewrite N1, sqrt_1. unfold ex_r1, ex_r2. vunf. f_equal; field.
  - rewrite N2, sqrt_1. unfold ex_r1, ex_r2. vunf. f_equal; field.
Qed.
