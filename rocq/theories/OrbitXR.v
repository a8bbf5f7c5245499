(** * Every returned pair of velocities has Godal's form, solver by solver. *)
From Coq Require Import Reals ZArith String List Bool Lra Lia Psatz.
From Verif Require Import Num XReal XRealLemmas MApi ApiFacts MScipy MLinalg MAssertions MAngles MComplex
  MVallado MIzzo MBattin MArora MDelatorre MGooding MJiang MPan MDer MThorne MMcelreath MNegrete
  Loops Spec VecFacts VecXR AnglesXR CallXR ValladoXR PropertiesMotion Godal GodalXR GodalIzzo GodalMore GodalPan.
Local Open Scope R_scope.

Lemma semiper_F r1 r2 :
  @ndiv XR (@nadd XR (@nadd XR (Fin (vnorm r1)) (Fin (vnorm r2))) (Fin (vnorm (vminus r2 r1)))) (nofZ 2)
  = Fin (semiper r1 r2).
Proof. xunf. cbn [xadd xlift2]. rewrite xdiv_F by lra. reflexivity. Qed.

Lemma delivers_inv full v1 v2 n t o w1 w2 :
  Ok (mk_out full v1 v2 n t) = Ok o -> delivers o w1 w2 -> v1 = vfin w1 /\ v2 = vfin w2.
Proof.
  intros H [D1 D2]. apply mk_out_inv in H. destruct H as [<- <-]. auto.
Qed.

Ltac enter H :=
  apply validated_call in H; destruct H as [(Hmu & H1 & H12 & Ht & HM) H];
  cbn [a_mu a_r1 a_r2 a_tof a_M a_is_prograde a_is_low_path a_maxiter a_atol a_rtol a_full_output call] in H;
  rewrite ?vsub_F, ?norm_F in H.
Ltac finish H D :=
  let V1 := fresh "V1" in let V2 := fresh "V2" in
  apply tpi_inv in H; destruct H as (tpi & H & _);
  match type of H with (let (_, _) := ?m in _) = _ => destruct m as [w1 w2] eqn:EV end;
  destruct (delivers_inv _ _ _ _ _ _ _ _ H D) as [-> ->].
Ltac skip_check H :=
  match type of H with
  | bind ?m _ = Ok _ => let E := fresh "EC" in destruct m as [[]|] eqn:E; [|discriminate H]; cbn [bind] in H
  end.

Ltac case_if H := match type of H with (if ?b then _ else _) = _ => destruct b end.

Lemma Break_inj {A S} (a b : A) : @Break A S a = Break b -> a = b.
Proof. intros H; now inversion H. Qed.

(** What pan2016 needs of the root finder of scipy: the abscissa it returns is
    one at which the function could be evaluated. *)
Definition brentq_evaluates {N : Num} (ev : env) : Prop :=
  forall f lo hi at_ rt n x k, e_brentq ev f lo hi at_ rt n = Ok (x, k) -> exists v, f x = Ok v.

Lemma pan_bezier_evaluates {N : Num} ev f lo hi n at_ rt x k :
  brentq_evaluates ev -> pan_bezier_root ev f lo hi n at_ rt = Ok (x, k) -> exists t, f x = Ok t.
Proof.
  intros HB EO. unfold pan_bezier_root in EO. apply bind_ok in EO. destruct EO as (f1 & _ & EO).
  apply bind_ok in EO. destruct EO as (f2 & _ & EO).
  destruct (for_range _ _ _ _) as [[x' k']|[[[[a1 a2] a3] a4] a5]|e] eqn:EF; [| |discriminate].
  - apply Ok_inj in EO. injection EO as -> ->.
    apply (for_range_inv _ (fun _ _ => True)) in EF; auto.
    destruct EF as (j & [[[[b1 b2] b3] b4] b5] & _ & _ & EF). unfold pan_bezier_body in EF.
    cbv zeta in EF. set (root := pan_clip _ _ _) in EF. clearbody root.
    destruct (f root) eqn:EP; [|discriminate].
    case_if EF; [|case_if EF; discriminate].
    apply Break_inj in EF. apply pair_equal_spec in EF. destruct EF as [<- _].
    eexists. exact EP.
  - apply bind_ok in EO. destruct EO as ([x' k'] & EB & EO). apply Ok_inj in EO. injection EO as -> _.
    exact (HB _ _ _ _ _ _ _ _ EB).
Qed.

Lemma pan_root_evaluates {N : Num} ev gm g tf n at_ rt omega it :
  brentq_evaluates ev -> pan_find_omega ev gm g tf n at_ rt = Ok (omega, it) ->
  exists t, pan_residual gm g tf omega = Ok t.
Proof.
  intros HB. unfold pan_find_omega. generalize 720%nat. intros m EO.
  destruct (pan_first_bracket _ _ _) as [[lo hi]|]; [|discriminate].
  exact (pan_bezier_evaluates _ _ _ _ _ _ _ _ _ HB EO).
Qed.

Section One.
Variables (ev : @env XR) (mu : R) (r1 r2 : rvec) (tof : R) (M : Z) (p low : bool) (mi : Z)
  (atol rtol : R) (full : bool) (o : @out XR) (v1 v2 : rvec).
Hypothesis Hn : non_collinear r1 r2.
Hypothesis D : delivers o v1 v2.
Let c := call mu r1 r2 tof M p low mi atol rtol full.

Lemma vallado_returns_godal clock fuel :
  @vallado2013 XR clock fuel c = Ok o -> godal mu p r1 r2 v1 v2.
Proof.
  intros H. unfold vallado2013, c in H. enter H.
  destruct (val_A_F r1 r2 p Hn) as (A & EA & HA2 & HA0 & HAs). rewrite EA in H.
  destruct (@neqb XR (Fin A) _); [discriminate|].
  destruct (for_range _ _ _ _) as [[[it psi] y]|st|e]; try discriminate.
  finish H D. eapply fg_velocities_godal; eauto.
Qed.

Lemma izzo_returns_godal :
  0 < mu -> @izzo2015 XR c = Ok o -> godal mu p r1 r2 v1 v2.
Proof.
  intros Hmu H. unfold izzo2015, c in H. skip_check H.
  cbn [a_mu a_r1 a_r2 a_tof a_M a_is_prograde a_is_low_path a_maxiter a_atol a_rtol a_full_output call] in H.
  rewrite !as_vec_of_vec in H. cbn [bind] in H.
  destruct (izzo_geometry_F r1 r2 p Hn) as (e & ll & t1 & t2 & EG & He & Hel & Hl & Et1 & Et2).
  rewrite EG in H. apply bind_ok in H. destruct H as ([x y] & EX & H).
  assert (Ey : y = @izzo_y XR x (Fin ll)).
  { unfold izzo_find_xy in EX. destruct (negb _); [discriminate|].
    apply bind_ok in EX. destruct EX as (mm & _ & EX). destruct (nltb _ _); [discriminate|].
    apply bind_ok in EX. destruct EX as (xx & _ & EX). apply Ok_inj in EX. now inversion EX. }
  subst y. destruct (izzo_velocities _ _ _ _ _ _ _ _ _ _ _ _) as [w1 w2] eqn:EV.
  apply Ok_inj in H. subst o. destruct D as [D1 D2]. cbn [out_v1 out_v2] in D1, D2. subst w1 w2.
  eapply izzo_velocities_godal; eauto.
Qed.

Lemma thorne_returns_godal :
  @thorne2004 XR ev c = Ok o -> godal mu p r1 r2 v1 v2.
Proof.
  intros H. unfold thorne2004, c in H. skip_check H. enter H. rewrite semiper_F in H.
  apply bind_ok in H. destruct H as ([[sma br] it] & _ & H).
  finish H D. eapply thorne_velocities_godal; eauto.
Qed.

Lemma delatorre_returns_godal :
  @delatorre2018 XR ev c = Ok o -> godal mu p r1 r2 v1 v2.
Proof.
  intros H. unfold delatorre2018, c in H. enter H.
  destruct (transfer_angle r1 r2 p Hn) as (th & ET & F). rewrite ET in H.
  apply bind_ok in H. destruct H as ([z it] & _ & H).
  destruct (tor_velocities _ _ _ _ _ _ _ _ _) as [w1 w2] eqn:EV.
  apply tpi_inv in H. destruct H as (tpi & H & _).
  destruct (delivers_inv _ _ _ _ _ _ _ _ H D) as [-> ->].
  eapply delatorre_velocities_godal; eauto.
Qed.

Lemma jiang_returns_godal :
  @jiang2016 XR ev c = Ok o -> godal mu p r1 r2 v1 v2.
Proof.
  intros H. unfold jiang2016, c in H. skip_check H. enter H.
  destruct (transfer_angle r1 r2 p Hn) as (th & ET & F). rewrite ET in H.
  do 2 skip_check H.
  apply bind_ok in H. destruct H as ([q it] & _ & H).
  apply bind_ok in H. destruct H as (tpi & _ & H).
  destruct (jia_velocities _ _ _ _ _ _ _) as [w1 w2] eqn:EV.
  destruct (delivers_inv _ _ _ _ _ _ _ _ H D) as [-> ->].
  eapply jiang_velocities_godal; eauto.
Qed.

Lemma mcelreath_returns_godal :
  @mcelreath2025 XR ev c = Ok o -> godal mu p r1 r2 v1 v2.
Proof.
  intros H. unfold mcelreath2025, c in H. enter H.
  destruct (transfer_angle r1 r2 p Hn) as (th & ET & F). rewrite ET in H.
  do 2 skip_check H.
  apply bind_ok in H. destruct H as ([q it] & _ & H).
  finish H D. eapply mcelreath_velocities_godal; eauto.
Qed.

Lemma negrete_returns_godal :
  @negrete2024 XR ev c = Ok o -> godal mu p r1 r2 v1 v2.
Proof.
  intros H. unfold negrete2024, c in H. enter H.
  destruct (transfer_angle r1 r2 p Hn) as (th & ET & F). rewrite ET in H.
  destruct (neg_A_F p r1 r2 th Hn F) as (A & EA & A2 & As). rewrite EA in H.
  do 2 skip_check H.
  apply bind_ok in H. destruct H as (z & _ & H).
  finish H D. eapply negrete_velocities_godal; eauto.
Qed.

Lemma battin_returns_form clock :
  @battin1984 XR clock c = Ok o ->
  exists a b, v1 = vplus (vmult a (vminus r2 r1)) (vmult (b / vnorm r1) r1) /\
    v2 = vminus (vmult a (vminus r2 r1)) (vmult (b / vnorm r2) r2) /\
    a * b * Kgeo r1 r2 = mu.
Proof.
  intros H. unfold battin1984, c in H. enter H. rewrite semiper_F in H.
  destruct (transfer_angle r1 r2 p Hn) as (th & ET & F). rewrite ET in H.
  destruct (bat_lambda_F p r1 r2 th Hn F) as (l & EL & LF & Lr).
  unfold chord in EL. rewrite EL in H.
  destruct (semiper_pos r1 r2 Hn) as [Hs _].
  rewrite bat_m_F in H by (try assumption; apply Lr).
  destruct (for_range _ _ _ _) as [[[it x] y]|st|e]; try discriminate.
  finish H D.
  destruct (battin_velocities_form mu p r1 r2 tof l x y v1 v2 Hn Hmu Ht LF Lr EV)
    as (a & b & xr & yr & _ & _ & E1 & E2 & E3 & _).
  exists a, b. auto.
Qed.

Lemma gooding_returns_godal :
  @gooding1990 XR ev c = Ok o -> godal mu p r1 r2 v1 v2.
Proof.
  intros H. unfold gooding1990, c in H. enter H.
  destruct (transfer_angle r1 r2 p Hn) as (th & ET & F). rewrite ET in H.
  skip_check H. apply bind_ok in H. destruct H as ([[[[[vr1 vt1] vr2] vt2] it] tp] & EV & H).
  destruct (delivers_inv _ _ _ _ _ _ _ _ H D) as [E1 E2].
  unfold vlamb in EV.
  change (@nadd XR (nmul (nmul (nofZ 2) npi) (nofZ M)) (Fin th)) with (Fin (2 * PI * IZR M + th)) in EV.
  destruct (goo_reduce _ _) as [[thr m]|st|e] eqn:ER; try discriminate.
  apply goo_reduce_F in ER; [|apply F|assumption]. destruct ER as [-> ->].
  destruct (goo_geometry _ _ _ _) as [[[[[mus s] k] q] rho] sig] eqn:EG.
  apply bind_ok in EV. destruct EV as ([[[[ns x1] x2] ni] tt] & _ & EV).
  set (x := if (1 <? ns)%Z then _ else _) in EV. clearbody x.
  destruct (goo_components _ _ _ _ _ _ _ _ _) as [[[a1 a2] a3] a4] eqn:EC2.
  apply Ok_inj in EV. do 5 (apply pair_equal_spec in EV; destruct EV as [EV ?]). subst a1 a2 a3 a4.
  eapply gooding_velocities_godal; eauto.
Qed.

Lemma arora_returns_k :
  @arora2013 XR ev c = Ok o ->
  let h := vnorm r2 / vnorm r1 in
  let T := sqrt (vnorm r1 * vnorm r1 * vnorm r1 / mu) in
  let S := sqrt ((1 + h) * (1 + h) * (1 + h)) in
  0 < mu /\ (0 <= M)%Z /\
  exists th d tau k tofp dpos j n,
    angle_facts p r1 r2 th /\ d * d = 1 /\ (0 < d <-> short_way p r1 r2) /\
    tau = d * sqrt (h * (1 + cos th)) / (1 + h) /\
    @aro_body XR dpos (Fin (tof / T)) tofp (Fin tau) (Fin S) M (Fin atol) j k = Break (n, k) /\
    @aro_velocities XR (Fin 1) (Fin (vnorm r1)) (Fin T) (vfin (vmult (/ vnorm r1) r1)) (vfin (vmult (/ vnorm r1) r2))
      (Fin 1) (Fin h) (Fin tau) (Fin S) k = (vfin v1, vfin v2).
Proof.
  intros H. unfold arora2013, c in H. enter H.
  destruct (transfer_angle r1 r2 p Hn) as (th & ET & F). rewrite ET in H.
  skip_check H. destruct (norms_pos _ _ Hn) as [N1 N2].
  set (h := vnorm r2 / vnorm r1). set (T := sqrt (vnorm r1 * vnorm r1 * vnorm r1 / mu)).
  assert (P3 : 0 < vnorm r1 * vnorm r1 * vnorm r1 / mu).
  { apply Rdiv_lt_0_compat; [|assumption]. repeat apply Rmult_lt_0_compat; assumption. }
  assert (Hh : 0 < h) by (apply Rdiv_lt_0_compat; assumption).
  assert (HT : 0 < T) by (apply sqrt_lt_R0; assumption).
  rewrite !vdivs_F in H by lra. rewrite !norm_F in H.
  rewrite !vnorm_mult in H. rewrite !(Rabs_pos_eq (/ vnorm r1)) in H
    by (apply Rlt_le; now apply Rinv_0_lt_compat).
  replace (/ vnorm r1 * vnorm r1) with 1 in H by (field; lra).
  replace (/ vnorm r1 * vnorm r2) with h in H by (unfold h; field; lra).
  replace (@nsqrt XR (@ndiv XR (@cube XR (Fin (vnorm r1))) (Fin mu))) with (Fin T) in H.
  2:{ clear H. unfold T, cube. xunf. cbn [xmul xlift2]. rewrite xdiv_F by lra. rewrite xsqrt_F by lra. reflexivity. }
  replace (@nmul XR (Fin mu) (@ndiv XR (@sq XR (Fin T)) (@cube XR (Fin (vnorm r1))))) with (Fin 1) in H.
  2:{ clear H. unfold sq, cube. xunf. cbn [xmul xlift2]. rewrite xdiv_F.
      - cbn [xmul xlift2]. f_equal. unfold T. rewrite sqrt_sqrt by lra. field. split; lra.
      - repeat apply Rmult_integral_contrapositive_currified; lra. }
  assert (S1 : 0 < (1 + h) * (1 + h) * (1 + h)) by (repeat apply Rmult_lt_0_compat; lra).
  replace (@nsqrt XR (@ndiv XR (@cube XR (@nadd XR (Fin 1) (Fin h))) (Fin 1)))
    with (Fin (sqrt ((1 + h) * (1 + h) * (1 + h)))) in H.
  2:{ clear H. unfold cube. xunf. cbn [xmul xadd xlift2]. rewrite xdiv_F by lra. unfold Rdiv.
      rewrite Rinv_1, Rmult_1_r. rewrite xsqrt_F by lra. reflexivity. }
  set (d := if Rle_dec th PI then 1 else -1).
  replace (if @nleb XR (Fin th) npi then @nofZ XR 1 else @nopp XR (@nofZ XR 1)) with (Fin d) in H.
  2:{ clear H. unfold d. xunf. unfold xleb. destruct (Rle_dec th PI); reflexivity. }
  assert (Dd : d * d = 1) by (unfold d; destruct (Rle_dec th PI); lra).
  assert (Ds : 0 < d <-> short_way p r1 r2).
  { unfold d. rewrite <- (af_pi _ _ _ _ F). pose proof (af_npi _ _ _ _ F).
    destruct (Rle_dec th PI); split; intros; lra. }
  set (tau := d * sqrt (h * (1 + cos th)) / (1 + h)).
  pose proof (af_cos _ _ _ _ F) as Hc.
  replace (@ndiv XR (@nmul XR (Fin d) (@nsqrt XR (@nmul XR (@nmul XR (Fin 1) (Fin h)) (@nadd XR (nofZ 1) (@ncos XR (Fin th))))))
             (@nadd XR (Fin 1) (Fin h))) with (Fin tau) in H.
  2:{ clear H. unfold tau. xunf. cbn [xmul xadd xlift2 xlift1]. rewrite Rmult_1_l, xsqrt_F.
      - cbn [xmul xlift2]. rewrite xdiv_F by lra. reflexivity.
      - apply Rmult_le_pos; lra. }
  replace (@ndiv XR (Fin tof) (Fin T)) with (Fin (tof / T)) in H by (symmetry; apply xdiv_F; lra).
  apply bind_ok in H. destruct H as (k0 & _ & H).
  destruct (for_range _ _ _ _) as [[it k]|st|e] eqn:EF; try discriminate.
  apply (for_range_inv _ (fun _ _ => True)) in EF; auto. destruct EF as (j & k' & _ & _ & EF).
  assert (k' = k) as ->.
  { revert EF. unfold aro_body. destruct (aro_W k' M); [|discriminate]. cbv zeta. destruct (nleb _ _); [|discriminate].
    intros E. apply Break_inj in E. apply pair_equal_spec in E. apply E. }
  finish H D. cbv zeta. split; [assumption|]. split; [assumption|].
  do 8 eexists. split; [exact F|]. split; [exact Dd|]. split; [exact Ds|]. split; [reflexivity|]. split; [exact EF|exact EV].
Qed.

Lemma arora_returns_godal :
  @arora2013 XR ev c = Ok o -> godal mu p r1 r2 v1 v2.
Proof.
  intros H. apply arora_returns_k in H. cbv zeta in H. destruct H as (Hmu & _ & th & d & tau & k & tp & dp & j & n & F & Dd & Ds & Et & _ & EV).
  eapply arora_velocities_godal; eauto.
Qed.

(** der2011, when the near-parabolic shortcut of der.py:150-151 is not taken. *)
Lemma der_returns_godal :
  (forall sg, 0 < sg * sg < 1 -> (0 < sg <-> short_way p r1 r2) ->
     sg * sg = (vnorm r1 + vnorm r2 - chord r1 r2) / (vnorm r1 + vnorm r2 + chord r1 r2) ->
     (M =? 0)%Z && @np_isclose XR
       (@der_normalized_time XR (Fin mu) (Fin (vnorm r1 + vnorm r2 + chord r1 r2)) (Fin tof))
       (@der_parabolic_time XR (Fin sg)) (Fin rtol) (Fin atol) = false) ->
  @der2011 XR ev c = Ok o -> godal mu p r1 r2 v1 v2.
Proof.
  intros NP H. unfold der2011, c in H. enter H.
  destruct (transfer_angle r1 r2 p Hn) as (th & ET & F). rewrite ET in H.
  do 2 skip_check H. fold (chord r1 r2) in H.
  change (@nadd XR (@nadd XR (Fin (vnorm r1)) (Fin (vnorm r2))) (Fin (chord r1 r2)))
    with (Fin (vnorm r1 + vnorm r2 + chord r1 r2)) in H.
  change (@nsub XR (@nadd XR (Fin (vnorm r1)) (Fin (vnorm r2))) (Fin (chord r1 r2)))
    with (Fin (vnorm r1 + vnorm r2 - chord r1 r2)) in H.
  destruct (der_sigma_F p r1 r2 th Hn F) as (sg & ES & S2 & Sr & Sd). rewrite ES in H.
  specialize (NP sg Sr Sd S2).
  do 2 skip_check H.
  apply bind_ok in H. destruct H as ([[x y] it] & EX & H).
  assert (Ey : y = @der_y XR (Fin sg) x).
  { unfold der_find_path_parameter in EX. rewrite NP in EX.
    assert (K1 : forall x0, @der_solve_elliptic XR ev (Fin sg)
      (@der_normalized_time XR (Fin mu) (Fin (vnorm r1 + vnorm r2 + chord r1 r2)) (Fin tof)) M x0 mi (Fin atol) (Fin rtol)
      = Ok (x, y, it) -> y = @der_y XR (Fin sg) x).
    { intros x0 K. unfold der_solve_elliptic in K.
      assert (B : der_solve_elliptic_bracketed ev (Fin sg)
        (@der_normalized_time XR (Fin mu) (Fin (vnorm r1 + vnorm r2 + chord r1 r2)) (Fin tof)) M x0 mi (Fin atol) (Fin rtol)
        = Ok (x, y, it) -> y = @der_y XR (Fin sg) x).
      { clear. unfold der_solve_elliptic_bracketed. destruct (if nltb _ _ then _ else _) as [lo hi].
        intros K. apply bind_ok in K. destruct K as ([x' it'] & _ & K).
        apply Ok_inj in K. do 2 (apply pair_equal_spec in K; destruct K as [K ?]). subst. auto. }
      destruct (for_range _ _ _ _) as [[r|]|st|e] eqn:EF; try exact (B K).
      apply Ok_inj in K. subst r. apply (for_range_inv _ (fun _ _ => True)) in EF; auto.
      destruct EF as (j & t & _ & _ & EF). unfold der_elliptic_body in EF.
      cbv zeta in EF. case_if EF; [inversion EF; auto|case_if EF; discriminate]. }
    assert (K2 : forall x0, @der_solve_hyperbolic XR ev (Fin sg)
      (@der_normalized_time XR (Fin mu) (Fin (vnorm r1 + vnorm r2 + chord r1 r2)) (Fin tof)) x0 mi (Fin atol) (Fin rtol)
      = Ok (x, y, it) -> y = @der_y XR (Fin sg) x).
    { intros x0 K. unfold der_solve_hyperbolic in K.
      assert (B : der_solve_hyperbolic_bracketed ev (Fin sg)
        (@der_normalized_time XR (Fin mu) (Fin (vnorm r1 + vnorm r2 + chord r1 r2)) (Fin tof)) mi (Fin atol) (Fin rtol)
        = Ok (x, y, it) -> y = @der_y XR (Fin sg) x).
      { clear. unfold der_solve_hyperbolic_bracketed. destruct (while_true _ _ _); try discriminate.
        intros K. apply bind_ok in K. destruct K as ([x' it'] & _ & K).
        apply Ok_inj in K. do 2 (apply pair_equal_spec in K; destruct K as [K ?]). subst. auto. }
      destruct (for_range _ _ _ _) as [[r|]|st|e] eqn:EF; try exact (B K).
      apply Ok_inj in K. subst r. apply (for_range_inv _ (fun _ _ => True)) in EF; auto.
      destruct EF as (j & t & _ & _ & EF). unfold der_hyperbolic_body in EF.
      cbv zeta in EF. case_if EF; [inversion EF; auto|].
      destruct (der_hyperbolic_derivatives _ _ _). case_if EF; discriminate. }
    destruct ((0 <? M)%Z || _); eauto. }
  subst y. finish H D. eapply der_velocities_godal; eauto.
Qed.

Lemma pan_returns_godal :
  brentq_evaluates ev -> @pan2016 XR ev c = Ok o -> godal mu p r1 r2 v1 v2.
Proof.
  intros HB H. unfold pan2016, c in H. skip_check H.
  pose proof H as H0. enter H.
  destruct (transfer_angle r1 r2 p Hn) as (th & ET & F). rewrite ET in H.
  do 2 skip_check H.
  destruct (np_isclose _ _ _ _); [now apply vallado_returns_godal in H|].
  set (g := pan_planar_geometry _ _ _ _) in H.
  destruct (pan_find_omega _ _ _ _ _ _ _) as [[omega it]|e] eqn:EO.
  2:{ destruct e; try discriminate H; now apply vallado_returns_godal in H. }
  destruct (pan_root_evaluates _ _ _ _ _ _ _ _ _ HB EO) as [t RT].
  unfold pan_residual, pan_tof_at_omega in RT.
  apply tpi_inv in H. destruct H as (tpi & H & _).
  apply bind_ok in H. destruct H as (el & EL & H). rewrite EL in RT. cbn [bind] in RT.
  apply bind_ok in RT. destruct RT as (t' & RT & _).
  apply bind_ok in H. destruct H as ([w1 w2] & EV & H).
  destruct (delivers_inv _ _ _ _ _ _ _ _ H D) as [-> ->].
  exact (pan_velocities_godal mu p r1 r2 th omega el t' v1 v2 Hn Hmu F EL RT EV).
Qed.

End One.
