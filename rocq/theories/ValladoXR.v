(** * vallado2013 in exact arithmetic. *)
From Coq Require Import Reals ZArith Bool Lra Lia Psatz.
From Coquelicot Require Import Coquelicot.
From Verif Require Import Num XReal XRealLemmas MApi ApiFacts MLinalg MAssertions MAngles MStumpff MVallado
  Spec SpecLambert VecFacts VecXR AnglesXR StumpffXR UniversalKepler LambertUV LambertRev Loops CallXR ValladoGen.
Local Open Scope R_scope.

(** Finite result of a division, with the divisor. *)
Lemma val_A_F r1 r2 p :
  vcross r1 r2 <> vzero ->
  exists A,
    @val_get_A XR (Fin (vnorm r1)) (Fin (vnorm r2))
       (@get_transfer_angle XR (vfin r1) (vfin r2) p) = Fin A /\
    A * A = vnorm r1 * vnorm r2 + vdot r1 r2 /\ A <> 0 /\ (0 < A <-> short_way p r1 r2).
Proof.
  intros H. destruct (@get_transfer_angle XR (vfin r1) (vfin r2) p) as [th|] eqn:E.
  2:{ rewrite get_transfer_angle_F in E by assumption. discriminate. }
  destruct (transfer_angle_facts r1 r2 p th H E) as (B & Hpi & C & S).
  pose proof (cosang_strict r1 r2 H) as D. unfold cosang in D. rewrite <- C in D.
  pose proof (vnorm_pos _ (vcross_nonzero_l _ _ H)) as H1.
  pose proof (vnorm_pos _ (vcross_nonzero_r _ _ H)) as H2.
  set (q := vnorm r1 * vnorm r2 * (1 + cos th)).
  assert (Hq : 0 < q) by (apply Rmult_lt_0_compat; [nra|lra]).
  destruct (sqrt_pos_facts q Hq) as [Q1 Q2].
  assert (Eq : q = vnorm r1 * vnorm r2 + vdot r1 r2).
  { unfold q. rewrite C. field. lra. }
  exists ((if Rlt_dec th PI then 1 else - 1) * sqrt q).
  split.
  - unfold val_get_A. xunf. unfold xmul, xadd; cbn [xlift1 xlift2]. fold q.
    rewrite xpow_half by lra.
    destruct (Rlt_dec th PI) as [L|L].
    + replace (xltb (Fin th) (Fin PI)) with true by (symmetry; apply xltb_F; lra). reflexivity.
    + replace (xltb (Fin th) (Fin PI)) with false by (symmetry; apply xltb_Ff; lra). reflexivity.
  - rewrite <- Eq. destruct (Rlt_dec th PI) as [L|L].
    + split; [transitivity (sqrt q * sqrt q); [ring|assumption]|]. split; [lra|]. split; [tauto|]. intros _. lra.
    + split; [transitivity (sqrt q * sqrt q); [ring|assumption]|]. split; [lra|]. split; [intros; lra|]. tauto.
Qed.

Lemma val_y_inv psi n1 n2 A y :
  @val_y_at_psi XR psi (Fin n1) (Fin n2) (Fin A) = Fin y ->
  exists p, psi = Fin p /\ S2 p <> 0 /\ y = n1 + n2 - A * S1 p / sqrt (S2 p).
Proof.
  unfold val_y_at_psi. intros H. xunf. xinv.
  match goal with H : c3 _ = Fin _ |- _ => apply c3_inv in H end.
  match goal with H : c2 _ = Fin _ |- _ => apply c2_inv in H end.
  xinv. subst. eexists. split; [reflexivity|]. split.
  - intros E. rewrite E, sqrt_0 in *. lra.
  - unfold S1. field. assumption.
Qed.

(** The stopping test, read off in real arithmetic. *)
Lemma val_test_inv mu psi A y tof rt :
  0 < mu ->
  @nltb XR (@nabs XR (@ndiv XR (@nsub XR (@val_tof XR (Fin mu) psi (@val_X_at_psi XR psi y) (Fin A) y)
     (Fin tof)) (Fin tof))) (Fin rt) = true ->
  exists p yr, psi = Fin p /\ y = Fin yr /\ 0 <= yr /\ S2 p <> 0 /\ tof <> 0 /\
    Rabs (((sqrt (yr / S2 p) * sqrt (yr / S2 p) * sqrt (yr / S2 p)) * S3 p
           + A * sqrt yr) / sqrt mu - tof) < rt * Rabs tof.
Proof.
  intros Hmu H. unfold val_tof, val_X_at_psi in H. xunf. xinv.
  repeat match goal with
  | H : c3 _ = Fin _ |- _ => apply c3_inv in H
  | H : c2 _ = Fin _ |- _ => apply c2_inv in H end.
  xinv. subst.
  eexists _, _. do 2 (split; [reflexivity|]). repeat (split; [assumption|]).
  match goal with H : Rabs (?a / tof) < rt |- _ => set (d := a) in * end.
  unfold Rdiv in *. rewrite Rabs_mult, Rabs_inv in *.
  assert (0 < Rabs tof) by (now apply Rabs_pos_lt).
  match goal with H : ?a * / ?b < rt |- ?a < _ =>
    apply Rmult_lt_reg_r with (/ b); [now apply Rinv_0_lt_compat|];
    rewrite Rmult_assoc, Rinv_r by lra; lra end.
Qed.

(** ** The iterates stay below [4 pi^2] *)
Lemma S3_ge_sixth psi : psi < 0 -> 1 / 6 <= S3 psi.
Proof.
  intros H. unfold S3, U3. rewrite !Rmult_1_r. destruct (Rlt_dec 0 psi) as [L|_]; [lra|].
  destruct (Rlt_dec psi 0) as [_|L]; [|contradiction].
  destruct (sqrt_pos_facts (- psi)) as [Q1 Q2]; [lra|]. set (s := sqrt (- psi)) in *. clearbody s.
  replace (- psi) with (s * s). assert (E : s * s * s / 6 <= sinh s - s).
  { destruct (MVT_cor2 (fun t => sinh t - t - t * t * t / 6) (fun t => cosh t - 1 - t * t / 2) 0 s Q1) as (c & E & Hc).
    - intros c _. apply is_derive_Reals. auto_derive; [trivial|]. unfold sinh, cosh. field.
    - rewrite sinh_0 in E. assert (0 <= cosh c - 1 - c * c / 2); [|nra].
      replace c with (2 * (c / 2)) at 1 by field. rewrite cosh_double.
      pose proof (sinh_gt_self (c / 2) ltac:(lra)). nra. }
  apply Rmult_le_reg_r with (s * s * s); [repeat apply Rmult_lt_0_compat; assumption|].
  set (d := sinh s - s) in *. replace (d / (s * s * s) * (s * s * s)) with d by (field; lra). lra.
Qed.
Lemma val_y_neg ps n1 n2 A :
  0 < n1 -> 0 < n2 -> 0 < A -> A * A < 2 * (n1 * n2) -> ps < 4 * (PI * PI) ->
  n1 + n2 - A * S1 ps / sqrt (S2 ps) < 0 -> ps < 0.
Proof.
  intros H1 H2 HA HA2 Hps Hy. destruct (Rlt_dec ps 0) as [|N]; [assumption|]. exfalso.
  set (z := ps / 4). replace ps with (4 * z) in * by (unfold z; field).
  assert (Hz : z < PI * PI) by lra. pose proof (S1_pos z Hz) as P1.
  rewrite S1_double, S2_double in Hy. destruct (sqrt_pos_facts 2) as [W1 W2]; [lra|].
  rewrite sqrt_div, sqrt_square in Hy by nra.
  replace (A * (S1 z * C0 z) / (S1 z / sqrt 2)) with (sqrt 2 * A * C0 z) in Hy by (field; lra).
  assert (C : C0 z <= 1).
  { unfold C0, U0. destruct (Rlt_dec 0 z); [apply COS_bound|]. destruct (Rlt_dec z 0); lra. }
  assert (Q : (sqrt 2 * A) * (sqrt 2 * A) < (n1 + n2) * (n1 + n2)).
  { replace ((sqrt 2 * A) * (sqrt 2 * A)) with ((sqrt 2 * sqrt 2) * (A * A)) by ring. rewrite W2.
    pose proof (Rle_0_sqr (n1 - n2)) as S. unfold Rsqr in S. lra. }
  set (q := sqrt 2 * A) in *. assert (0 < q) by (unfold q; nra). assert (q < n1 + n2) by nra. nra.
Qed.

Definition below (x : xr) : Prop := forall p, x = Fin p -> p < 4 * (PI * PI).
Definition upto (x : xr) : Prop := forall p, x = Fin p -> p <= 4 * (PI * PI).

Lemma xpow_half_inv x r : xpow x (Fin (1 / 2)) = Fin r -> exists y, x = Fin y.
Proof. destruct x as [y|]; [eauto|discriminate]. Qed.

Lemma readjust_below n1 n2 A fuel lo psi st :
  0 < n1 -> 0 < n2 -> 0 < A -> A * A < 2 * (n1 * n2) -> below lo -> below psi ->
  @val_readjust XR (Fin n1) (Fin n2) (Fin A) fuel lo psi (@val_y_at_psi XR psi (Fin n1) (Fin n2) (Fin A)) = Break st ->
  let '(lo', psi', _) := st in below lo' /\ below psi'.
Proof.
  intros H1 H2 HA HA2 Hlo Hpsi H. unfold val_readjust in H.
  apply (while_true_inv _ (fun st => let '(lo', psi', y') := st in below lo' /\ below psi' /\
    y' = @val_y_at_psi XR psi' (Fin n1) (Fin n2) (Fin A))) in H.
  - destruct H as ([[l q] y] & (B1 & B2 & _) & Hb). destruct (nltb y _); [discriminate|].
    inversion Hb; subst st. now split.
  - auto.
  - intros [[l q] y] [[l' q'] y'] (B1 & B2 & Ey) Hb. destruct (nltb y _) eqn:EL; [|discriminate].
    destruct y as [yr|]; [|discriminate EL]. apply (proj1 (xltb_F yr 0)) in EL.
    symmetry in Ey. apply val_y_inv in Ey. destruct Ey as (p & -> & Hc & Ey).
    assert (Hp : p < 0). { apply (val_y_neg p n1 n2 A); try assumption; [now apply B2|lra]. }
    injection Hb as <- <- <-. split; [exact B2|]. split; [|reflexivity].
    intros p' E. rewrite c2_F, c3_F in E. pose proof (S3_ge_sixth p Hp) as G. pose proof (S2_nonneg p) as N2.
    revert E. xunf. rewrite xsqrt_F by assumption. unfold xdiv. cbn [xmul xlift2 xsub].
    destruct (Req_EM_T (S3 p) 0) as [Z|_]; [lra|]. destruct (Req_EM_T A 0) as [Z|_]; [lra|]. cbn [xmul xsub xlift2].
    intros E. apply Fin_inj in E. subst p'. pose proof PI2_3_2 as P3. unfold PI2 in P3.
    assert (0 <= n1 * n2 * sqrt (S2 p) / A).
    { apply Rmult_le_pos; [|left; now apply Rinv_0_lt_compat]. apply Rmult_le_pos; [nra|apply sqrt_pos]. }
    assert (I : 0 < 1 / S3 p <= 6).
    { split; [apply Rdiv_lt_0_compat; lra|]. apply Rmult_le_reg_r with (S3 p); [lra|]. unfold Rdiv. rewrite Rmult_assoc, Rinv_l by lra. lra. }
    set (e := n1 * n2 * sqrt (S2 p) / A) in *. set (i := 1 / S3 p) in *. clearbody e i.
    assert (i * e >= 0) by nra. nra.
Qed.

Lemma val_loop_below mu tof rt n1 n2 A fuel n it psi y :
  0 < n1 -> 0 < n2 -> A * A < 2 * (n1 * n2) ->
  for_range (@val_body XR (Fin mu) (Fin tof) (Fin rt) (Fin n1) (Fin n2) (Fin A) fuel) n 1
    (@nofZ XR 0, @nmul XR (nopp (nofZ 4)) (sq npi), @nmul XR (nofZ 4) (sq npi)) = Break (it, psi, y) ->
  below psi.
Proof.
  intros H1 H2 HA2 H.
  assert (Step : forall j st r, (let '(psi, lo, up) := st in below psi /\ below lo /\ upto up) ->
    @val_body XR (Fin mu) (Fin tof) (Fin rt) (Fin n1) (Fin n2) (Fin A) fuel j st = r ->
    match r with
    | Break (_, psi, _) => below psi
    | Next (psi, lo, up) => below psi /\ below lo /\ upto up
    | Raise _ => True
    end).
  { intros j [[ps lo] up] r (B1 & B2 & B3) Hb. unfold val_body in Hb.
    set (rd := if @nltb XR (nofZ 0) (Fin A) then _ else _) in Hb.
    assert (K : match rd with Break (lo', psi', _) => below lo' /\ below psi' | Next _ => False | Raise _ => True end).
    { unfold rd. destruct (@nltb XR (nofZ 0) (Fin A)) eqn:EA.
      - apply (proj1 (xltb_F 0 A)) in EA.
        destruct (val_readjust _ _ _ _ _ _ _) as [[[lo' psi'] y']|st|e] eqn:E; [|exact (while_true_not_next _ _ _ _ E)|trivial].
        now apply readjust_below in E.
      - now split. }
    destruct rd as [[[lo' psi'] y']|st|e]; [|contradiction|subst r; trivial].
    destruct K as [K1 K2]. destruct (@nltb XR _ (Fin rt)); [subst r; exact K2|].
    subst r. set (cd := nleb _ _). clearbody cd. cbv zeta.
    assert (L' : below (@nadd XR lo' (@nmul XR (@nsub XR psi' lo') (if cd then @nofZ XR 1 else @nofZ XR 0)))).
    { intros q E. destruct cd; xunf; destruct lo' as [a|]; try discriminate E; destruct psi' as [b|]; try discriminate E;
        cbn in E; apply Fin_inj in E; subst q; pose proof (K1 a eq_refl); pose proof (K2 b eq_refl); lra. }
    assert (U' : upto (@nadd XR up (@nmul XR (@nsub XR psi' up) (if negb cd then @nofZ XR 1 else @nofZ XR 0)))).
    { intros q E. destruct cd; xunf; destruct up as [a|]; try discriminate E; destruct psi' as [b|]; try discriminate E;
        cbn in E; apply Fin_inj in E; subst q; pose proof (B3 a eq_refl); pose proof (K2 b eq_refl); lra. }
    split; [|split; [exact L'|exact U']].
    intros q E. set (lo2 := @nadd XR lo' _) in *. set (up2 := @nadd XR up _) in *. clearbody lo2 up2.
    destruct lo2 as [a|]; [|destruct up2; discriminate E]. destruct up2 as [b|]; [|discriminate E].
    revert E. xunf. cbn [xadd xlift2]. rewrite xdiv_F by lra. intros E. apply Fin_inj in E. subst q.
    pose proof (L' a eq_refl). pose proof (U' b eq_refl). lra. }
  pose proof PI_RGT_0 as HP.
  apply (for_range_inv _ (fun _ (st : xr * xr * xr) => let '(psi, lo, up) := st in below psi /\ below lo /\ upto up)) in H.
  - destruct H as (j & [[q lo] up] & _ & B & Hb). exact (Step j (q, lo, up) _ B Hb).
  - unfold sq. repeat split; intros q E; cbn in E; apply Fin_inj in E; subst q; nra.
  - intros j st [[q lo] up] _ B Hb. exact (Step j st _ B Hb).
Qed.

(** Soundness: the returned velocities solve Lambert's problem. *)
Theorem vallado_sound clock fuel mu r1 r2 tof M p l mi at_ rt fo o :
  non_collinear r1 r2 -> rt <= 1 ->
  @vallado2013 XR clock fuel (call mu r1 r2 tof M p l mi at_ rt fo) = Ok o ->
  exists v1 v2 T,
    out_v1 o = vfin v1 /\ out_v2 o = vfin v2 /\
    lambert_solution mu r1 v1 r2 v2 T 0 /\ Rabs (T - tof) < rt * tof /\
    (exists k, 0 < k /\
       momentum r1 v1 = vmult (if short_way_dec p r1 r2 then k else - k) (vcross r1 r2)).
Proof.
  intros Hnc Hrt H. unfold vallado2013 in H. apply validated_call in H.
  destruct H as [(Hmu & H1 & H12 & Ht & HM) H].
  cbn [call a_mu a_tof a_is_prograde a_rtol a_maxiter a_full_output] in H.
  rewrite !norm_F in H.
  destruct (val_A_F r1 r2 p Hnc) as (A & EA & HA2 & HA0 & HAs). rewrite EA in H.
  destruct (@neqb XR (Fin A) _) eqn:E0.
  { apply (proj1 (xeqb_F A 0)) in E0. contradiction. }
  destruct (for_range _ _ _ _) as [[[it psi] y]|st|e] eqn:EL; try discriminate.
  pose proof (vnorm_pos _ (vcross_nonzero_l _ _ Hnc)) as N1.
  pose proof (vnorm_pos _ (vcross_nonzero_r _ _ Hnc)) as N2.
  assert (HA2' : A * A < 2 * (vnorm r1 * vnorm r2)).
  { rewrite HA2. pose proof (cauchy_strict _ _ Hnc) as C. rewrite <- !vnorm_sq in C.
    assert (P0 : 0 < vnorm r1 * vnorm r2) by now apply Rmult_lt_0_compat.
    destruct (Rlt_dec (vdot r1 r2) (vnorm r1 * vnorm r2)) as [|N]; [lra|]. exfalso.
    assert (vnorm r1 * vnorm r2 * (vnorm r1 * vnorm r2) <= vdot r1 r2 * vdot r1 r2) by (apply Rmult_le_compat; lra).
    lra. }
  pose proof (val_loop_below _ _ _ _ _ _ _ _ _ _ _ N1 N2 HA2' EL) as Hbel.
  apply (@val_loop_break XR) in EL. destruct EL as (_ & Ey & Et).
  apply val_test_inv in Et; [|assumption].
  destruct Et as (ps & yr & -> & -> & Hy0 & Hc2 & Ht0 & Hlt).
  symmetry in Ey. apply val_y_inv in Ey. destruct Ey as (ps' & E & _ & Ey).
  apply Fin_inj in E. subst ps'.
  rewrite (Rabs_right tof) in Hlt by lra.
  assert (Hypos : 0 < yr).
  { destruct Hy0 as [|<-]; [assumption|]. exfalso.
    replace (0 / S2 ps) with 0 in Hlt by (unfold Rdiv; ring). rewrite sqrt_0 in Hlt.
    replace ((0 * 0 * 0 * S3 ps + A * 0) / sqrt mu - tof) with (- tof) in Hlt
      by (unfold Rdiv; ring).
    rewrite Rabs_Ropp, Rabs_right in Hlt by lra. nra. }
  destruct (sqrt_pos_facts mu Hmu) as [M1 M2]. destruct (sqrt_pos_facts yr Hypos) as [Y1 Y2].
  set (g := A * sqrt yr / sqrt mu) in *.
  assert (Hg : g <> 0).
  { unfold g. apply Rmult_integral_contrapositive_currified; [|apply Rinv_neq_0_compat; lra].
    apply Rmult_integral_contrapositive_currified; lra. }
  unfold val_velocities in H.
  assert (Eg : @nmul XR (Fin A) (@nsqrt XR (@ndiv XR (Fin yr) (Fin mu))) = Fin g).
  { xunf. rewrite xdiv_F by lra. rewrite xsqrt_F by (left; now apply Rdiv_lt_0_compat).
    cbn. rewrite sqrt_div by lra. unfold g. f_equal. field. lra. }
  rewrite Eg in H. 
  assert (Ef1 : @nsub XR (nofZ 1) (@ndiv XR (Fin yr) (Fin (vnorm r1))) = Fin (1 - yr / vnorm r1)).
  { xunf. rewrite xdiv_F by lra. reflexivity. }
  assert (Ef2 : @nsub XR (nofZ 1) (@ndiv XR (Fin yr) (Fin (vnorm r2))) = Fin (1 - yr / vnorm r2)).
  { xunf. rewrite xdiv_F by lra. reflexivity. }
  rewrite Ef1, Ef2 in H. rewrite !vscale_F, !vsub_F, !vdivs_F in H by assumption.
  set (v1 := vmult (/ g) (vminus r2 (vmult (1 - yr / vnorm r1) r1))) in *.
  set (v2 := vmult (/ g) (vminus (vmult (1 - yr / vnorm r2) r2) r1)) in *.
  apply (@tpi_inv XR) in H. destruct H as (t & H & _).
  exists v1, v2. eexists. injection H as <-.
  split; [now destruct fo|]. split; [now destruct fo|].
  split.
  { eapply (uv_solution mu r1 r2 v1 v2 A ps yr 0); auto; try lia.
    specialize (Hbel ps eq_refl). destruct (Rlt_dec 0 ps) as [L|L]; [right|left; split; [lra|reflexivity]].
    split; [assumption|]. destruct (sqrt_pos_facts ps L) as [Q1 Q2]. pose proof PI_RGT_0. split; [lra|].
    rewrite Rplus_0_l, Rmult_1_r. nra. }
  split; [exact Hlt|].
  exists (/ Rabs g). split; [apply Rinv_0_lt_compat; now apply Rabs_pos_lt|].
  unfold momentum. rewrite (uv_cross mu r1 r2 v1 A yr) by auto. fold g.
  f_equal. destruct (short_way_dec p r1 r2) as [S|S].
  - rewrite Rabs_right; [reflexivity|]. apply Rle_ge. unfold g. apply HAs in S.
    left. apply Rdiv_lt_0_compat; [nra|assumption].
  - assert (A < 0). { destruct (Rlt_dec 0 A); [tauto|lra]. }
    rewrite Rabs_left; [field; assumption|].
    unfold g. apply Rmult_lt_reg_r with (sqrt mu); [assumption|].
    unfold Rdiv. rewrite Rmult_assoc, Rinv_l by lra. nra.
Qed.

(** ** A run that succeeds: quarter turn, time of flight of the parabola *)
Lemma val_y_F ps n1 n2 A :
  0 < S2 ps ->
  @val_y_at_psi XR (Fin ps) (Fin n1) (Fin n2) (Fin A) = Fin (n1 + n2 - A * S1 ps / sqrt (S2 ps)).
Proof.
  intros H. unfold val_y_at_psi. rewrite c2_F, c3_F. xunf. cbn [xlift2 xadd xmul xsub].
  rewrite xpow_half by lra. pose proof (sqrt_lt_R0 _ H). rewrite xdiv_F by lra.
  cbn [xlift2 xadd]. f_equal. unfold S1. field. lra.
Qed.
Lemma val_tof_F mu ps A y :
  0 < mu -> 0 < S2 ps -> 0 <= y ->
  @val_tof XR (Fin mu) (Fin ps) (@val_X_at_psi XR (Fin ps) (Fin y)) (Fin A) (Fin y)
  = Fin ((sqrt (y / S2 ps) * sqrt (y / S2 ps) * sqrt (y / S2 ps) * S3 ps + A * sqrt y) / sqrt mu).
Proof.
  intros Hm Hc Hy. unfold val_tof, val_X_at_psi. rewrite c2_F, c3_F. xunf.
  assert (0 <= y / S2 ps) by (apply Rmult_le_pos; [assumption|left; now apply Rinv_0_lt_compat]).
  pose proof (sqrt_lt_R0 _ Hm).
  rewrite xdiv_F by lra. rewrite !xsqrt_F by lra. cbn [xlift2 xadd xmul]. now rewrite xdiv_F by lra.
Qed.

Theorem vallado_succeeds clock mu r1 r2 p M l mi at_ rt fo A y T fuel :
  0 < mu -> non_collinear r1 r2 -> (0 <= M)%Z -> (1 <= mi)%Z -> 0 < rt -> (1 <= fuel)%nat ->
  A * A = vnorm r1 * vnorm r2 + vdot r1 r2 -> (0 < A <-> short_way p r1 r2) ->
  y = vnorm r1 + vnorm r2 - A * sqrt 2 -> 0 < y -> 0 < T ->
  T = (sqrt (y / (1 / 2)) * sqrt (y / (1 / 2)) * sqrt (y / (1 / 2)) * (1 / 6) + A * sqrt y) / sqrt mu ->
  exists o, @vallado2013 XR clock fuel (call mu r1 r2 T M p l mi at_ rt fo) = Ok o.
Proof.
  intros Hmu Hnc HM Hmi Hrt Hf HA2 HAs Hy Hy0 HT0 HT.
  unfold vallado2013. rewrite validated_call_ok.
  2:{ repeat split; auto.
      - eapply vcross_nonzero_l; eauto.
      - intros ->. apply Hnc. vdes; vunf; f_equal; ring. }
  cbn [call a_mu a_tof a_is_prograde a_rtol a_maxiter a_full_output].
  rewrite !norm_F. destruct (val_A_F r1 r2 p Hnc) as (A' & EA & HA2' & HA0 & HAs').
  assert (E : A' = A).
  { assert (D : (A' - A) * (A' + A) = 0) by nra.
    apply Rmult_integral in D. destruct D as [D|D]; [lra|].
    exfalso. destruct (Rlt_dec 0 A'); [assert (0 < A) by tauto; lra|].
    assert (~ 0 < A) by tauto. lra. }
  subst A'. rewrite EA.
  replace (@neqb XR (Fin A) (nofZ 0)) with false
    by (symmetry; apply (proj2 (xeqb_Ff A 0)); assumption).
  destruct (Z.to_nat mi) as [|n] eqn:En; [lia|]. cbn [for_range].
  assert (HS2 : S2 0 = 1 / 2).
  { unfold S2, U2. destruct (Rlt_dec 0 0); [lra|]. field. }
  assert (HS3 : S3 0 = 1 / 6).
  { unfold S3, U3. destruct (Rlt_dec 0 0); [lra|]. field. }
  assert (HS : 0 < S2 0) by lra.
  assert (Ey : @val_y_at_psi XR (Fin 0) (Fin (vnorm r1)) (Fin (vnorm r2)) (Fin A) = Fin y).
  { rewrite val_y_F by assumption. rewrite HS2, Hy. f_equal. unfold S1.
    destruct (sqrt_pos_facts 2) as [Q1 Q2]; [lra|].
    replace (1 / 2) with (/ 2) by field. rewrite sqrt_inv. field. lra. }
  assert (Eb : @val_body XR (Fin mu) (Fin T) (Fin rt) (Fin (vnorm r1)) (Fin (vnorm r2)) (Fin A)
             fuel 1 (nofZ 0, nmul (nopp (nofZ 4)) (sq npi), nmul (nofZ 4) (sq npi))
             = Break (1%Z, Fin 0, Fin y)).
  { unfold val_body. change (@nofZ XR 0) with (Fin 0). rewrite Ey.
    assert (R : forall pl, @val_readjust XR (Fin (vnorm r1)) (Fin (vnorm r2)) (Fin A) fuel
                        pl (Fin 0) (Fin y) = Break (pl, Fin 0, Fin y)).
    { intros pl. destruct fuel; [lia|]. unfold val_readjust. cbn [while_true].
      replace (@nltb XR (Fin y) (nofZ 0)) with false
        by (symmetry; apply (proj2 (xltb_Ff y 0)); lra). reflexivity. }
    assert (W : @nltb XR (@nabs XR (@ndiv XR (@nsub XR (Fin T) (Fin T)) (Fin T))) (Fin rt) = true).
    { xunf. cbn [xlift2 xsub]. rewrite xdiv_F by lra. cbn [xlift1 xabs].
      apply xltb_F. replace ((T - T) / T) with 0 by (field; lra). now rewrite Rabs_R0. }
    destruct (@nltb XR (Fin 0) (Fin A)); [rewrite R|];
      rewrite val_tof_F by lra; rewrite HS2, HS3, <- HT, W; reflexivity. }
  rewrite Eb. destruct (@tpi_ok XR clock fo 1) as [t ->]; [lia|]. cbn [bind].
  destruct (val_velocities _ _ _ _ _ _ _). eexists. reflexivity.
Qed.
