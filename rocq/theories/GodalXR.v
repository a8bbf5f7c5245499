(** * The velocity formulas of the solvers, in exact arithmetic, have the form
    of [godal]. *)
From Coq Require Import Reals ZArith Bool Lra Lia Psatz.
From Verif Require Import Num XReal XRealLemmas MApi ApiFacts MLinalg MAngles MStumpff MVallado MNegrete
  MComplex MArora MDelatorre MJiang MMcelreath Spec VecFacts VecXR AnglesXR StumpffXR CallXR ValladoXR Godal.
Local Open Scope R_scope.

(** ** Finite results of vector operations *)
Lemma vadd_inv u v w :
  @vadd XR u v = vfin w -> exists u' v', u = vfin u' /\ v = vfin v' /\ w = vplus u' v'.
Proof.
  destruct u, v, w. unfold vadd, vmap2, vfin, vmap. xunf. intros H; injection H; intros.
  xinv. eexists (V3 _ _ _), (V3 _ _ _). split; [reflexivity|]. split; [reflexivity|].
  unfold vplus. cbn. congruence.
Qed.
Lemma vsub_inv u v w :
  @vsub XR u v = vfin w -> exists u' v', u = vfin u' /\ v = vfin v' /\ w = vminus u' v'.
Proof.
  destruct u, v, w. unfold vsub, vmap2, vfin, vmap. xunf. intros H; injection H; intros.
  xinv. eexists (V3 _ _ _), (V3 _ _ _). split; [reflexivity|]. split; [reflexivity|].
  unfold vminus. cbn. congruence.
Qed.
Lemma vscale_inv k v w :
  @vscale XR k v = vfin w -> exists k' v', k = Fin k' /\ v = vfin v' /\ w = vmult k' v'.
Proof.
  destruct v, w. unfold vscale, vmap, vfin. xunf. intros H; injection H; intros.
  xinv. eexists _, (V3 _ _ _). split; [reflexivity|]. split; [reflexivity|].
  unfold vmult. cbn. congruence.
Qed.
Lemma vdivs_fin_inv v k w :
  @vdivs XR v k = vfin w ->
  exists k' v', k = Fin k' /\ k' <> 0 /\ v = vfin v' /\ w = vmult (/ k') v'.
Proof.
  destruct v, w. unfold vdivs, vmap, vfin. xunf. intros H; injection H; intros.
  xinv. eexists _, (V3 _ _ _). split; [reflexivity|]. split; [assumption|]. split; [reflexivity|].
  unfold vmult. cbn. f_equal; subst; unfold Rdiv; ring.
Qed.

(** Break vector equations down to scalars. *)
Ltac vinv1 :=
  match goal with
  | H : (_, _) = (_, _) |- _ => apply pair_equal_spec in H; destruct H
  | H : @vadd XR _ _ = vfin _ |- _ => apply vadd_inv in H; destruct H as (? & ? & ? & ? & ?)
  | H : @vsub XR _ _ = vfin _ |- _ => apply vsub_inv in H; destruct H as (? & ? & ? & ? & ?)
  | H : @vscale XR _ _ = vfin _ |- _ => apply vscale_inv in H; destruct H as (? & ? & ? & ? & ?)
  | H : @vdivs XR _ _ = vfin _ |- _ => apply vdivs_fin_inv in H; destruct H as (? & ? & ? & ? & ? & ?)
  | H : vfin _ = vfin _ |- _ => apply vfin_inj in H
  | H : ?x = vfin _ |- _ => is_var x; subst x
  | H : Fin _ = Fin _ |- _ => apply Fin_inj in H
  | H : ?x = ?e :> rvec |- _ => is_var x; subst x
  | H : ?e = ?x :> rvec |- _ => is_var x; subst x
  end.
Ltac vinv := repeat vinv1.

Lemma norms_pos r1 r2 : non_collinear r1 r2 -> 0 < vnorm r1 /\ 0 < vnorm r2.
Proof.
  intros H. split; apply vnorm_pos; [now apply (vcross_nonzero_l _ r2)|now apply (vcross_nonzero_r r1)].
Qed.

(** ** Lagrange coefficients from [A] and [y] *)
Lemma fg_godal mu p r1 r2 A y g :
  non_collinear r1 r2 -> 0 < mu -> 0 < y ->
  A * A = Kgeo r1 r2 -> (0 < A <-> short_way p r1 r2) ->
  g = A * sqrt (y / mu) ->
  godal mu p r1 r2
    (vmult (/ g) (vminus r2 (vmult (1 - y / vnorm r1) r1)))
    (vmult (/ g) (vminus (vmult (1 - y / vnorm r2) r2) r1)).
Proof.
  intros Hn Hm Hy HA HAs Hg. destruct (norms_pos _ _ Hn) as [N1 N2].
  pose proof (Kgeo_pos _ _ Hn) as HK.
  assert (Hq : 0 < y / mu) by now apply Rdiv_lt_0_compat.
  pose proof (sqrt_lt_R0 _ Hq) as Hs. pose proof (sqrt_sqrt _ (Rlt_le _ _ Hq)) as Hss.
  assert (HA0 : A <> 0) by nra.
  assert (Hg0 : g <> 0) by (subst g; apply Rmult_integral_contrapositive_currified; lra).
  exists (/ g), (y / g). split; [|split; [|split]].
  - apply vec_eq; vunf; field; split; lra.
  - apply vec_eq; vunf; field; split; lra.
  - rewrite <- HA.
    assert (Hgg : g * g = A * A * (y / mu)) by (rewrite <- Hss, Hg; ring).
    assert (E : / g * (y / g) * (A * A) = y * (A * A) / (g * g)) by (field; assumption).
    rewrite E, Hgg. field. repeat split; lra.
  - intros _. rewrite <- HAs, Hg. split; intros H.
    + apply Rinv_0_lt_compat in H. rewrite Rinv_inv in H. nra.
    + apply Rinv_0_lt_compat. now apply Rmult_lt_0_compat.
Qed.

Lemma fg_velocities_godal mu p r1 r2 A y v1 v2 :
  non_collinear r1 r2 -> 0 < mu ->
  A * A = Kgeo r1 r2 -> (0 < A <-> short_way p r1 r2) ->
  @val_velocities XR (Fin mu) (vfin r1) (vfin r2) (Fin (vnorm r1)) (Fin (vnorm r2)) (Fin A) y
    = (vfin v1, vfin v2) ->
  godal mu p r1 r2 v1 v2.
Proof.
  intros Hn Hm HA HAs H. destruct (norms_pos _ _ Hn) as [N1 N2].
  unfold val_velocities in H. apply pair_equal_spec in H. destruct H as [H1 H2].
  pose proof H1 as H1'. apply vdivs_fin_inv in H1'. destruct H1' as (g & w & Eg & Hg & _ & _).
  assert (Hy : exists yr, y = Fin yr /\ 0 <= yr / mu /\ g = A * sqrt (yr / mu)).
  { pose proof Eg as E. xunf. xinv. subst. eexists. split; [reflexivity|]. split; [assumption|reflexivity]. }
  destruct Hy as (yr & -> & Hy & HgA).
  assert (Hy' : 0 < yr).
  { destruct (Rle_lt_or_eq_dec _ _ Hy) as [L|L].
    - replace yr with (yr / mu * mu) by (field; lra). now apply Rmult_lt_0_compat.
    - exfalso. apply Hg. rewrite HgA, <- L, sqrt_0. ring. }
  pose proof (fg_godal mu p r1 r2 A yr g Hn Hm Hy' HA HAs HgA) as G.
  assert (F1 : @nsub XR (nofZ 1) (@ndiv XR (Fin yr) (Fin (vnorm r1))) = Fin (1 - yr / vnorm r1)).
  { xunf. rewrite xdiv_F by lra. reflexivity. }
  assert (F2 : @nsub XR (nofZ 1) (@ndiv XR (Fin yr) (Fin (vnorm r2))) = Fin (1 - yr / vnorm r2)).
  { xunf. rewrite xdiv_F by lra. reflexivity. }
  rewrite Eg, F1, vscale_F, vsub_F, vdivs_F in H1 by assumption.
  rewrite Eg, F2, vscale_F, vsub_F, vdivs_F in H2 by assumption.
  apply vfin_inj in H1. apply vfin_inj in H2. now rewrite <- H1, <- H2.
Qed.

(** ** The transfer angle *)
Record angle_facts (p : bool) (r1 r2 : rvec) (th : R) : Prop := {
  af_sin : sin th <> 0;
  af_cos : -1 < cos th < 1;
  af_K : vnorm r1 * vnorm r2 * (1 + cos th) = Kgeo r1 r2;
  af_short : 0 < sin th <-> short_way p r1 r2;
  af_pi : th < PI <-> short_way p r1 r2;
  af_range : 0 < th < 2 * PI;
  af_npi : th <> PI;
  af_half : 0 < cos (th / 2) <-> short_way p r1 r2;
  af_half_sq : cos (th / 2) * cos (th / 2) = (1 + cos th) / 2
}.

Lemma transfer_angle r1 r2 p :
  non_collinear r1 r2 ->
  exists th, @get_transfer_angle XR (vfin r1) (vfin r2) p = Fin th /\ angle_facts p r1 r2 th.
Proof.
  intros Hn. destruct (@get_transfer_angle XR (vfin r1) (vfin r2) p) as [th|] eqn:E.
  2:{ rewrite get_transfer_angle_F in E by assumption. discriminate. }
  exists th. split; [reflexivity|].
  destruct (transfer_angle_facts r1 r2 p th Hn E) as (B & Hpi & C & S).
  destruct (norms_pos _ _ Hn) as [N1 N2]. pose proof PI_RGT_0 as HPI.
  pose proof (cosang_strict r1 r2 Hn) as D. unfold cosang in D. rewrite <- C in D.
  assert (Hs : 0 < sin th <-> th < PI).
  { split; intros H.
    - destruct (Rlt_dec th PI) as [|L]; [assumption|].
      assert (sin th <= 0) by (apply sin_le_0; lra). lra.
    - apply sin_gt_0; lra. }
  assert (Hs0 : sin th <> 0).
  { intros E0. pose proof (sin2_cos2 th) as Q. unfold Rsqr in Q. rewrite E0 in Q. nra. }
  assert (Hh : 0 < cos (th / 2) <-> th < PI).
  { split; intros H.
    - destruct (Rlt_dec th PI) as [|L]; [assumption|].
      assert (cos (th / 2) <= 0) by (apply cos_le_0; lra). lra.
    - apply cos_gt_0; lra. }
  constructor; try tauto.
  - unfold Kgeo. rewrite C. field. lra.
  - pose proof (cos_2a_cos (th / 2)) as Q. replace (2 * (th / 2)) with th in Q by field. lra.
Qed.

(** ** Velocities from the semi-latus rectum [q] *)
Lemma p_godal mu p r1 r2 th q a b v1 v2 :
  non_collinear r1 r2 -> 0 < mu -> 0 < q -> angle_facts p r1 r2 th ->
  a = sqrt (mu * q) / (vnorm r1 * vnorm r2 * sin th) ->
  b = sqrt (mu * q) / q * (1 - cos th) / sin th ->
  v1 = vplus (vmult a (vminus r2 r1)) (vmult (b / vnorm r1) r1) ->
  v2 = vminus (vmult a (vminus r2 r1)) (vmult (b / vnorm r2) r2) ->
  godal mu p r1 r2 v1 v2.
Proof.
  intros Hn Hm Hq F Ha Hb E1 E2. destruct (norms_pos _ _ Hn) as [N1 N2].
  assert (Hmq : 0 < mu * q) by now apply Rmult_lt_0_compat.
  pose proof (sqrt_lt_R0 _ Hmq) as Hs. pose proof (sqrt_sqrt _ (Rlt_le _ _ Hmq)) as Hss.
  pose proof (af_sin _ _ _ _ F) as S0.
  exists a, b. split; [assumption|]. split; [assumption|]. split.
  - rewrite <- (af_K _ _ _ _ F), Ha, Hb.
    transitivity (sqrt (mu * q) * sqrt (mu * q) / q * ((1 - cos th) * (1 + cos th) / (sin th * sin th))).
    { field. repeat split; lra. }
    rewrite Hss. pose proof (sin2_cos2 th) as Q. unfold Rsqr in Q.
    replace ((1 - cos th) * (1 + cos th)) with (sin th * sin th) by lra.
    field. split; lra.
  - intros _. rewrite <- (af_short _ _ _ _ F), Ha.
    assert (0 < vnorm r1 * vnorm r2) by now apply Rmult_lt_0_compat.
    split; intros H0.
    + destruct (Rlt_dec 0 (sin th)) as [|L]; [assumption|]. exfalso.
      assert (L' : sin th < 0) by lra.
      assert (I : / (vnorm r1 * vnorm r2 * sin th) < 0) by (apply Rinv_lt_0_compat; nra).
      unfold Rdiv in H0. nra.
    + apply Rdiv_lt_0_compat; [assumption|]. now apply Rmult_lt_0_compat.
Qed.

Lemma delatorre_velocities_godal mu p r1 r2 th P Q z v1 v2 :
  non_collinear r1 r2 -> 0 < mu -> angle_facts p r1 r2 th ->
  @tor_velocities XR (Fin mu) (vfin r1) (vfin r2) (Fin (vnorm r1)) (Fin (vnorm r2)) (Fin th) P Q z
    = (vfin v1, vfin v2) ->
  godal mu p r1 r2 v1 v2.
Proof.
  intros Hn Hm F H. destruct (norms_pos _ _ Hn) as [N1 N2].
  unfold tor_velocities in H.
  set (q := @ndiv XR (@nmul XR (@nmul XR (Fin (vnorm r1)) (Fin (vnorm r2))) _) _) in H.
  clearbody q. clear P Q z. apply pair_equal_spec in H. destruct H as [H1 H2].
  pose proof (af_sin _ _ _ _ F) as S0.
  vinv. xunf. xinv. subst.
  match goal with |- context [sqrt (mu * ?q)] => rename q into qr end.
  assert (Hq : 0 < qr) by nra.
  eapply (p_godal mu p _ _ th qr); try eassumption; try reflexivity;
    apply vec_eq; vunf; field; repeat split; assumption || lra.
Qed.

Lemma jiang_velocities_godal mu p r1 r2 th q v1 v2 :
  non_collinear r1 r2 -> 0 < mu -> angle_facts p r1 r2 th ->
  @jia_velocities XR (Fin mu) (vfin r1) (vfin r2) (Fin (vnorm r1)) (Fin (vnorm r2)) (Fin th) q
    = (vfin v1, vfin v2) ->
  godal mu p r1 r2 v1 v2.
Proof.
  intros Hn Hm F H. destruct (norms_pos _ _ Hn) as [N1 N2].
  unfold jia_velocities in H. pose proof (af_sin _ _ _ _ F) as S0.
  vinv. xunf. xinv. subst.
  match goal with |- context [sqrt (mu * ?q)] => rename q into qr end.
  assert (Hq : 0 < qr) by nra.
  eapply (p_godal mu p _ _ th qr); try eassumption; try reflexivity;
    apply vec_eq; vunf; field; repeat split; assumption || lra.
Qed.

Lemma sqrt_div_mult mu q : 0 < mu -> 0 < q -> sqrt (mu / q) = sqrt (mu * q) / q.
Proof.
  intros. replace (mu / q) with (mu * q / (q * q)) by (field; lra).
  rewrite sqrt_div by nra. now rewrite sqrt_square by lra.
Qed.

Lemma mcelreath_velocities_godal mu p r1 r2 th m x v1 v2 :
  non_collinear r1 r2 -> 0 < mu -> angle_facts p r1 r2 th ->
  @mce_velocities XR (Fin mu) (vfin r1) (vfin r2) (Fin (vnorm r1)) (Fin (vnorm r2)) (Fin th) m x
    = (vfin v1, vfin v2) ->
  godal mu p r1 r2 v1 v2.
Proof.
  intros Hn Hm F H. destruct (norms_pos _ _ Hn) as [N1 N2].
  unfold mce_velocities in H. destruct (mce_universal_values _ _ _ _) as [[[aa bb] u0] dd].
  set (q := @ndiv XR (@nmul XR (@nmul XR (Fin (vnorm r1)) (Fin (vnorm r2))) _) _) in H.
  clearbody q. clear m x aa bb u0 dd. rewrite vsub_F, norm_F in H.
  pose proof (af_sin _ _ _ _ F) as S0. pose proof (chord_pos _ _ Hn) as C0. unfold chord in C0.
  vinv. xunf. xinv. subst.
  match goal with |- context [sqrt (mu * ?q)] => rename q into qr end.
  assert (Hq : 0 < qr) by nra.
  rewrite !sqrt_div_mult by assumption.
  eapply (p_godal mu p _ _ th qr); try eassumption; try reflexivity;
    apply vec_eq; vunf; field; repeat split; assumption || lra.
Qed.
