(** * izzo2015, thorne2004 and gooding1990: radial and tangential components. *)
From Coq Require Import Reals ZArith Bool Lra Lia Psatz.
From Verif Require Import Num XReal XRealLemmas MApi ApiFacts MLinalg MAngles MIzzo MThorne MGooding MScipy
  Spec VecFacts VecXR AnglesXR Loops CallXR Godal GodalXR.
Local Open Scope R_scope.

(** [s (1 - lambda^2) = c]: geometry of the signed parameter [ll]. *)
Record lambda_facts (p : bool) (r1 r2 : rvec) (ll : R) : Prop := {
  lf_sq : semiper r1 r2 * (ll * ll) = semiper r1 r2 - chord r1 r2;
  lf_nz : ll <> 0;
  lf_dir : vz (vcross r1 r2) <> 0 -> (0 < ll <-> short_way p r1 r2)
}.

Lemma semiper_pos r1 r2 : non_collinear r1 r2 -> 0 < semiper r1 r2 /\ chord r1 r2 < semiper r1 r2.
Proof.
  intros Hn. destruct (norms_pos _ _ Hn) as [N1 N2]. pose proof (chord_pos _ _ Hn).
  destruct (triangle _ _ Hn) as (T & _ & _). unfold semiper. lra.
Qed.

(** Length of the normal: [|r1 x r2| = sigma c |lambda| s]. *)
Lemma normal_length r1 r2 e ll sg :
  non_collinear r1 r2 -> semiper r1 r2 * (ll * ll) = semiper r1 r2 - chord r1 r2 ->
  e * e = 1 -> 0 < e * ll -> 0 <= sg ->
  sg * sg = 1 - ((vnorm r1 - vnorm r2) / chord r1 r2) * ((vnorm r1 - vnorm r2) / chord r1 r2) ->
  vnorm (vcross r1 r2) = sg * chord r1 r2 * (e * ll) * semiper r1 r2.
Proof.
  intros Hn Hl He Hel Hsg Hs2. destruct (semiper_pos _ _ Hn) as [Hs Hcs].
  pose proof (chord_pos _ _ Hn) as Hc.
  apply Rsqr_inj.
  - apply vnorm_nonneg.
  - apply Rmult_le_pos; [|lra]. apply Rmult_le_pos; [|lra]. apply Rmult_le_pos; lra.
  - unfold Rsqr. rewrite vnorm_sq, lagrange, <- !vnorm_sq.
    pose proof (chord_sq r1 r2) as C2. pose proof (semiper_K r1 r2) as SK. unfold Kgeo in SK.
    set (n1 := vnorm r1) in *. set (n2 := vnorm r2) in *. set (c := chord r1 r2) in *.
    set (s := semiper r1 r2) in *. set (D := vdot r1 r2) in *.
    transitivity ((sg * sg * (c * c)) * (e * e) * (s * (s * (ll * ll)))); [|ring].
    rewrite Hs2, Hl, He, SK.
    replace ((1 - (n1 - n2) / c * ((n1 - n2) / c)) * (c * c)) with (c * c - (n1 - n2) * (n1 - n2))
      by (field; lra).
    rewrite C2. field.
Qed.

Lemma mult4_nz a b c d : a <> 0 -> b <> 0 -> c <> 0 -> d <> 0 -> a * b * c * d <> 0.
Proof. intros. repeat apply Rmult_integral_contrapositive_currified; assumption. Qed.

Lemma izzo_ab mu p r1 r2 ll e x y sg v1 v2 :
  non_collinear r1 r2 -> 0 < mu -> lambda_facts p r1 r2 ll -> e * e = 1 -> 0 < e * ll ->
  0 <= y -> y * y = 1 - ll * ll * (1 - x * x) -> 0 <= sg ->
  let n1 := vnorm r1 in let n2 := vnorm r2 in let c := chord r1 r2 in let s := semiper r1 r2 in
  let gam := sqrt (mu * s / 2) in let rho := (n1 - n2) / c in let N := vnorm (vcross r1 r2) in
  sg * sg = 1 - rho * rho ->
  v1 = vplus (vmult (gam * ((ll * y - x) - rho * (ll * y + x)) / n1) (vmult (/ n1) r1))
             (vmult (gam * sg * (y + ll * x) / n1) (vmult (e / (N * n1)) (vcross (vcross r1 r2) r1))) ->
  v2 = vplus (vmult (- gam * ((ll * y - x) + rho * (ll * y + x)) / n2) (vmult (/ n2) r2))
             (vmult (gam * sg * (y + ll * x) / n2) (vmult (e / (N * n2)) (vcross (vcross r1 r2) r2))) ->
  let a := gam * (y + ll * x) / (c * ll * s) in let b := gam * (y - ll * x) / (ll * s) in
  v1 = vplus (vmult a (vminus r2 r1)) (vmult (b / n1) r1) /\
  v2 = vminus (vmult a (vminus r2 r1)) (vmult (b / n2) r2) /\
  a * b * Kgeo r1 r2 = mu /\ 0 < a * ll /\ 0 < y - ll * x /\ b / a = s * ((y - ll * x) * (y - ll * x)).
Proof.
  intros Hn Hm F He Hel Hy Hy2 Hsg n1 n2 c s gam rho N Hs2 E1 E2 a b.
  destruct (norms_pos _ _ Hn) as [N1 N2]. destruct (semiper_pos _ _ Hn) as [Hs Hcs].
  pose proof (chord_pos _ _ Hn) as Hc. pose proof (vnorm_pos _ Hn) as HN.
  pose proof (lf_sq _ _ _ _ F) as Hl. pose proof (lf_nz _ _ _ _ F) as Hl0.
  pose proof (normal_length r1 r2 e ll sg Hn Hl He Hel Hsg Hs2) as HNl.
  fold n1 in N1. fold n2 in N2. fold c in Hc, Hl, HNl, Hcs. fold s in Hs, Hl, HNl, Hcs. fold N in HN, HNl.
  assert (Hms : 0 < mu * s / 2) by (apply Rdiv_lt_0_compat; [apply Rmult_lt_0_compat|]; lra).
  pose proof (sqrt_sqrt _ (Rlt_le _ _ Hms)) as Hg2. pose proof (sqrt_lt_R0 _ Hms) as Hg.
  fold gam in Hg, Hg2.
  assert (Hsum : n1 + n2 = 2 * s - c) by (unfold s, semiper, n1, n2, c; lra).
  pose proof (chord_sq r1 r2) as C2. fold c n1 n2 in C2.
  pose proof (semiper_K r1 r2) as SK. fold s c in SK.
  assert (Hsg0 : 0 < sg). { destruct Hsg as [|<-]; [assumption|]. rewrite HNl in HN. lra. }
  assert (Hy1 : (y + ll * x) * (y - ll * x) = 1 - ll * ll) by (rewrite <- (Rplus_0_r (y*y)) in *; nra).
  assert (Hll : 0 < 1 - ll * ll).
  { apply Rmult_lt_reg_l with s; [assumption|]. rewrite Rmult_minus_distr_l, Hl. lra. }
  assert (Hpos : 0 < y + ll * x).
  { assert (H2 : 0 <= (y + ll * x) + (y - ll * x)) by lra. nra. }
  assert (He1 : e / N = / (sg * c * ll * s)).
  { assert (e <> 0) by (intros ->; lra). rewrite HNl. field_simplify_eq; [|repeat split; (assumption || lra)..].
    try (rewrite <- He; ring). }
  assert (A1 : gam * sg * (y + ll * x) / n1 * (e / (N * n1)) = a / (n1 * n1)).
  { transitivity (gam * sg * (y + ll * x) * (e / N) / (n1 * n1)); [field; repeat split; (assumption || lra)|].
    rewrite He1. unfold a. field. repeat split; (assumption || lra). }
  assert (A2 : gam * sg * (y + ll * x) / n2 * (e / (N * n2)) = a / (n2 * n2)).
  { transitivity (gam * sg * (y + ll * x) * (e / N) / (n2 * n2)); [field; repeat split; (assumption || lra)|].
    rewrite He1. unfold a. field. repeat split; (assumption || lra). }
  set (D := vdot r1 r2) in *.
  assert (P1 : gam * ((ll * y - x) - rho * (ll * y + x)) = n1 * b - a * (n1 * n1 - D)).
  { unfold a, b, rho. apply Rmult_eq_reg_l with (2 * c * ll * s);
      [|apply mult4_nz; (assumption || lra)].
    replace (n1 * n1 - D) with ((c * c + (n1 - n2) * (n1 + n2)) / 2) by (rewrite C2; field).
    rewrite Hsum.
    transitivity (gam * (2 * (s * (ll * ll)) * (c * y) - 2 * ll * s * c * x
       - (n1 - n2) * (2 * (s * (ll * ll)) * y + 2 * ll * s * x))); [field; lra|].
    rewrite Hl.
    transitivity (gam * (2 * c * n1 * (y - ll * x) - (y + ll * x) * (c * c + (n1 - n2) * (2 * s - c))));
      [|field; repeat split; (assumption || lra)].
    replace n1 with (2 * s - c - n2) by lra. ring. }
  assert (P2 : - gam * ((ll * y - x) + rho * (ll * y + x)) = a * (n2 * n2 - D) - n2 * b).
  { unfold a, b, rho. apply Rmult_eq_reg_l with (2 * c * ll * s);
      [|apply mult4_nz; (assumption || lra)].
    replace (n2 * n2 - D) with ((c * c - (n1 - n2) * (n1 + n2)) / 2) by (rewrite C2; field).
    rewrite Hsum.
    transitivity (- gam * (2 * (s * (ll * ll)) * (c * y) - 2 * ll * s * c * x
       + (n1 - n2) * (2 * (s * (ll * ll)) * y + 2 * ll * s * x))); [field; lra|].
    rewrite Hl.
    transitivity (gam * ((y + ll * x) * (c * c - (n1 - n2) * (2 * s - c)) - 2 * c * n2 * (y - ll * x)));
      [|field; repeat split; (assumption || lra)].
    replace n1 with (2 * s - c - n2) by lra. ring. }
  assert (Hmin : 0 < y - ll * x) by nra.
  split; [|split; [|split; [|split; [|split; [exact Hmin|]]]]].
  - rewrite E1, !vmult_mult, A1, P1.
    assert (T : vcross (vcross r1 r2) r1 = vminus (vmult (n1 * n1) r2) (vmult D r1)).
    { unfold D, n1. rewrite vnorm_sq. clear. vdes. vunf. f_equal; ring. }
    rewrite T. apply vec_eq; vunf; fold n1 n2; field; lra.
  - rewrite E2, !vmult_mult, A2, P2.
    assert (T : vcross (vcross r1 r2) r2 = vminus (vmult D r2) (vmult (n2 * n2) r1)).
    { unfold D, n2. rewrite vnorm_sq. clear. vdes. vunf. f_equal; ring. }
    rewrite T. apply vec_eq; vunf; fold n1 n2; field; lra.
  - replace (Kgeo r1 r2) with (2 * (s * (s * (ll * ll)))) by (rewrite Hl, SK; field).
    unfold a, b.
    transitivity ((gam * gam) * ((y + ll * x) * (y - ll * x)) * 2 / c); [field; repeat split; (assumption || lra)|].
    rewrite Hg2, Hy1.
    transitivity (mu * (s - s * (ll * ll)) / c); [field; lra|]. rewrite Hl. field. lra.
  - unfold a. replace (gam * (y + ll * x) / (c * ll * s) * ll) with (gam * (y + ll * x) / (c * s)) by (field; repeat split; (assumption || lra)).
    apply Rdiv_lt_0_compat; nra.
  - unfold a, b.
    transitivity (c * (y - ll * x) / (y + ll * x)); [field; repeat split; (assumption || lra)|].
    apply Rmult_eq_reg_r with (y + ll * x); [|lra].
    transitivity (c * (y - ll * x)); [field; lra|].
    transitivity (s * (y - ll * x) * ((y + ll * x) * (y - ll * x))); [|ring]. rewrite Hy1.
    transitivity ((y - ll * x) * (s - s * (ll * ll))); [|ring]. rewrite Hl. ring.
Qed.

Lemma izzo_godal mu p r1 r2 ll e x y sg v1 v2 :
  non_collinear r1 r2 -> 0 < mu -> lambda_facts p r1 r2 ll -> e * e = 1 -> 0 < e * ll ->
  0 <= y -> y * y = 1 - ll * ll * (1 - x * x) -> 0 <= sg ->
  let n1 := vnorm r1 in let n2 := vnorm r2 in let c := chord r1 r2 in let s := semiper r1 r2 in
  let gam := sqrt (mu * s / 2) in let rho := (n1 - n2) / c in let N := vnorm (vcross r1 r2) in
  sg * sg = 1 - rho * rho ->
  v1 = vplus (vmult (gam * ((ll * y - x) - rho * (ll * y + x)) / n1) (vmult (/ n1) r1))
             (vmult (gam * sg * (y + ll * x) / n1) (vmult (e / (N * n1)) (vcross (vcross r1 r2) r1))) ->
  v2 = vplus (vmult (- gam * ((ll * y - x) + rho * (ll * y + x)) / n2) (vmult (/ n2) r2))
             (vmult (gam * sg * (y + ll * x) / n2) (vmult (e / (N * n2)) (vcross (vcross r1 r2) r2))) ->
  godal mu p r1 r2 v1 v2.
Proof.
  intros Hn Hm F He Hel Hy Hy2 Hsg n1 n2 c s gam rho N Hs2 E1 E2.
  destruct (izzo_ab mu p r1 r2 ll e x y sg v1 v2 Hn Hm F He Hel Hy Hy2 Hsg Hs2 E1 E2) as (G1 & G2 & G3 & G4 & _ & _).
  eexists _, _. split; [exact G1|]. split; [exact G2|]. split; [exact G3|].
  intros Hz. rewrite <- (lf_dir _ _ _ _ F Hz). pose proof (lf_nz _ _ _ _ F).
  split; intros H0; nra.
Qed.

(** ** The transverse directions of izzo.py:92-109 = thorne.py:317-331 *)
Section Frame.
Context {N : Num}.
Local Open Scope num_scope.
Definition izzo_frame (r1 r2 : vec num) (n1 n2 ll : num) (is_prograde : bool)
  : num * vec num * vec num :=
  let i_r1 := vdivs r1 n1 in
  let i_r2 := vdivs r2 n2 in
  let i_h := cross i_r1 i_r2 in
  let i_h := vdivs i_h (norm i_h) in
  let '(ll, i_t1, i_t2) :=
    if vz i_h <? #0 then (- ll, cross i_r1 i_h, cross i_r2 i_h)
    else (ll, cross i_h i_r1, cross i_h i_r2) in
  if is_prograde then (ll, i_t1, i_t2) else (- ll, vopp i_t1, vopp i_t2).
End Frame.

Lemma unit_normal_F r1 r2 :
  non_collinear r1 r2 ->
  let i_h := @cross XR (@vdivs XR (vfin r1) (Fin (vnorm r1))) (@vdivs XR (vfin r2) (Fin (vnorm r2))) in
  @vdivs XR i_h (@norm XR i_h) = vfin (vmult (/ vnorm (vcross r1 r2)) (vcross r1 r2)).
Proof.
  intros Hn i_h. destruct (norms_pos _ _ Hn) as [N1 N2]. pose proof (vnorm_pos _ Hn) as HN.
  unfold i_h. rewrite !vdivs_F by lra. rewrite cross_F.
  assert (E : vcross (vmult (/ vnorm r1) r1) (vmult (/ vnorm r2) r2)
            = vmult (/ (vnorm r1 * vnorm r2)) (vcross r1 r2)).
  { apply vec_eq; vunf; field; lra. }
  rewrite E, norm_F, vnorm_mult.
  assert (P : 0 < / (vnorm r1 * vnorm r2)) by (apply Rinv_0_lt_compat; nra).
  rewrite (Rabs_right (/ _)) by lra.
  rewrite vdivs_F.
  - f_equal. rewrite vmult_mult. f_equal. field. lra.
  - assert (0 < / (vnorm r1 * vnorm r2) * vnorm (vcross r1 r2)) by nra. lra.
Qed.

Lemma izzo_frame_F r1 r2 l0 p :
  non_collinear r1 r2 -> 0 < l0 ->
  exists e, e * e = 1 /\ (vz (vcross r1 r2) <> 0 -> (0 < e <-> short_way p r1 r2)) /\
  @izzo_frame XR (vfin r1) (vfin r2) (Fin (vnorm r1)) (Fin (vnorm r2)) (Fin l0) p =
  (Fin (e * l0),
   vfin (vmult (e / (vnorm (vcross r1 r2) * vnorm r1)) (vcross (vcross r1 r2) r1)),
   vfin (vmult (e / (vnorm (vcross r1 r2) * vnorm r2)) (vcross (vcross r1 r2) r2))).
Proof.
  intros Hn Hl. destruct (norms_pos _ _ Hn) as [N1 N2]. pose proof (vnorm_pos _ Hn) as HN.
  assert (I : 0 < / vnorm (vcross r1 r2)) by now apply Rinv_0_lt_compat.
  unfold izzo_frame. rewrite unit_normal_F by assumption. rewrite !vdivs_F by lra.
  rewrite !cross_F.
  set (h := vmult (/ vnorm (vcross r1 r2)) (vcross r1 r2)).
  change (vz (vfin h)) with (Fin (/ vnorm (vcross r1 r2) * vz (vcross r1 r2))).
  assert (T1 : vcross h (vmult (/ vnorm r1) r1)
     = vmult (1 / (vnorm (vcross r1 r2) * vnorm r1)) (vcross (vcross r1 r2) r1)).
  { unfold h. set (n := vcross r1 r2) in *. apply vec_eq; vunf; field; lra. }
  assert (T2 : vcross h (vmult (/ vnorm r2) r2)
     = vmult (1 / (vnorm (vcross r1 r2) * vnorm r2)) (vcross (vcross r1 r2) r2)).
  { unfold h. set (n := vcross r1 r2) in *. apply vec_eq; vunf; field; lra. }
  destruct (Rlt_dec (vz (vcross r1 r2)) 0) as [L|L].
  - replace (@nltb XR _ _) with true by (symmetry; apply xltb_F; nra).
    rewrite (vcross_anti h (vmult (/ vnorm r1) r1)), (vcross_anti h (vmult (/ vnorm r2) r2)).
    rewrite T1, T2.
    exists (if p then -1 else 1). split; [destruct p; ring|]. split.
    + intros _. unfold short_way. destruct p; split; intros; lra.
    + destruct p; rewrite ?vopp_F, !vmult_mult; unfold Rdiv;
        repeat apply f_equal2; try reflexivity;
        try (apply f_equal; apply f_equal2; [ring|reflexivity]); xunf; cbn; f_equal; ring.
  - replace (@nltb XR _ _) with false by (symmetry; apply xltb_Ff; nra).
    rewrite T1, T2.
    exists (if p then 1 else -1). split; [destruct p; ring|]. split.
    + intros Hz. unfold short_way. destruct p; split; intros; lra.
    + destruct p; rewrite ?vopp_F, ?vmult_mult; unfold Rdiv;
        repeat apply f_equal2; try reflexivity;
        try (apply f_equal; apply f_equal2; [ring|reflexivity]); xunf; cbn; f_equal; ring.
Qed.

Lemma lambda0_facts r1 r2 :
  non_collinear r1 r2 ->
  0 < 1 - chord r1 r2 / semiper r1 r2 < 1 /\ 0 < sqrt (1 - chord r1 r2 / semiper r1 r2).
Proof.
  intros Hn. destruct (semiper_pos _ _ Hn) as [Hs Hcs]. pose proof (chord_pos _ _ Hn) as Hc.
  assert (H : 0 < 1 - chord r1 r2 / semiper r1 r2 < 1).
  { split.
    - apply Rmult_lt_reg_r with (semiper r1 r2); [assumption|]. field_simplify; lra.
    - assert (0 < chord r1 r2 / semiper r1 r2) by now apply Rdiv_lt_0_compat. lra. }
  split; [assumption|]. apply sqrt_lt_R0. lra.
Qed.

Lemma lambda_facts_intro p r1 r2 e :
  non_collinear r1 r2 -> e * e = 1 -> (vz (vcross r1 r2) <> 0 -> (0 < e <-> short_way p r1 r2)) ->
  lambda_facts p r1 r2 (e * sqrt (1 - chord r1 r2 / semiper r1 r2)).
Proof.
  intros Hn He Hd. destruct (lambda0_facts _ _ Hn) as [B P]. destruct (semiper_pos _ _ Hn) as [Hs Hcs].
  set (l0 := sqrt _) in *. assert (E : l0 * l0 = 1 - chord r1 r2 / semiper r1 r2) by (apply sqrt_sqrt; lra).
  constructor.
  - transitivity (semiper r1 r2 * ((e * e) * (l0 * l0))); [ring|]. rewrite He, E. field. lra.
  - apply Rmult_integral_contrapositive_currified; nra.
  - intros Hz. rewrite <- (Hd Hz). split; intros; nra.
Qed.

Lemma izzo_geometry_F r1 r2 p :
  non_collinear r1 r2 ->
  exists e ll t1 t2,
    @izzo_geometry XR (vfin r1) (vfin r2) p =
      (Fin (vnorm r1), Fin (vnorm r2), Fin (chord r1 r2), Fin (semiper r1 r2), Fin ll, vfin t1, vfin t2) /\
    e * e = 1 /\ 0 < e * ll /\ lambda_facts p r1 r2 ll /\
    t1 = vmult (e / (vnorm (vcross r1 r2) * vnorm r1)) (vcross (vcross r1 r2) r1) /\
    t2 = vmult (e / (vnorm (vcross r1 r2) * vnorm r2)) (vcross (vcross r1 r2) r2).
Proof.
  intros Hn. destruct (lambda0_facts _ _ Hn) as [B P]. destruct (semiper_pos _ _ Hn) as [Hs Hcs].
  destruct (izzo_frame_F r1 r2 (sqrt (1 - chord r1 r2 / semiper r1 r2)) p Hn P) as (e & He & Hd & EF).
  exists e. do 3 eexists. split; [|split; [exact He|split; [|split; [exact (lambda_facts_intro p r1 r2 e Hn He Hd)|split; reflexivity]]]].
  2:{ nra. }
  unfold izzo_geometry. rewrite vsub_F, !norm_F. fold (chord r1 r2).
  assert (Es : @nmul XR (@nadd XR (@nadd XR (Fin (vnorm r1)) (Fin (vnorm r2))) (Fin (chord r1 r2))) (nlit 1 2)
     = Fin (semiper r1 r2)).
  { xunf. cbn. f_equal. unfold semiper. field. }
  rewrite Es.
  assert (El : @nsqrt XR (@nsub XR (nofZ 1) (@pymin XR (nofZ 1) (@ndiv XR (Fin (chord r1 r2)) (Fin (semiper r1 r2)))))
      = Fin (sqrt (1 - chord r1 r2 / semiper r1 r2))).
  { unfold pymin. xunf. rewrite xdiv_F by lra.
    replace (xltb _ (Fin 1)) with true.
    2:{ symmetry. apply xltb_F. lra. }
    change (xsub (Fin 1) (Fin ?x)) with (Fin (1 - x)). rewrite xsqrt_F by lra. reflexivity. }
  rewrite El. unfold izzo_frame in EF.
  destruct (@nltb XR _ _); destruct p; apply pair_equal_spec in EF; destruct EF as [EF1 EF2];
    apply pair_equal_spec in EF1; destruct EF1 as [EF1 EF3]; now rewrite EF1, EF2, EF3.
Qed.

Lemma izzo_y_inv x ll y :
  @izzo_y XR (Fin x) (Fin ll) = Fin y -> 0 <= y /\ y * y = 1 - ll * ll * (1 - x * x).
Proof.
  intros H. unfold izzo_y in H. xunf. xinv. subst. split; [apply sqrt_pos|].
  rewrite sqrt_sqrt by assumption. reflexivity.
Qed.

Lemma izzo_velocities_godal mu p r1 r2 e ll t1 t2 x v1 v2 :
  non_collinear r1 r2 -> 0 < mu ->
  e * e = 1 -> 0 < e * ll -> lambda_facts p r1 r2 ll ->
  t1 = vmult (e / (vnorm (vcross r1 r2) * vnorm r1)) (vcross (vcross r1 r2) r1) ->
  t2 = vmult (e / (vnorm (vcross r1 r2) * vnorm r2)) (vcross (vcross r1 r2) r2) ->
  @izzo_velocities XR (Fin mu) (vfin r1) (vfin r2) (Fin (vnorm r1)) (Fin (vnorm r2))
    (Fin (chord r1 r2)) (Fin (semiper r1 r2)) (Fin ll) (vfin t1) (vfin t2) x (izzo_y x (Fin ll))
  = (vfin v1, vfin v2) -> godal mu p r1 r2 v1 v2.
Proof.
  intros Hn Hm He Hel F E1 E2 H.
  unfold izzo_velocities, izzo_reconstruct in H.
  assert (Hy : exists xr yr, x = Fin xr /\ izzo_y x (Fin ll) = Fin yr /\ 0 <= yr
            /\ yr * yr = 1 - ll * ll * (1 - xr * xr)).
  { remember (izzo_y x (Fin ll)) as y eqn:Ey. clear E1 E2.
    vinv. xunf. xinv. subst.
    match goal with H : izzo_y (Fin ?x) _ = Fin ?a |- _ => exists x, a; pose proof (izzo_y_inv _ _ _ H) as [? ?] end.
    repeat split; assumption. }
  destruct Hy as (xr & yr & -> & EY & Hy & Hy2). rewrite EY in H.
  destruct (norms_pos _ _ Hn) as [N1 N2]. pose proof (chord_pos _ _ Hn) as Hc.
  vinv. xunf. xinv.
  subst.
  match goal with H : 0 <= 1 - ?a * ?a |- _ =>
    eapply (izzo_godal mu p _ _ ll e xr yr (sqrt (1 - a * a))); try eassumption;
      [apply sqrt_pos|apply sqrt_sqrt; assumption|reflexivity|reflexivity] end.
Qed.

(** ** thorne2004 *)
Lemma tho_reconstruct_frame {N : Num} x y mu r1 r2 s c p :
  tho_reconstruct x y mu r1 r2 s c p =
  let '(ll, t1, t2) := izzo_frame r1 r2 (norm r1) (norm r2) (nsqrt (nsub (nofZ 1) (ndiv c s))) p in
  izzo_velocities mu r1 r2 (norm r1) (norm r2) c s ll t1 t2 x y.
Proof.
  unfold tho_reconstruct, izzo_frame, izzo_velocities, izzo_reconstruct.
  destruct (nltb _ _); destruct p; reflexivity.
Qed.

Lemma tho_y_frame {N : Num} x r1 r2 s c p :
  tho_y x r1 r2 s c p =
  let '(ll, _, _) := izzo_frame r1 r2 (norm r1) (norm r2) (nsqrt (nsub (nofZ 1) (ndiv c s))) p in
  izzo_y x ll.
Proof.
  unfold tho_y, tho_lambda, izzo_frame, izzo_y. destruct (nltb _ _); destruct p; reflexivity.
Qed.

Lemma thorne_velocities_godal mu p r1 r2 x v1 v2 :
  non_collinear r1 r2 -> 0 < mu ->
  @tho_reconstruct XR x (tho_y x (vfin r1) (vfin r2) (Fin (semiper r1 r2)) (Fin (chord r1 r2)) p)
    (Fin mu) (vfin r1) (vfin r2) (Fin (semiper r1 r2)) (Fin (chord r1 r2)) p
  = (vfin v1, vfin v2) -> godal mu p r1 r2 v1 v2.
Proof.
  intros Hn Hm H. destruct (lambda0_facts _ _ Hn) as [B P]. destruct (semiper_pos _ _ Hn) as [Hs Hcs].
  destruct (izzo_frame_F r1 r2 (sqrt (1 - chord r1 r2 / semiper r1 r2)) p Hn P) as (e & He & Hd & EF).
  rewrite tho_reconstruct_frame, tho_y_frame in H. rewrite !norm_F in H.
  assert (El : @nsqrt XR (@nsub XR (nofZ 1) (@ndiv XR (Fin (chord r1 r2)) (Fin (semiper r1 r2))))
      = Fin (sqrt (1 - chord r1 r2 / semiper r1 r2))).
  { xunf. rewrite xdiv_F by lra. change (xsub (Fin 1) (Fin ?x)) with (Fin (1 - x)).
    rewrite xsqrt_F by lra. reflexivity. }
  rewrite El in H. rewrite EF in H.
  eapply (izzo_velocities_godal mu p r1 r2 e); try eassumption; try reflexivity.
  - nra.
  - now apply lambda_facts_intro.
Qed.

(** ** gooding1990 *)
Lemma xsqrt_neg a : a < 0 -> xsqrt (Fin a) = NaN.
Proof. intros; unfold xsqrt, xpart1. destruct (Rle_dec 0 a); [lra|reflexivity]. Qed.

Lemma goo_reduce_F fuel th M r m :
  0 < th < 2 * PI -> (0 <= M)%Z ->
  @goo_reduce XR fuel (Fin (2 * PI * IZR M + th)) = Break (r, m) -> r = Fin th /\ m = M.
Proof.
  intros Ht HM H. pose proof PI_RGT_0 as HPI. unfold goo_reduce in H.
  apply (while_true_inv _ (fun st : xr * Z => exists k, (0 <= k)%Z /\
           st = (Fin (2 * PI * IZR (M - k) + th), k) /\
           (k = 0%Z \/ 0 < 2 * PI * IZR (M - k) + th))) in H.
  - destruct H as (t & (k & Hk & -> & Hp) & E). xunf. cbn [xmul xlift2] in E.
    destruct (xltb _ _) eqn:G; [discriminate|]. apply xltb_Ff in G. injection E as <- <-.
    assert (Hkm : k = M).
    { destruct Hp as [->|Hp].
      - rewrite Z.sub_0_r in G. assert (U : IZR M < 1) by nra. apply lt_IZR in U. lia.
      - assert (U : IZR (M - k) < 1) by nra. assert (L : -1 < IZR (M - k)) by nra.
        apply lt_IZR in U. apply lt_IZR in L. lia. }
    subst k. rewrite Z.sub_diag, Rmult_0_r, Rplus_0_l. auto.
  - exists 0%Z. rewrite Z.sub_0_r. split; [lia|]. auto.
  - intros t t' (k & Hk & -> & Hp) E. xunf. cbn [xmul xsub xlift2] in E.
    destruct (xltb _ _) eqn:G; [|discriminate]. apply xltb_F in G. inversion E; subst.
    exists (k + 1)%Z. split; [lia|].
    assert (Q : 2 * PI * IZR (M - k) + th - 2 * PI = 2 * PI * IZR (M - (k + 1)) + th).
    { rewrite !minus_IZR, plus_IZR. ring. }
    rewrite Q in *. split; [reflexivity|]. right. lra.
Qed.

Lemma gooding_geometry_F mu p r1 r2 th :
  non_collinear r1 r2 -> 0 < mu -> angle_facts p r1 r2 th ->
  exists q sig,
    @goo_geometry XR (Fin mu) (Fin (vnorm r1)) (Fin (vnorm r2)) (@ndiv XR (Fin th) (nofZ 2)) =
      (Fin (sqrt (mu * semiper r1 r2 / 2)), Fin (semiper r1 r2), Fin (chord r1 r2 / semiper r1 r2), Fin q,
       Fin ((vnorm r1 - vnorm r2) / chord r1 r2), Fin sig) /\
    0 <= sig /\
    sig = 1 - ((vnorm r1 - vnorm r2) / chord r1 r2) * ((vnorm r1 - vnorm r2) / chord r1 r2) /\
    lambda_facts p r1 r2 q /\ (0 < q <-> short_way p r1 r2).
Proof.
  intros Hn Hm F. destruct (norms_pos _ _ Hn) as [N1 N2]. destruct (semiper_pos _ _ Hn) as [Hs Hcs].
  pose proof (chord_pos _ _ Hn) as Hc. pose proof (chord_sq r1 r2) as C2.
  pose proof (semiper_K r1 r2) as SK. pose proof (af_K _ _ _ _ F) as HK. pose proof (Kgeo_pos _ _ Hn) as K0.
  pose proof (af_half_sq _ _ _ _ F) as H2.
  pose proof (sin2_cos2 (th / 2)) as Q. unfold Rsqr in Q.
  set (n1 := vnorm r1) in *. set (n2 := vnorm r2) in *. set (c := chord r1 r2) in *. set (s := semiper r1 r2) in *.
  assert (N12 : 0 < n1 * n2) by nra.
  assert (Ec : (n1 - n2) * (n1 - n2) + 4 * (n1 * n2) * (sin (th / 2) * sin (th / 2)) = c * c).
  { replace (sin (th / 2) * sin (th / 2)) with ((1 - cos th) / 2) by lra.
    rewrite C2. unfold Kgeo in HK. fold n1 n2 in HK. nra. }
  exists (sqrt (n1 * n2) * cos (th / 2) / s), (4 * (n1 * n2) * (sin (th / 2) * sin (th / 2)) / (c * c)).
  assert (Hsn : 0 <= sin (th / 2) * sin (th / 2)) by nra.
  pose proof (sqrt_lt_R0 _ N12) as Hq. pose proof (sqrt_sqrt _ (Rlt_le _ _ N12)) as Hq2.
  assert (Hqs : 0 < sqrt (n1 * n2) * cos (th / 2) / s <-> short_way p r1 r2).
  { rewrite <- (af_half _ _ _ _ F). split; intros H0.
    - assert (0 < sqrt (n1 * n2) * cos (th / 2)).
      { apply Rmult_lt_reg_r with (/ s); [now apply Rinv_0_lt_compat|]. lra. }
      nra.
    - apply Rdiv_lt_0_compat; nra. }
  split; [|split; [|split; [|split; [|exact Hqs]]]].
  - unfold goo_geometry. xunf. rewrite xdiv_F by lra. cbn [xsub xadd xmul xlift2 xlift1].
    rewrite Ec. rewrite !(xsqrt_F (c * c)) by nra. rewrite sqrt_square by lra.
    cbn [xadd xlift2]. rewrite !(xdiv_F (n1 + n2 + c)) by lra.
    replace ((n1 + n2 + c) / 2) with s by (unfold s, semiper, n1, n2, c; field).
    unfold nneqb. xunf. unfold xeqb. destruct (Req_EM_T c 0); [lra|]. cbn [negb].
    cbn [xmul xlift2]. rewrite !xdiv_F by nra.
    rewrite (xsqrt_F (mu * s / 2)).
    2:{ apply Rlt_le. apply Rdiv_lt_0_compat; nra. }
    rewrite (xsqrt_F (n1 * n2)) by lra. cbn [xmul xlift2]. rewrite !xdiv_F by nra. reflexivity.
  - apply Rmult_le_pos; [nra|]. apply Rlt_le, Rinv_0_lt_compat. nra.
  - replace (4 * (n1 * n2) * (sin (th / 2) * sin (th / 2))) with (c * c - (n1 - n2) * (n1 - n2)) by lra.
    field. lra.
  - constructor; fold s c.
    + transitivity (sqrt (n1 * n2) * sqrt (n1 * n2) * (cos (th / 2) * cos (th / 2)) / s); [field; lra|].
      rewrite Hq2, H2. transitivity (n1 * n2 * (1 + cos th) / 2 / s); [field; lra|].
      rewrite HK. rewrite <- SK. field. lra.
    + assert (cos (th / 2) <> 0).
      { intros E. rewrite E in H2. pose proof (af_cos _ _ _ _ F). lra. }
      unfold Rdiv. apply Rmult_integral_contrapositive_currified.
      * apply Rmult_integral_contrapositive_currified; lra.
      * apply Rinv_neq_0_compat. lra.
    + intros _. exact Hqs.
Qed.

Lemma tl_velocity_F q k x a b c d :
  @tl_velocity XR (Fin q) (Fin k) (Fin x) = (a, b, c, d) -> k = 1 - q * q ->
  (exists r, b = Fin r) -> (exists r, c = Fin r) -> (exists r, d = Fin r) ->
  exists z, 0 <= z /\ z * z = 1 - q * q * (1 - x * x) /\
    b = Fin (q * z - x) /\ c = Fin (q * z + x) /\ d = Fin (z + q * x).
Proof.
  intros H Hk Hb Hc Hd. unfold tl_velocity in H. xunf. cbn [xadd xmul xlift2] in H.
  destruct (Rle_lt_dec 0 (k + q * q * (x * x))) as [P|P].
  2:{ exfalso. rewrite xsqrt_neg in H by assumption.
      destruct (xleb _ _); inversion H; subst; xunf; cbn in *.
      - destruct Hb as [? ?]. discriminate.
      - destruct Hd as [? ?]. discriminate. }
  rewrite xsqrt_F in H by assumption.
  remember (sqrt (k + q * q * (x * x))) as z eqn:Ez.
  assert (Hz : z * z = k + q * q * (x * x)) by (subst z; now apply sqrt_sqrt).
  assert (Hz0 : 0 <= z) by (subst z; apply sqrt_pos).
  assert (Hkey : (q * z - x) * (q * z + x) = k * (q * q * ((1 - x) * (1 + x)) - x * x)).
  { transitivity (q * q * (z * z) - x * x); [ring|]. rewrite Hz, Hk. ring. }
  assert (Hkey2 : (z - q * x) * (z + q * x) = k).
  { transitivity (z * z - q * q * (x * x)); [ring|]. rewrite Hz. ring. }
  exists z. split; [assumption|]. split; [rewrite Hz, Hk; ring|].
  cbn [xsub xadd xmul xlift2] in H.
  destruct (xleb _ _) eqn:G.
  - unfold xeqb in H. destruct (Req_EM_T (q * x) 0) as [E0|E0].
    + inversion H. auto.
    + do 3 (apply pair_equal_spec in H; destruct H as [H ?]); subst a b c d. destruct Hc as [rc Hc]. destruct Hd as [rd Hd].
      apply xdiv_inv in Hc, Hd. destruct Hc as (? & ? & E1 & E2 & E3 & ->), Hd as (? & ? & E4 & E5 & E6 & ->).
      apply Fin_inj in E1, E2, E4, E5. subst.
      split; [reflexivity|]. rewrite !xdiv_F by assumption. split; f_equal.
      * rewrite <- Hkey. field. assumption.
      * rewrite <- Hkey2 at 1. field. assumption.
  - do 3 (apply pair_equal_spec in H; destruct H as [H ?]); subst a b c d. destruct Hb as [rc Hb].
    apply xdiv_inv in Hb. destruct Hb as (? & ? & E1 & E2 & E3 & ->). apply Fin_inj in E1, E2. subst.
    rewrite !xdiv_F by assumption. split; [f_equal|auto].
    rewrite <- Hkey. field. assumption.
Qed.

Lemma gooding_velocities_godal mu p r1 r2 th m x vr1 vt1 vr2 vt2 v1 v2 mus s k q rho sig :
  non_collinear r1 r2 -> 0 < mu -> angle_facts p r1 r2 th ->
  @goo_geometry XR (Fin mu) (Fin (vnorm r1)) (Fin (vnorm r2)) (@ndiv XR (Fin th) (nofZ 2)) =
    (mus, s, k, q, rho, sig) ->
  @goo_components XR m (Fin (vnorm r1)) (Fin (vnorm r2)) mus k q rho sig x = (vr1, vt1, vr2, vt2) ->
  let i_h := @get_orbit_normal_vector XR (vfin r1) (vfin r2) p in
  let i_r1 := @vdivs XR (vfin r1) (Fin (vnorm r1)) in
  let i_r2 := @vdivs XR (vfin r2) (Fin (vnorm r2)) in
  @vadd XR (vscale vr1 i_r1) (vscale vt1 (cross i_h i_r1)) = vfin v1 ->
  @vadd XR (vscale vr2 i_r2) (vscale vt2 (cross i_h i_r2)) = vfin v2 ->
  godal mu p r1 r2 v1 v2.
Proof.
  intros Hn Hm F EG EC i_h i_r1 i_r2 E1 E2. destruct (norms_pos _ _ Hn) as [N1 N2].
  destruct (gooding_geometry_F mu p r1 r2 th Hn Hm F) as (q' & sig' & EG' & Hsig & Esig & LF & Hd).
  rewrite EG in EG'. do 5 (apply pair_equal_spec in EG'; destruct EG' as [EG' ?]). subst mus s k q rho sig. clear EG.
  rename q' into q, sig' into sig.
  pose proof (lf_sq _ _ _ _ LF) as Hl. destruct (semiper_pos _ _ Hn) as [Hs Hcs].
  pose proof (chord_pos _ _ Hn) as Hc. pose proof (vnorm_pos _ Hn) as HN.
  set (e := if short_way_dec p r1 r2 then 1 else -1).
  assert (He : e * e = 1) by (unfold e; destruct (short_way_dec p r1 r2); lra).
  assert (Hel : 0 < e * q).
  { pose proof (lf_nz _ _ _ _ LF). unfold e. destruct (short_way_dec p r1 r2) as [S|S]; rewrite <- Hd in S; lra. }
  unfold goo_components in EC. destruct (@tlamb XR m (Fin q) _ x (-1)) as [[[a b] c] d] eqn:ET.
  change (@tlamb XR m (Fin q) (Fin (chord r1 r2 / semiper r1 r2)) x (-1))
    with (@tl_velocity XR (Fin q) (Fin (chord r1 r2 / semiper r1 r2)) x) in ET.
  do 3 (apply pair_equal_spec in EC; destruct EC as [EC ?]). subst vr1 vt1 vr2 vt2.
  unfold i_h, i_r1, i_r2 in E1, E2. clear i_h i_r1 i_r2.
  rewrite orbit_normal_F in E1, E2 by assumption. fold e in E1, E2.
  rewrite !vdivs_F, !cross_F in E1 by lra. rewrite !vdivs_F, !cross_F in E2 by lra.
  change (@nsqrt XR (Fin sig)) with (xsqrt (Fin sig)) in E1, E2. rewrite (xsqrt_F sig) in E1, E2 by assumption.
  assert (X : exists xr, x = Fin xr /\ (exists r, b = Fin r) /\ (exists r, c = Fin r) /\ (exists r, d = Fin r)).
  { assert (B : (exists r, b = Fin r) /\ (exists r, c = Fin r) /\ (exists r, d = Fin r)).
    { clear - E1. vinv. xunf. xinv. subst. eauto 6. }
    destruct x as [xr|]; [exists xr; tauto|]. exfalso. destruct B as (B & C & D).
    unfold tl_velocity in ET. xunf. cbn in ET.
    do 3 (apply pair_equal_spec in ET; destruct ET as [ET ?]). subst. destruct D; discriminate. }
  destruct X as (xr & -> & B & C & D).
  destruct (tl_velocity_F _ _ _ _ _ _ _ ET) as (z & Hz & Hz2 & -> & -> & ->); try assumption.
  { apply Rmult_eq_reg_l with (semiper r1 r2); [|lra].
    rewrite Rmult_minus_distr_l, Hl. field. lra. }
  assert (Hsg : sqrt sig * sqrt sig = sig) by now apply sqrt_sqrt.
  vinv. xunf. xinv. subst.
  match type of Hsg with sqrt ?X * _ = _ => set (sg := sqrt X) in * end.
  assert (Hsg0 : 0 <= sg) by apply sqrt_pos. clearbody sg e.
  eapply (izzo_godal mu p _ _ q e xr z sg); try eassumption;
    apply vec_eq; vunf; field; repeat split; lra.
Qed.
