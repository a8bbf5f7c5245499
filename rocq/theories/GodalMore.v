(** * battin1984, der2011, arora2013, negrete2024: the form of the velocities. *)
From Coq Require Import Reals ZArith Bool Lra Lia Psatz.
From Verif Require Import Num XReal XRealLemmas MApi ApiFacts MLinalg MAngles MScipy MBattin MDer MArora MNegrete
  MComplex MVallado Spec VecFacts VecXR AnglesXR Loops CallXR Godal GodalXR GodalIzzo.
Local Open Scope R_scope.

(** ** battin1984: the orbit, not the direction, is right for every [x], [y]. *)
Lemma bat_lambda_F p r1 r2 th :
  non_collinear r1 r2 -> angle_facts p r1 r2 th ->
  exists l, @bat_lambda XR (Fin (chord r1 r2)) (Fin (semiper r1 r2)) (Fin th) = Fin l /\
    lambda_facts p r1 r2 l /\ -1 < l < 1.
Proof.
  intros Hn F. destruct (semiper_pos _ _ Hn) as [Hs Hcs]. pose proof (chord_pos _ _ Hn) as Hc.
  set (s := semiper r1 r2) in *. set (c := chord r1 r2) in *.
  assert (P : 0 < s * (s - c)) by nra.
  pose proof (sqrt_lt_R0 _ P) as Q. pose proof (sqrt_sqrt _ (Rlt_le _ _ P)) as Q2.
  set (l0 := sqrt (s * (s - c)) / s).
  assert (L0 : 0 < l0) by (unfold l0; now apply Rdiv_lt_0_compat).
  assert (L2 : s * (l0 * l0) = s - c).
  { unfold l0. transitivity (sqrt (s * (s - c)) * sqrt (s * (s - c)) / s); [field; lra|]. rewrite Q2. field. lra. }
  assert (L1 : l0 < 1).
  { destruct (Rlt_dec l0 1); [assumption|]. assert (1 <= l0 * l0) by nra. nra. }
  unfold bat_lambda. xunf. cbn [xsub xmul xlift2]. rewrite xsqrt_F by lra. rewrite xdiv_F by lra. fold l0.
  cbn [xabs xopp xlift1]. rewrite Rabs_right by lra.
  destruct (xltb (Fin th) (Fin PI)) eqn:E.
  - apply xltb_F in E. exists l0. split; [reflexivity|]. split; [|lra]. constructor; fold s c; try lra.
    intros _. rewrite <- (af_pi _ _ _ _ F). lra.
  - apply xltb_Ff in E. exists (- l0). split; [reflexivity|]. split; [|lra]. constructor; fold s c; try nra.
    intros _. rewrite <- (af_pi _ _ _ _ F). lra.
Qed.

Lemma bat_m_F mu tof s l :
  0 < s -> -1 < l -> @bat_m XR (Fin mu) (Fin tof) (Fin s) (Fin l)
   = Fin (8 * mu * (tof * tof) / (s * s * s * (1 + l) ^ 6)).
Proof.
  intros. unfold bat_m. xunf. cbn [npown nofZ nmul XR xadd xmul xlift2].
  rewrite xdiv_F.
  - f_equal. f_equal. ring.
  - repeat apply Rmult_integral_contrapositive_currified; lra.
Qed.

(** The two components of battin's velocities. *)
Lemma battin_velocities_form mu p r1 r2 tof l x y v1 v2 :
  non_collinear r1 r2 -> 0 < mu -> 0 < tof -> lambda_facts p r1 r2 l -> -1 < l < 1 ->
  @bat_velocities XR (Fin tof) (vfin r1) (vfin r2) (Fin (vnorm r1)) (Fin (vnorm r2))
    (Fin (semiper r1 r2)) (Fin l)
    (Fin (8 * mu * (tof * tof) / (semiper r1 r2 * semiper r1 r2 * semiper r1 r2 * (1 + l) ^ 6))) x y
    = (vfin v1, vfin v2) ->
  exists a b xr yr, x = Fin xr /\ y = Fin yr /\
    v1 = vplus (vmult a (vminus r2 r1)) (vmult (b / vnorm r1) r1) /\
    v2 = vminus (vmult a (vminus r2 r1)) (vmult (b / vnorm r2) r2) /\
    a * b * Kgeo r1 r2 = mu /\
    a = (1 + l) * (1 + l) / (4 * tof * l) * (yr * (1 + xr)).
Proof.
  intros Hn Hm Ht F Hl H. destruct (norms_pos _ _ Hn) as [N1 N2]. destruct (semiper_pos _ _ Hn) as [Hs Hcs].
  pose proof (lf_sq _ _ _ _ F) as L2. pose proof (lf_nz _ _ _ _ F) as L0.
  pose proof (semiper_K r1 r2) as SK.
  unfold bat_velocities in H. set (m := 8 * _ * _ / _) in H. set (s := semiper r1 r2) in *.
  assert (Hms : m * s * ((1 + l) * (1 + l)) * (s * s * ((1 + l) * (1 + l) * (1 + l) * (1 + l)))
                = 8 * mu * (tof * tof)).
  { unfold m. field. split; lra. }
  clearbody m. assert (HK : Kgeo r1 r2 = 2 * (s * (s * (l * l)))) by (rewrite L2, SK; field).
  vinv. xunf. xinv. subst.
  match goal with H : ?y * (1 + ?x) <> 0 |- _ => rename y into yr; rename x into xr; rename H into Hyx end.
  exists ((1 + l) * (1 + l) / (4 * tof * l) * (yr * (1 + xr))),
    ((1 + l) * (1 + l) / (4 * tof * l) * (m * s * ((1 + l) * (1 + l)) / (yr * (1 + xr)))), xr, yr.
  assert (D : 4 * tof * l <> 0) by (repeat apply Rmult_integral_contrapositive_currified; lra).
  assert (yr <> 0 /\ 1 + xr <> 0) as [Y X].
  { split; intros E; apply Hyx; rewrite E; ring. }
  split; [reflexivity|]. split; [reflexivity|]. split; [|split; [|split; [|reflexivity]]].
  - apply vec_eq; vunf; field; repeat split; assumption || lra.
  - apply vec_eq; vunf; field; repeat split; assumption || lra.
  - rewrite HK.
    transitivity ((m * s * ((1 + l) * (1 + l)) * (s * s * ((1 + l) * (1 + l) * (1 + l) * (1 + l)))) / (8 * (tof * tof))).
    + field. repeat split; assumption || lra.
    + rewrite Hms. field. lra.
Qed.

(** ** der2011 *)
Lemma der_sigma_F p r1 r2 th :
  non_collinear r1 r2 -> angle_facts p r1 r2 th ->
  exists sg, @der_sigma XR (Fin (vnorm r1)) (Fin (vnorm r2))
      (Fin (vnorm r1 + vnorm r2 + chord r1 r2)) (Fin th) = Fin sg /\
    sg * sg = (vnorm r1 + vnorm r2 - chord r1 r2) / (vnorm r1 + vnorm r2 + chord r1 r2) /\
    0 < sg * sg < 1 /\ (0 < sg <-> short_way p r1 r2).
Proof.
  intros Hn F. destruct (norms_pos _ _ Hn) as [N1 N2]. pose proof (chord_pos _ _ Hn) as Hc.
  destruct (triangle _ _ Hn) as (T & _ & _).
  pose proof (chord_sq r1 r2) as C2. pose proof (af_K _ _ _ _ F) as HK. unfold Kgeo in HK.
  pose proof (af_half_sq _ _ _ _ F) as H2. pose proof (af_half _ _ _ _ F) as Hh.
  unfold der_sigma. xunf. rewrite (xdiv_F th 2) by lra. cbn [xadd xmul xlift2 xlift1].
  set (n1 := vnorm r1) in *. set (n2 := vnorm r2) in *. set (c := chord r1 r2) in *.
  assert (N12 : 0 < n1 * n2) by nra.
  pose proof (sqrt_lt_R0 _ N12) as Q. pose proof (sqrt_sqrt _ (Rlt_le _ _ N12)) as Q2.
  rewrite xsqrt_F by lra. cbn [xmul xlift2]. rewrite xdiv_F by lra. eexists. split; [reflexivity|].
  assert (E : 2 * sqrt (n1 * n2) * cos (th / 2) / (n1 + n2 + c) * (2 * sqrt (n1 * n2) * cos (th / 2) / (n1 + n2 + c))
     = (n1 + n2 - c) / (n1 + n2 + c)).
  { transitivity (4 * (sqrt (n1 * n2) * sqrt (n1 * n2)) * (cos (th / 2) * cos (th / 2)) / ((n1 + n2 + c) * (n1 + n2 + c)));
      [field; lra|]. rewrite Q2, H2.
    transitivity (2 * (n1 * n2 * (1 + cos th)) / ((n1 + n2 + c) * (n1 + n2 + c))); [field; lra|]. rewrite HK.
    replace (vdot r1 r2) with ((n1 * n1 + n2 * n2 - c * c) / 2) by (rewrite C2; field). field. lra. }
  split; [exact E|]. split.
  - rewrite E. split; [apply Rdiv_lt_0_compat; lra|]. apply Rmult_lt_reg_r with (n1 + n2 + c); [lra|]. field_simplify; lra.
  - rewrite <- Hh. split; intros P.
    + assert (0 < 2 * sqrt (n1 * n2) * cos (th / 2)).
      { apply Rmult_lt_reg_r with (/ (n1 + n2 + c)); [apply Rinv_0_lt_compat; lra|]. unfold Rdiv in P. lra. }
      nra.
    + apply Rdiv_lt_0_compat; nra.
Qed.

Lemma der_y_F sg x :
  0 < sg * sg < 1 ->
  exists y, @der_y XR (Fin sg) (Fin x) = Fin y /\ y * y = 1 - sg * sg * (1 - x * x) /\ (0 < y <-> 0 < sg).
Proof.
  intros Hs. unfold der_y. xunf. cbn [xsub xmul xlift2].
  set (rad := 1 - sg * sg * (1 - x * x)). assert (R0 : 0 < rad) by (unfold rad; nra).
  unfold pymax. xunf. replace (xltb (Fin 0) (Fin rad)) with true by (symmetry; now apply xltb_F).
  rewrite xsqrt_F by lra. pose proof (sqrt_lt_R0 _ R0) as Q. pose proof (sqrt_sqrt _ (Rlt_le _ _ R0)) as Q2.
  unfold xeqb. destruct (Req_EM_T sg 0) as [E|E]; [nra|]. unfold ncopysign. xunf. cbn [xabs xopp xlift1].
  rewrite Rabs_right by lra.
  destruct (xltb (Fin sg) (Fin 0)) eqn:G.
  - apply xltb_F in G. eexists. split; [reflexivity|]. split; [lra|]. split; lra.
  - apply xltb_Ff in G. eexists. split; [reflexivity|]. split; [lra|]. split; lra.
Qed.

Lemma der_velocities_godal mu p r1 r2 sg x v1 v2 :
  non_collinear r1 r2 -> 0 < mu ->
  sg * sg = (vnorm r1 + vnorm r2 - chord r1 r2) / (vnorm r1 + vnorm r2 + chord r1 r2) ->
  0 < sg * sg < 1 -> (0 < sg <-> short_way p r1 r2) ->
  @der_velocities XR (Fin mu) (vfin r1) (vfin r2) (Fin (vnorm r1)) (Fin (vnorm r2)) (Fin (chord r1 r2))
    (Fin (vnorm r1 + vnorm r2 + chord r1 r2)) (Fin (vnorm r1 + vnorm r2 - chord r1 r2)) x (@der_y XR (Fin sg) x)
    = (vfin v1, vfin v2) ->
  godal mu p r1 r2 v1 v2.
Proof.
  intros Hn Hm Hs2 Hs01 Hsd H. destruct (norms_pos _ _ Hn) as [N1 N2]. pose proof (chord_pos _ _ Hn) as Hc.
  destruct (triangle _ _ Hn) as (T & _ & _). pose proof (chord_sq r1 r2) as C2.
  assert (HK : 2 * Kgeo r1 r2 = (vnorm r1 + vnorm r2 + chord r1 r2) * (vnorm r1 + vnorm r2 - chord r1 r2)).
  { unfold Kgeo. transitivity ((vnorm r1 + vnorm r2) * (vnorm r1 + vnorm r2) - chord r1 r2 * chord r1 r2); [rewrite C2; ring|ring]. }
  assert (X : exists xr, x = Fin xr).
  { unfold der_velocities in H. remember (@der_y XR (Fin sg) x) as y. clear - H. vinv. xunf. xinv. eauto. }
  destruct X as (xr & ->). destruct (der_y_F sg xr Hs01) as (yr & EY & Y2 & Yd). rewrite EY in H.
  unfold der_velocities in H. rewrite vsub_F in H.
  set (c := chord r1 r2) in *. remember (vnorm r1 + vnorm r2 + c) as m eqn:Em. remember (vnorm r1 + vnorm r2 - c) as n eqn:En.
  assert (M0 : 0 < m) by lra. assert (NN : 0 < n) by lra. assert (MN : m - n = 2 * c) by lra.
  set (qm := sqrt m). set (qn := sqrt n). set (qu := sqrt mu).
  assert (Qm : 0 < qm /\ qm * qm = m) by (split; [now apply sqrt_lt_R0|apply sqrt_sqrt; lra]).
  assert (Qn : 0 < qn /\ qn * qn = n) by (split; [now apply sqrt_lt_R0|apply sqrt_sqrt; lra]).
  assert (Qu : 0 < qu /\ qu * qu = mu) by (split; [now apply sqrt_lt_R0|apply sqrt_sqrt; lra]).
  exists (qu * (yr / qn + xr / qm) / c), (qu * (yr / qn - xr / qm)).
  assert (V1 : v1 = vplus (vmult (qu * (yr / qn + xr / qm) / c) (vminus r2 r1)) (vmult (qu * (yr / qn - xr / qm) / vnorm r1) r1)).
  { clear - H Hc N1 N2 Qm Qn Qu. subst qm qn qu. vinv. xunf. xinv. subst. apply vec_eq; vunf; field; repeat split; lra. }
  assert (V2 : v2 = vminus (vmult (qu * (yr / qn + xr / qm) / c) (vminus r2 r1)) (vmult (qu * (yr / qn - xr / qm) / vnorm r2) r2)).
  { clear - H Hc N1 N2 Qm Qn Qu. subst qm qn qu. vinv. xunf. xinv. subst. apply vec_eq; vunf; field; repeat split; lra. }
  assert (D : (yr / qn + xr / qm) * (yr / qn - xr / qm) = (1 - sg * sg) / n).
  { transitivity (yr * yr / (qn * qn) - xr * xr / (qm * qm)); [field; lra|].
    destruct Qm as [_ ->], Qn as [_ ->]. rewrite Y2, Hs2. field. lra. }
  split; [exact V1|]. split; [exact V2|]. split.
  - replace (Kgeo r1 r2) with (m * n / 2) by lra.
    transitivity (qu * qu * ((yr / qn + xr / qm) * (yr / qn - xr / qm)) * m * n / (2 * c)); [field; lra|].
    destruct Qu as [_ ->]. rewrite D, Hs2. transitivity (mu * (m - n) / (2 * c)); [field; lra|]. rewrite MN. field. lra.
  - intros _. rewrite <- Hsd, <- Yd. destruct Qm as [Qm _], Qn as [Qn _], Qu as [Qu _].
    assert (P : 0 < (1 - sg * sg) / n) by (apply Rdiv_lt_0_compat; lra). rewrite <- D in P.
    assert (S : 0 < yr / qn <-> 0 < yr).
    { split; intros Z; [|now apply Rdiv_lt_0_compat].
      apply Rmult_lt_reg_r with (/ qn); [now apply Rinv_0_lt_compat|]. unfold Rdiv in Z. lra. }
    rewrite <- S. set (A := yr / qn) in *. set (B := xr / qm) in *.
    split; intros Z.
    + assert (0 < qu * (A + B)).
      { apply Rmult_lt_reg_r with (/ c); [now apply Rinv_0_lt_compat|]. unfold Rdiv in Z. lra. }
      assert (0 < A + B) by nra. nra.
    + apply Rdiv_lt_0_compat; [|assumption]. apply Rmult_lt_0_compat; [assumption|]. nra.
Qed.

(** ** arora2013 *)
Lemma vmap_scale_inv (x : xr) v w :
  vmap (fun a : @num XR => @nmul XR a x) v = vfin w ->
  exists c u, x = Fin c /\ v = vfin u /\ w = vmult c u.
Proof.
  destruct v as [a b d], w as [a' b' d']. unfold vfin, vmap. cbn [vx vy vz]. intros H. injection H. clear H. intros H1 H2 H3.
  change (xmul d x = Fin d') in H1. change (xmul b x = Fin b') in H2. change (xmul a x = Fin a') in H3.
  xinv. subst. eexists _, (V3 _ _ _). split; [reflexivity|]. split; [reflexivity|]. unfold vmult. cbn [vx vy vz].
  f_equal; ring.
Qed.

Lemma arora_velocities_ab mu p r1 r2 th d S tau k v1 v2 :
  non_collinear r1 r2 -> 0 < mu -> angle_facts p r1 r2 th ->
  d * d = 1 -> (0 < d <-> short_way p r1 r2) ->
  let h := vnorm r2 / vnorm r1 in
  let T := sqrt (vnorm r1 * vnorm r1 * vnorm r1 / mu) in
  S = sqrt ((1 + h) * (1 + h) * (1 + h)) ->
  tau = d * sqrt (h * (1 + cos th)) / (1 + h) ->
  @aro_velocities XR (Fin 1) (Fin (vnorm r1)) (Fin T) (vfin (vmult (/ vnorm r1) r1)) (vfin (vmult (/ vnorm r1) r2))
    (Fin 1) (Fin h) (Fin tau) (Fin S) k = (vfin v1, vfin v2) ->
  exists kr a b, k = Fin kr /\ 0 < 1 - kr * tau /\
    v1 = vplus (vmult a (vminus r2 r1)) (vmult (b / vnorm r1) r1) /\
    v2 = vminus (vmult a (vminus r2 r1)) (vmult (b / vnorm r2) r2) /\
    a * b * Kgeo r1 r2 = mu /\ (0 < a <-> 0 < tau) /\ (0 < tau <-> 0 < d) /\
    b / a = (1 - kr * tau) * (vnorm r1 + vnorm r2) /\
    (tau * (vnorm r1 + vnorm r2)) * (tau * (vnorm r1 + vnorm r2)) = Kgeo r1 r2.
Proof.
  intros Hn Hm F Hd2 Hd h T HS Htau H. destruct (norms_pos _ _ Hn) as [N1 N2].
  pose proof (af_K _ _ _ _ F) as HK. pose proof (Kgeo_pos _ _ Hn) as K0. pose proof (af_cos _ _ _ _ F) as Hcos.
  assert (H0 : 0 < h) by (unfold h; now apply Rdiv_lt_0_compat).
  set (w := 1 + cos th) in *. assert (W : 0 < w) by (unfold w; lra).
  assert (Hhw : 0 < h * w) by nra.
  assert (S2 : 0 < S /\ S * S = (1 + h) * (1 + h) * (1 + h)).
  { assert (0 < (1 + h) * (1 + h) * (1 + h)) by (assert (0 < 1 + h) by lra; repeat apply Rmult_lt_0_compat; assumption).
    subst S. split; [now apply sqrt_lt_R0|apply sqrt_sqrt; lra]. }
  assert (Hn3 : 0 < vnorm r1 * vnorm r1 * vnorm r1 / mu).
  { apply Rdiv_lt_0_compat; [|assumption]. repeat apply Rmult_lt_0_compat; assumption. }
  assert (T2 : 0 < T /\ T * T = vnorm r1 * vnorm r1 * vnorm r1 / mu).
  { unfold T. split; [now apply sqrt_lt_R0|apply sqrt_sqrt; lra]. }
  assert (Q2 : 0 < sqrt (h * w) /\ sqrt (h * w) * sqrt (h * w) = h * w).
  { split; [now apply sqrt_lt_R0|apply sqrt_sqrt; lra]. }
  assert (tau2 : tau * tau * ((1 + h) * (1 + h)) = h * w).
  { destruct Q2 as [_ <-]. rewrite Htau. transitivity (d * d * (sqrt (h * w) * sqrt (h * w))); [field; lra|]. rewrite Hd2. ring. }
  assert (taud : 0 < tau <-> 0 < d).
  { rewrite Htau. split; intros Z.
    - assert (0 < d * sqrt (h * w)).
      { apply Rmult_lt_reg_r with (/ (1 + h)); [apply Rinv_0_lt_compat; lra|]. unfold Rdiv in Z. lra. }
      destruct Q2. nra.
    - apply Rdiv_lt_0_compat; [|lra]. apply Rmult_lt_0_compat; tauto. }
  clear HS Htau. clearbody T. destruct S2 as [S0 S2], T2 as [T0 T2].
  assert (Hh : h * vnorm r1 = vnorm r2) by (unfold h; field; lra). clearbody h.
  unfold aro_velocities in H.
  assert (K1 : exists kr gr, k = Fin kr /\
    @nmul XR (@nmul XR (Fin S) (Fin tau)) (@nsqrt XR (@nmul XR (@nsub XR (nofZ 1) (@nmul XR k (Fin tau))) (Fin 1))) = Fin gr
    /\ gr <> 0 /\ 0 <= (1 - kr * tau) * 1 /\ gr = S * tau * sqrt ((1 - kr * tau) * 1)).
  { clear - H. apply pair_equal_spec in H. destruct H as [H _]. apply vmap_scale_inv in H. destruct H as (c & u & _ & H & _).
    apply vdivs_fin_inv in H. destruct H as (g & u' & Eg & Hg & _ & _). 
    assert (Q : exists kr, k = Fin kr /\ 0 <= (1 - kr * tau) * 1 /\ g = S * tau * sqrt ((1 - kr * tau) * 1)).
    { clear Hg. xunf. xinv. subst. eauto. }
    destruct Q as (kr & -> & Q1 & Q2). exists kr, g. auto. }
  destruct K1 as (kr & gr & -> & EG & G0 & Gr & Eg). rewrite EG in H.
  rewrite Rmult_1_r in *. set (u := 1 - kr * tau) in *.
  assert (U2 : sqrt u * sqrt u = u) by now apply sqrt_sqrt.
  assert (U0 : 0 < sqrt u).
  { destruct (sqrt_pos u) as [|E]; [assumption|]. exfalso. apply G0. rewrite Eg, <- E. ring. }
  assert (U : 0 < u) by nra.
  assert (g2 : gr * gr * (1 + h) = S * S * (tau * tau) * u * (1 + h)) by (rewrite <- U2 at 1; rewrite Eg; ring).
  assert (g3 : gr * gr = u * (1 + h) * (h * w)).
  { apply Rmult_eq_reg_r with (1 + h); [|lra]. rewrite g2, S2, <- tau2. ring. }
  exists kr, (/ (T * gr)), (u * (1 + h) * vnorm r1 / (T * gr)). split; [reflexivity|]. split; [exact U|].
  assert (EQ : v1 = vplus (vmult (/ (T * gr)) (vminus r2 r1)) (vmult (u * (1 + h) * vnorm r1 / (T * gr) / vnorm r1) r1) /\
     v2 = vminus (vmult (/ (T * gr)) (vminus r2 r1)) (vmult (u * (1 + h) * vnorm r1 / (T * gr) / vnorm r2) r2)).
  { assert (F1 : @nsub XR (nofZ 1) (@ndiv XR (@nmul XR (@nsub XR (nofZ 1) (@nmul XR (Fin kr) (Fin tau))) (@nadd XR (Fin 1) (Fin h))) (Fin 1))
       = Fin (1 - u * (1 + h))).
    { xunf. cbn [xsub xadd xmul xlift2]. rewrite xdiv_F by lra. cbn [xsub xlift2]. f_equal. unfold u. field. }
    assert (F2 : @nsub XR (nofZ 1) (@ndiv XR (@nmul XR (@nsub XR (nofZ 1) (@nmul XR (Fin kr) (Fin tau))) (@nadd XR (Fin 1) (Fin h))) (Fin h))
       = Fin (1 - u * (1 + h) / h)).
    { xunf. cbn [xsub xadd xmul xlift2]. rewrite xdiv_F by lra. reflexivity. }
    rewrite F1, F2 in H. rewrite !vscale_F, !vsub_F, !vdivs_F in H by assumption.
    assert (F3 : @ndiv XR (Fin (vnorm r1)) (Fin T) = Fin (vnorm r1 / T)) by (xunf; now rewrite xdiv_F by lra).
    rewrite F3 in H.
    assert (F4 : forall v, vmap (fun a : @num XR => @nmul XR a (Fin (vnorm r1 / T))) (vfin v) = vfin (vmult (vnorm r1 / T) v)).
    { intros [a b c]. unfold vfin, vmult, vmap. cbn [vx vy vz]. xunf. cbn [xmul xlift2]. f_equal; f_equal; ring. }
    rewrite !F4 in H. apply pair_equal_spec in H. destruct H as [E1 E2]. apply vfin_inj in E1, E2. subst v1 v2.
    rewrite <- Hh. split; apply vec_eq; vunf; field; repeat split; assumption || lra. }
  destruct EQ as [E1 E2]. split; [exact E1|]. split; [exact E2|]. split; [|split; [|split; [exact taud|split]]].
  - rewrite <- HK, <- Hh.
    transitivity (u * (1 + h) * (h * w) * (vnorm r1 * vnorm r1 * vnorm r1) / ((T * T) * (gr * gr))); [field; lra|].
    rewrite T2, g3. field. repeat split; lra.
  - assert (E : T * gr = T * S * sqrt u * tau) by (rewrite Eg; ring).
    assert (P : 0 < T * S * sqrt u) by (repeat apply Rmult_lt_0_compat; assumption).
    rewrite E. split; intros Z.
    + apply Rinv_0_lt_compat in Z. rewrite Rinv_inv in Z. nra.
    + apply Rinv_0_lt_compat. nra.
  - rewrite <- Hh. unfold u. field. split; lra.
  - rewrite <- HK, <- Hh. transitivity (tau * tau * ((1 + h) * (1 + h)) * (vnorm r1 * vnorm r1)); [ring|]. rewrite tau2. ring.
Qed.

Lemma arora_velocities_godal mu p r1 r2 th d S tau k v1 v2 :
  non_collinear r1 r2 -> 0 < mu -> angle_facts p r1 r2 th ->
  d * d = 1 -> (0 < d <-> short_way p r1 r2) ->
  let h := vnorm r2 / vnorm r1 in
  let T := sqrt (vnorm r1 * vnorm r1 * vnorm r1 / mu) in
  S = sqrt ((1 + h) * (1 + h) * (1 + h)) ->
  tau = d * sqrt (h * (1 + cos th)) / (1 + h) ->
  @aro_velocities XR (Fin 1) (Fin (vnorm r1)) (Fin T) (vfin (vmult (/ vnorm r1) r1)) (vfin (vmult (/ vnorm r1) r2))
    (Fin 1) (Fin h) (Fin tau) (Fin S) k = (vfin v1, vfin v2) ->
  godal mu p r1 r2 v1 v2.
Proof.
  intros Hn Hm F Hd2 Hd h T HS Htau H.
  destruct (arora_velocities_ab mu p r1 r2 th d S tau k v1 v2 Hn Hm F Hd2 Hd HS Htau H) as (kr & a & b & _ & _ & E1 & E2 & E3 & Ha & Ht & _).
  exists a, b. repeat split; try assumption; intros Z; tauto.
Qed.

(** ** negrete2024 *)
Lemma neg_A_F p r1 r2 th :
  non_collinear r1 r2 -> angle_facts p r1 r2 th ->
  exists A, @neg_A XR (Fin (vnorm r1)) (Fin (vnorm r2)) (Fin th) = Fin A /\
    A * A = Kgeo r1 r2 /\ (0 < A <-> short_way p r1 r2).
Proof.
  intros Hn F. pose proof (af_K _ _ _ _ F) as HK. pose proof (Kgeo_pos _ _ Hn) as K0.
  unfold neg_A. xunf. cbn [xmul xadd xlift2 xlift1]. rewrite HK. rewrite xsqrt_F by lra.
  pose proof (sqrt_lt_R0 _ K0) as Q. pose proof (sqrt_sqrt _ (Rlt_le _ _ K0)) as Q2.
  destruct (xltb (Fin th) (Fin PI)) eqn:E; cbn [xopp xmul xlift2 xlift1]; (eexists; split; [reflexivity|]; split; [lra|]);
    rewrite <- (af_pi _ _ _ _ F).
  - apply xltb_F in E. lra.
  - apply xltb_Ff in E. lra.
Qed.

Lemma negrete_velocities_godal mu p r1 r2 A z v1 v2 :
  non_collinear r1 r2 -> 0 < mu ->
  A * A = Kgeo r1 r2 -> (0 < A <-> short_way p r1 r2) ->
  @neg_velocities XR (Fin mu) (vfin r1) (vfin r2) (Fin (vnorm r1)) (Fin (vnorm r2)) (Fin A) z
    = (vfin v1, vfin v2) ->
  godal mu p r1 r2 v1 v2.
Proof.
  intros Hn Hm HA HAs H. unfold neg_velocities in H. set (y := cre _) in H.
  apply (fg_velocities_godal mu p r1 r2 A y); assumption.
Qed.
