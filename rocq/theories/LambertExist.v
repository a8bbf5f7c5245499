(** * Existence of the zero-revolution transfer.

    The reduced time of flight [Gz] of ZMono.v takes every positive value. *)
From Coq Require Import Reals ZArith Lra Lia Psatz.
From Coquelicot Require Import Coquelicot.
From Verif Require Import Num Spec SpecLambert VecFacts UniversalKepler LambertUV LambertRev GodalXR DelatorreXR LambertZ StumpffSmooth ZMono LambertUnique.
Local Open Scope R_scope.

Lemma kz_ell s : 0 < s -> sin s <> 0 -> kz (s * s) = (s - sin s * cos s) / (4 * (sin s * sin s * sin s)).
Proof.
  intros Hs Hn. unfold kz. replace (4 * (s * s)) with (2 * s * (2 * s)) by ring.
  rewrite S3_ell, S1_ell, sin_2a by lra. field. split; lra.
Qed.
Lemma kz_hyp s : 0 < s -> kz (- (s * s)) = (sinh s * cosh s - s) / (4 * (sinh s * sinh s * sinh s)).
Proof.
  intros Hs. unfold kz. replace (4 * - (s * s)) with (- (2 * s * (2 * s))) by ring.
  pose proof (sinh_pos s Hs). rewrite S3_hyp, S1_hyp, sinh_double by lra. field. split; lra.
Qed.

Lemma kz_unbounded B : exists z, 0 < z < PI * PI /\ B < kz z.
Proof.
  pose proof PI_RGT_0 as HP. pose proof PI2_3_2 as P3. unfold PI2 in P3.
  set (b := Rmax 1 B). assert (HB : 1 <= b) by apply Rmax_l. assert (HB' : B <= b) by apply Rmax_r. clearbody b.
  set (d := / (5 * b)). assert (Hd : 0 < d) by (apply Rinv_0_lt_compat; lra).
  assert (Eb : d * (5 * b) = 1) by (apply Rinv_l; lra).
  assert (Hd1 : d <= 1) by nra. clearbody d.
  exists ((PI - d) * (PI - d)). split; [split; nra|].
  assert (Q1 : sin (PI - d) = sin d) by (rewrite sin_PI_x; reflexivity).
  assert (Q2 : cos (PI - d) = - cos d) by (rewrite Rtrigo_facts.cos_pi_minus; reflexivity).
  assert (S1 : 0 < sin d) by (apply sin_gt_0; lra). assert (S2 : sin d < d) by (now apply sin_lt_x).
  assert (C1 : 0 < cos d) by (apply cos_gt_0; lra).
  rewrite kz_ell by lra. rewrite Q1, Q2. set (s := sin d) in *. set (c := cos d) in *. clearbody s c.
  assert (D : 0 < 4 * (s * s * s)) by (repeat apply Rmult_lt_0_compat; lra).
  apply Rmult_lt_reg_r with (4 * (s * s * s)); [assumption|].
  replace ((PI - d - s * - c) / (4 * (s * s * s)) * (4 * (s * s * s))) with (PI - d + s * c) by (field; nra).
  assert (s * s * s <= d) by (assert (s * s <= 1) by nra; nra). nra.
Qed.

Lemma kz_0 : kz 0 = 1 / 6.
Proof. unfold kz. rewrite Rmult_0_r. destruct at_0 as (_ & -> & ->). field. Qed.

Lemma kz_hyp_le s : 0 < s -> kz (- (s * s)) <= 1 / 6.
Proof.
  intros Hs. rewrite kz_hyp by assumption. pose proof (sinh_pos s Hs) as P.
  assert (D : 0 < 4 * (sinh s * sinh s * sinh s)) by (clear - P; set (x := sinh s) in *; clearbody x; repeat apply Rmult_lt_0_compat; lra).
  apply Rmult_le_reg_r with (4 * (sinh s * sinh s * sinh s)); [assumption|].
  replace ((sinh s * cosh s - s) / (4 * (sinh s * sinh s * sinh s)) * (4 * (sinh s * sinh s * sinh s)))
    with (sinh s * cosh s - s) by (field; lra).
  destruct (MVT_cor2 (fun t => 2 / 3 * (sinh t * sinh t * sinh t) - sinh t * cosh t + t)
    (fun t => 2 * (sinh t * sinh t) * (cosh t - 1)) 0 s Hs) as (c & E & Hc).
  - intros c _. apply is_derive_Reals. auto_derive; [trivial|].
    pose proof (cosh_double 0). unfold sinh, cosh. replace (exp (- c)) with (/ exp c) by (now rewrite exp_Ropp).
    pose proof (exp_pos c). field. lra.
  - rewrite sinh_0 in E. assert (1 <= cosh c).
    { replace c with (2 * (c / 2)) by field. rewrite cosh_double. pose proof (Rle_0_sqr (sinh (c / 2))) as S. unfold Rsqr in S. lra. }
    assert (0 <= 2 * (sinh c * sinh c) * (cosh c - 1) * (s - 0)).
    { apply Rmult_le_pos; [|lra]. apply Rmult_le_pos; [|lra]. pose proof (Rle_0_sqr (sinh c)) as S. unfold Rsqr in S. lra. }
    lra.
Qed.

Lemma Gz_small_pos P Q g : 0 < Q < P -> 0 < g -> exists z, z < 0 /\ 0 < P - Q * C0 z /\ Gz P Q z < g.
Proof.
  intros HQ Hg.
  set (w := Rmin (Rmin 1 ((P - Q) / 2)) (g / (1 + Q))).
  assert (W1 : w <= 1) by (unfold w; eapply Rle_trans; [apply Rmin_l|apply Rmin_l]).
  assert (W2 : w <= (P - Q) / 2) by (unfold w; eapply Rle_trans; [apply Rmin_l|apply Rmin_r]).
  assert (W3 : w <= g / (1 + Q)) by (unfold w; apply Rmin_r).
  assert (W0 : 0 < w) by (unfold w; repeat apply Rmin_glb_lt; try apply Rdiv_lt_0_compat; lra).
  clearbody w.
  assert (Hc : 1 < (P - w * w) / Q).
  { apply Rmult_lt_reg_r with Q; [lra|]. unfold Rdiv. rewrite Rmult_assoc, Rinv_l by lra. nra. }
  destruct (C0_onto ((P - w * w) / Q)) as [(s & _ & _ & L)|[L|(s & Hs & E & _)]]; try lra.
  exists (- (s * s)). split; [nra|]. unfold Gz. rewrite C0_hyp, <- E by assumption.
  replace (P - Q * ((P - w * w) / Q)) with (w * w) by (field; lra).
  split; [nra|]. rewrite sqrt_square by lra. pose proof (kz_hyp_le s Hs) as K.
  set (k := kz _) in *. clearbody k.
  assert (w * (1 + Q) <= g).
  { apply Rmult_le_reg_r with (/ (1 + Q)); [apply Rinv_0_lt_compat; lra|]. rewrite Rmult_assoc, Rinv_r by lra. unfold Rdiv in W3. lra. }
  assert (0 < w * w * w) by (repeat apply Rmult_lt_0_compat; lra).
  assert (w * w * w <= w) by nra. nra.
Qed.

Lemma cosh_ge_1 s : 1 <= cosh s.
Proof.
  replace s with (2 * (s / 2)) by field. rewrite cosh_double. pose proof (Rle_0_sqr (sinh (s / 2))) as S. unfold Rsqr in S. lra.
Qed.
Lemma cosh_sq s : cosh s * cosh s = 1 + sinh s * sinh s.
Proof. unfold cosh, sinh. pose proof (exp_pos s). rewrite exp_Ropp. field. lra. Qed.

Lemma Gz_small_neg P q g : 0 < q < P -> 0 < g -> exists z, z < 0 /\ Gz P (- q) z < g.
Proof.
  intros Hq Hg. set (b := P + q). assert (Hb : 0 < b) by (unfold b; lra).
  set (m := Rmax 2 (b * b * b / (g * g))). assert (M2 : 2 <= m) by apply Rmax_l.
  assert (M3 : b * b * b / (g * g) <= m) by apply Rmax_r. clearbody m.
  destruct (C0_onto m) as [(s & _ & _ & L)|[L|(s & Hs & E & _)]]; try lra.
  exists (- (s * s)). split; [nra|]. unfold Gz. rewrite C0_hyp, kz_hyp, <- E by assumption.
  pose proof (sinh_pos s Hs) as P0. pose proof (cosh_sq s) as CS. rewrite <- E in CS.
  set (h := sinh s) in *. clearbody h. clear E.
  replace (P - - q * m) with (P + q * m) by ring.
  assert (HV : 0 < P + q * m) by nra. destruct (sqrt_facts _ HV) as [R1 R2].
  set (r := sqrt (P + q * m)) in *. clearbody r. rewrite <- R2 in *.
  assert (HR : r * r <= b * m) by (unfold b; nra).
  assert (H3 : 0 < h * h * h) by (repeat apply Rmult_lt_0_compat; lra).
  (* the difference of the two large terms *)
  assert (Hk : 2 * (r * r * r) * ((h * m - s) / (4 * (h * h * h))) + - q / 2 * r <= r * (b * m / (2 * (h * h)))).
  { apply Rmult_le_reg_r with (2 * (h * h * h) / r); [apply Rdiv_lt_0_compat; lra|].
    replace ((2 * (r * r * r) * ((h * m - s) / (4 * (h * h * h))) + - q / 2 * r) * (2 * (h * h * h) / r))
      with (r * r * (h * m - s) - q * (h * (h * h))) by (field; split; lra).
    replace (r * (b * m / (2 * (h * h))) * (2 * (h * h * h) / r)) with (b * m * h) by (field; split; lra).
    rewrite R2. replace (h * h) with (m * m - 1) by lra. unfold b. assert (0 < s * (P + q * m)) by nra.
    assert (0 <= q * h * (m - 1)) by (repeat apply Rmult_le_pos; lra). lra. }
  eapply Rle_lt_trans; [exact Hk|].
  assert (Hh : 3 / 4 * (m * m) <= h * h) by nra.
  assert (B3 : b * b * b <= m * (g * g)).
  { apply Rmult_le_reg_r with (/ (g * g)); [apply Rinv_0_lt_compat; nra|]. replace (m * (g * g) * / (g * g)) with m by (field; lra).
    exact M3. }
  apply Rle_lt_trans with (2 / 3 * (r * b / m)).
  - replace (r * (b * m / (2 * (h * h)))) with (r * b * (m / (2 * (h * h)))) by (field; nra).
    replace (2 / 3 * (r * b / m)) with (r * b * (2 / (3 * m))) by (field; lra).
    apply Rmult_le_compat_l; [nra|].
    apply Rmult_le_reg_r with (6 * m * (h * h)); [repeat apply Rmult_lt_0_compat; lra|].
    replace (m / (2 * (h * h)) * (6 * m * (h * h))) with (3 * (m * m)) by (field; lra).
    replace (2 / (3 * m) * (6 * m * (h * h))) with (4 * (h * h)) by (field; lra). lra.
  - assert (r * b / m <= g); [|lra].
    apply Rmult_le_reg_r with m; [lra|]. replace (r * b / m * m) with (r * b) by (field; lra).
    apply Rsqr_incr_0_var; [|nra]. unfold Rsqr.
    replace (r * b * (r * b)) with (r * r * (b * b)) by ring.
    apply Rle_trans with (b * m * (b * b)); [apply Rmult_le_compat_r; [nra|exact HR]|].
    replace (b * m * (b * b)) with (m * (b * b * b)) by ring. replace (g * m * (g * m)) with (m * (m * (g * g))) by ring.
    apply Rmult_le_compat_l; lra.
Qed.

Lemma C0_gt_m1 z : z < PI * PI -> -1 < C0 z.
Proof.
  intros H. pose proof (C0_decreasing z (PI * PI)) as D. 
  destruct (Rlt_dec z (PI * PI)) as [L|]; [|lra].
  assert (E : C0 ((z + PI * PI) / 2) < C0 z) by (apply C0_decreasing; lra).
  assert (B : -1 <= C0 ((z + PI * PI) / 2)); [|lra].
  set (y := (z + PI * PI) / 2). unfold C0, U0. destruct (Rlt_dec 0 y); [apply COS_bound|].
  destruct (Rlt_dec y 0); [|lra]. pose proof (cosh_ge_1 (sqrt (- y) * 1)). lra.
Qed.

(** Every positive value is taken. *)
Theorem Gz_onto P Q g : Q <> 0 -> Rabs Q < P -> 0 < g ->
  exists z, z < PI * PI /\ 0 < P - Q * C0 z /\ Gz P Q z = g.
Proof.
  intros Q0 HQ Hg. apply Rabs_def2 in HQ.
  assert (Lo : exists z, z < 0 /\ 0 < P - Q * C0 z /\ Gz P Q z < g).
  { destruct (Rlt_dec 0 Q) as [L|L]; [now apply Gz_small_pos|].
    destruct (Gz_small_neg P (- Q) g) as (z & Hz & G); [lra|assumption|]. rewrite Ropp_involutive in G.
    exists z. split; [assumption|]. split; [|assumption]. pose proof PI_RGT_0. pose proof (C0_gt_m1 z ltac:(nra)). nra. }
  destruct Lo as (z0 & Hz0 & V0 & G0).
  assert (Mono : forall z, z0 <= z -> z < PI * PI -> 0 < P - Q * C0 z).
  { intros z Hz Hp. pose proof (C0_gt_m1 z Hp). 
    assert (C0 z <= C0 z0) by (destruct (Req_dec z0 z) as [->|]; [lra|left; apply C0_decreasing; lra]).
    destruct (Rlt_dec 0 Q); nra. }
  assert (Hi : exists z, 0 < z < PI * PI /\ g < Gz P Q z).
  { set (v := P - Rabs Q). assert (Hv : 0 < v) by (unfold v; pose proof (Rabs_def1 Q P ltac:(lra) ltac:(lra)); lra).
    destruct (sqrt_facts v Hv) as [R1 R2].
    set (u := sqrt (P + Rabs Q)).
    destruct (kz_unbounded ((g + Rabs Q / 2 * u) / (2 * (v * sqrt v)))) as (z & Hz & K).
    exists z. split; [assumption|]. 
    assert (CB : -1 <= C0 z <= 1).
    { split; [left; apply C0_gt_m1; lra|]. destruct at_0 as [<- _]. left. apply C0_decreasing; lra. }
    assert (VB : v <= P - Q * C0 z <= P + Rabs Q).
    { unfold v, Rabs. destruct (Rcase_abs Q); split; nra. }
    unfold Gz. set (V := P - Q * C0 z) in *. clearbody V.
    assert (S1 : sqrt v <= sqrt V) by (apply sqrt_le_1; lra).
    assert (S2 : sqrt V <= u) by (apply sqrt_le_1; lra).
    set (k := kz z) in *. clearbody k. set (sv := sqrt v) in *. set (sV := sqrt V) in *. clearbody u sv sV.
    assert (D : 0 < 2 * (v * sv)) by nra.
    apply (Rmult_lt_compat_r (2 * (v * sv))) in K; [|exact D].
    replace ((g + Rabs Q / 2 * u) / (2 * (v * sv)) * (2 * (v * sv))) with (g + Rabs Q / 2 * u) in K by (field; nra).
    assert (K0 : 0 < k). { pose proof (Rabs_pos Q). assert (0 <= Rabs Q / 2 * u) by nra. nra. }
    assert (v * sv <= V * sV) by (apply Rmult_le_compat; lra).
    assert (Rabs Q * sV <= Rabs Q * u) by (apply Rmult_le_compat_l; [apply Rabs_pos|lra]).
    assert (- (Rabs Q * sV) <= Q * sV). { pose proof (Rabs_maj2 Q). nra. }
    nra. }
  destruct Hi as (z1 & Hz1 & G1).
  destruct (Ranalysis5.IVT_interv (fun z => Gz P Q z - g) z0 z1) as (z & Hz & E).
  - intros z Hz. apply continuity_pt_minus; [|apply continuity_pt_const; now intros ? ?].
    apply Gz_continuous; [|apply Mono; lra]. pose proof (S1_pos z ltac:(lra)). lra.
  - lra.
  - lra.
  - lra.
  - exists z. split; [lra|]. split; [apply Mono; lra|lra].
Qed.

(** A zero-revolution transfer for either sense of motion. *)
Theorem lambert_exists mu r1 r2 T A :
  0 < mu -> non_collinear r1 r2 -> 0 < T -> A * A = vnorm r1 * vnorm r2 + vdot r1 r2 ->
  exists V v1 v2, fg_pair mu r1 r2 A V v1 v2 /\ lambert_solution mu r1 v1 r2 v2 T 0.
Proof.
  intros Hmu Hn HT HA. destruct (norms_pos _ _ Hn) as [N1 N2]. destruct (sqrt_facts 2) as [W1 W2]; [lra|].
  destruct (sqrt_facts _ Hmu) as [M1 _].
  pose proof (cauchy_strict _ _ Hn) as C. rewrite <- !vnorm_sq in C.
  assert (P0 : 0 < vnorm r1 * vnorm r2) by now apply Rmult_lt_0_compat.
  assert (L : - (vnorm r1 * vnorm r2) < vdot r1 r2 < vnorm r1 * vnorm r2).
  { apply and_comm, Rabs_def2. rewrite <- (Rabs_pos_eq (vnorm r1 * vnorm r2)) by lra. apply Rsqr_lt_abs_0. unfold Rsqr. lra. }
  assert (A0 : A <> 0) by nra.
  set (P := vnorm r1 + vnorm r2). set (Q := sqrt 2 * A).
  assert (HQ : Rabs Q < P).
  { rewrite <- (Rabs_pos_eq P) by (unfold P; lra). apply Rsqr_lt_abs_0. unfold Rsqr, P, Q.
    replace (sqrt 2 * A * (sqrt 2 * A)) with ((sqrt 2 * sqrt 2) * (A * A)) by ring. rewrite W2, HA.
    pose proof (Rle_0_sqr (vnorm r1 - vnorm r2)) as Sq. unfold Rsqr in Sq. lra. }
  destruct (Gz_onto P Q (T * sqrt mu / sqrt 2)) as (z & Hz & HV & EG).
  - unfold Q. apply Rmult_integral_contrapositive_currified; lra.
  - exact HQ.
  - apply Rdiv_lt_0_compat; [now apply Rmult_lt_0_compat|assumption].
  - set (V := P - Q * C0 z) in *.
    exists V, (vmult (/ (A * sqrt V / sqrt mu)) (vminus r2 (vmult (1 - V / vnorm r1) r1))),
      (vmult (/ (A * sqrt V / sqrt mu)) (vminus (vmult (1 - V / vnorm r2) r2) r1)).
    split; [now split|].
    assert (ET : T = tz mu A V z 0).
    { unfold V, Q. rewrite tz_Gz; [|assumption|fold Q V; lra]. fold Q. rewrite EG. field. lra. }
    rewrite ET. apply z_solution; try assumption; try lia; reflexivity.
Qed.
