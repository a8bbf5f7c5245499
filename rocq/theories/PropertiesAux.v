(** * Auxiliary evaluations of the searches: C61 (gooding1990 with revolutions)
    and C64. *)
From Coq Require Import String ZArith List Bool Lia Reals Lra Psatz.
From Coquelicot Require Import Coquelicot.
From Verif Require Import Num XReal XRealLemmas MApi MScipy MComplex ComplexXR MGooding MDer MArora MMcelreath McelreathXR Spec
  Hyp2F1 IzzoXR DerXR PropertiesDerivIzzo AsinSeries GoodingXR PropertiesSteps MonoX XParam PropertiesMultiRev PropertiesStart LambertZ.
Local Open Scope string_scope.
Local Open Scope R_scope.

(** ** gooding1990: the second starter *)

Lemma cube_bound s : 0 <= s <= 1 -> s * (1 - s * s) <= 4 / 10.
Proof. intros H. assert (0 <= (s - 577 / 1000) * (s - 577 / 1000) * (s + 2 * (577 / 1000))) by (apply Rmult_le_pos; [apply Rle_0_sqr|lra]). nra. Qed.

(** The correction factor keeps its sign for every admissible amplitude [a]. *)
Lemma factor_pos m c a v s t0 td : 1 <= m -> 6 * m <= t0 -> 0 < td -> 0 < c -> c * (1 + 15 / 100 * m) <= 112 / 100 + m ->
  v * (4 + td) = 4 -> 0 < v < 1 -> 0 < s -> s * s = v -> 0 < a ->
  (a <= 1 - v \/ a * a * (td + 3 / 2 * t0) <= td) -> c * a * (1 / 2 * v + 3 / 100 * a * s) < 1.
Proof.
  intros Hm Ht Htd Hc Hcm Hv Vb Sp Ss Ap [A|A].
  - assert (C : c < 20 / 3) by nra. assert (S1 : s < 1) by nra.
    assert (CB : s * (1 - v) <= 4 / 10) by (rewrite <- Ss; apply cube_bound; lra).
    assert (E1 : a * v <= 1 / 4) by (assert (a * v <= (1 - v) * v) by (apply Rmult_le_compat_r; lra); assert (0 <= (v - 1 / 2) * (v - 1 / 2)) by apply Rle_0_sqr; nra).
    assert (E2 : a * (a * s) <= 4 / 10).
    { assert (a * s <= (1 - v) * s) by (apply Rmult_le_compat_r; lra). assert (0 <= a * s) by nra. nra. }
    assert (E3 : a * (1 / 2 * v + 3 / 100 * a * s) <= 137 / 1000) by nra.
    assert (E4 : 0 < a * (1 / 2 * v + 3 / 100 * a * s)) by (apply Rmult_lt_0_compat; [lra|]; assert (0 < a * s) by nra; nra).
    rewrite Rmult_assoc. nra.
  - assert (C : c < 20 / 3) by nra. assert (S1 : s < 1) by nra. assert (A2 : a * a < 1) by nra. assert (A1 : a < 1) by nra.
    (* a² v² ≤ 1 / (9 m) *)
    assert (TD : td * v = 4 * (1 - v)) by nra.
    assert (B : a * a * (9 * m * v) <= 4 * (1 - v)).
    { assert (a * a * (td * v + 3 / 2 * t0 * v) <= td * v) by (replace (a * a * (td * v + 3 / 2 * t0 * v)) with (a * a * (td + 3 / 2 * t0) * v) by ring; apply Rmult_le_compat_r; lra).
      rewrite TD in H. assert (0 <= a * a * (4 * (1 - v))) by (apply Rmult_le_pos; nra).
      assert (a * a * v * (9 * m) <= a * a * v * (3 / 2 * t0)) by (apply Rmult_le_compat_l; [assert (0 < a * a) by nra; nra|lra]). nra. }
    assert (B2 : 9 * m * ((a * v) * (a * v)) <= 1).
    { assert (a * a * (9 * m * v) * v <= 4 * (1 - v) * v) by (apply Rmult_le_compat_r; lra). assert (0 <= (v - 1 / 2) * (v - 1 / 2)) by apply Rle_0_sqr. nra. }
    set (p := a * v) in *. assert (P0 : 0 < p) by (unfold p; nra).
    (* c p ≤ 14/10 *)
    assert (CP : c * p <= 14 / 10).
    { apply Rnot_lt_le. intros N. assert (N2 : (14 / 10) * (14 / 10) < (c * p) * (c * p)) by nra.
      assert (M2 : 9 * m * ((c * p) * (c * p)) <= c * c) by (replace (9 * m * ((c * p) * (c * p))) with (c * c * (9 * m * (p * p))) by ring; assert (0 < c * c) by nra; nra).
      assert (U : 17 * m < c * c) by nra.
      assert (c * c * ((1 + 15 / 100 * m) * (1 + 15 / 100 * m)) <= (112 / 100 + m) * (112 / 100 + m)).
      { replace (c * c * ((1 + 15 / 100 * m) * (1 + 15 / 100 * m))) with ((c * (1 + 15 / 100 * m)) * (c * (1 + 15 / 100 * m))) by ring. assert (0 < c * (1 + 15 / 100 * m)) by nra. nra. }
      assert (17 * m * ((1 + 15 / 100 * m) * (1 + 15 / 100 * m)) < (112 / 100 + m) * (112 / 100 + m)) by (assert (0 < (1 + 15 / 100 * m) * (1 + 15 / 100 * m)) by nra; nra).
      nra. }
    assert (AS : a * (a * s) < 1) by nra. assert (0 < a * (a * s)) by (apply Rmult_lt_0_compat; nra).
    replace (c * a * (1 / 2 * v + 3 / 100 * a * s)) with (1 / 2 * (c * p) + 3 / 100 * c * (a * (a * s))) by (unfold p; ring). nra.
Qed.

Lemma starter_cm m c t0 td th : 1 <= m -> 6 * m <= t0 -> 0 < td -> 0 < th < 1 -> 0 < c -> c * (1 + 15 / 100 * m) <= 112 / 100 + m ->
  exists x, @goo_starter XR (Fin t0) (Fin td) (Fin th) (Fin c) = Fin x /\ -1 < x < 0.
Proof.
  intros Hm H0 Ht Hth Hc Hcm. unfold goo_starter, d8rt. xunf. cbn [nofZ XR nlit]. xunf. cbn [xopp xmul xadd xsub xlift2 xlift1].
  rewrite (xdiv_F (- td)) by lra. rewrite (xsqrt_F (2 * (1 - th))) by lra. cbn [xopp xmul xadd xsub xlift2 xlift1].
  set (x1 := - td / (td + 4)). assert (X1 : -1 < x1 < 0).
  { unfold x1. split; apply Rmult_lt_reg_r with (td + 4); try lra; replace (- td / (td + 4) * (td + 4)) with (- td) by (field; lra); lra. }
  set (w := x1 + 17 / 10 * sqrt (2 * (1 - th))). pose proof (sqrt_pos (2 * (1 - th))) as SP.
  set (v := 4 / (4 + td)). assert (VE : v * (4 + td) = 4) by (unfold v; field; lra). assert (V : 0 < v < 1) by nra.
  assert (XV : x1 = - (1 - v)) by (unfold x1, v; field; lra).
  assert (X2 : exists x2, (if xltb (Fin w) (Fin 0) then xsub (Fin x1) (xmul (xsqrt (xsqrt (xsqrt (xsqrt (Fin (- w))))))
                            (xadd (Fin x1) (xsqrt (xdiv (Fin td) (Fin (td + 3 / 2 * t0)))))) else Fin x1) = Fin x2 /\ -1 < x2 < 0 /\
               (- x2 <= 1 - v \/ (- x2) * (- x2) * (td + 3 / 2 * t0) <= td)).
  { destruct (xltb (Fin w) (Fin 0)) eqn:L; [|exists x1; repeat split; lra]. apply xltb_F in L.
    assert (B : 0 < - w < 1) by (unfold w in *; lra).
    pose proof (sqrt_unit _ B) as B1. pose proof (sqrt_unit _ B1) as B2. pose proof (sqrt_unit _ B2) as B3. pose proof (sqrt_unit _ B3) as B4.
    rewrite !xsqrt_F by lra. set (f := sqrt (sqrt (sqrt (sqrt (- w))))) in *. rewrite xdiv_F by lra.
    assert (GE : td / (td + 3 / 2 * t0) * (td + 3 / 2 * t0) = td) by (field; lra).
    assert (C : 0 < td / (td + 3 / 2 * t0) < 1).
    { split; [apply Rdiv_lt_0_compat; lra|]. apply Rmult_lt_reg_r with (td + 3 / 2 * t0); [lra|]. rewrite GE. lra. }
    rewrite xsqrt_F by lra. pose proof (sqrt_unit _ C) as C1. destruct (sqrt_facts _ (proj1 C)) as [_ C2]. set (g := sqrt (td / _)) in *. cbn [xadd xmul xsub xlift2].
    exists (x1 - f * (x1 + g)). split; [reflexivity|]. set (u := td / (td + 3 / 2 * t0)) in *. clearbody f g x1 u. split; [split; nra|].
    destruct (Rle_dec (- (x1 - f * (x1 + g))) (1 - v)) as [Q|Q]; [left; exact Q|right].
    assert (G1 : - (x1 - f * (x1 + g)) <= g) by nra.
    assert (- (x1 - f * (x1 + g)) * - (x1 - f * (x1 + g)) <= g * g) by (assert (0 < - (x1 - f * (x1 + g))) by nra; nra).
    apply Rle_trans with (g * g * (td + 3 / 2 * t0)); [apply Rmult_le_compat_r; lra|rewrite C2, GE; lra]. }
  cbn [xopp xmul xadd xsub xlift2 xlift1] in X2. destruct X2 as (x2 & -> & X2 & XA).
  rewrite (xdiv_F 4) by lra. fold v. rewrite xsqrt_F by lra. pose proof (sqrt_unit _ V) as V1. destruct (sqrt_facts v (proj1 V)) as [_ V2]. set (sv := sqrt v) in *. cbn [xadd xmul xsub xlift2].
  eexists. split; [reflexivity|].
  pose proof (factor_pos m c (- x2) v sv t0 td Hm H0 Ht Hc Hcm VE V (proj1 V1) V2 ltac:(lra) XA) as FP.
  set (z := 1 + c * x2 * (1 / 2 * v - 3 / 100 * x2 * sv)). assert (Z : 0 < z).
  { replace z with (1 - c * - x2 * (1 / 2 * v + 3 / 100 * - x2 * sv)) by (unfold z; ring). lra. }
  assert (Z1 : z < 1).
  { unfold z. assert (0 < 1 / 2 * v - 3 / 100 * x2 * sv) by (assert (0 < - x2 * sv) by nra; nra). assert (0 < c * - x2) by nra. nra. }
  clearbody z. split; nra.
Qed.

Lemma goo_at_0 q m : -1 < q < 1 -> (1 <= m)%Z -> 6 * IZR m <= goo_T q m 0.
Proof.
  intros Hq Hm. unfold goo_T. destruct (Req_EM_T 0 1) as [E|_]; [lra|].
  destruct (izzo_T_knots q Hq) as [K1 K2]. apply IZR_le in Hm as Hm'. pose proof PI2_3_2 as P.
  assert (E : izzo_T q m 0 = izzo_T q 0 0 + IZR m * PI).
  { destruct (izzo_T_F q m Hq 0) as [_ ->]; [split; [lra|split; [lra|right; lra]]|]. destruct (izzo_T_F q 0 Hq 0) as [_ ->]; [split; [lra|split; [lra|right; lra]]|].
    destruct (Rlt_dec 0 1) as [_|N]; [|lra]. unfold T_ell. replace (1 - 0 * 0) with 1 by ring. rewrite sqrt_1. field. }
  rewrite E. nra.
Qed.

(** The second starter (gooding.py:516-545) for a transfer with revolutions, [t0]
    being the time at [x = 0] and [xm] the place of the least time [tmin].  A time
    above [t0] starts strictly between -1 and 0, so that the test for [x <= -1]
    never succeeds; a time up to [t0] starts between 0 and [xm], and at 0 for
    [t0] itself. *)
Theorem C61_gooding_second : forall q m n th tin tmin xm d2t2 xpl,
  -1 < q < 1 -> (1 <= m)%Z -> 0 < th < 1 ->
  exists t0, (let '(t, _, _, _) := @tlamb XR m (Fin q) (Fin (1 - q * q)) (Fin 0) 0 in t) = Fin t0 /\
  let start := @goo_second_starter XR m n (Fin q) (Fin (1 - q * q)) (Fin th) (Fin tin) (Fin tmin) (Fin (tin - tmin)) (Fin xm) (Fin d2t2) xpl in
  (t0 < tin -> exists x, start = (n, Fin x) /\ -1 < x < 0) /\
  (tmin < tin <= t0 -> 0 < xm -> 0 < d2t2 -> exists x, start = (n, Fin x) /\ 0 <= x < xm /\ (x = 0 <-> tin = t0)).
Proof.
  intros q m n th tin tmin xm d xpl Hq Hm Hth. exists (goo_T q m 0).
  assert (EQ := tlamb_F q m 0 0 Hq ltac:(lra) ltac:(right; split; [lia|lra]) ltac:(lia)).
  split; [now rewrite EQ|]. intros start. pose proof (goo_at_0 q m Hq Hm) as T0. apply IZR_le in Hm as Hm'.
  unfold start, goo_second_starter. change (@nofZ XR 0) with (Fin 0). rewrite EQ. set (t0 := goo_T q m 0) in *. clearbody t0. clear EQ start.
  change (@nsub XR (Fin tin) (Fin t0)) with (Fin (tin - t0)). change (@nleb XR (Fin (tin - t0)) (Fin 0)) with (xleb (Fin (tin - t0)) (Fin 0)). split.
  - intros L. rewrite (proj2 (xleb_Ff _ _)) by lra.
    assert (EC : @ndiv XR (nofZ 1 + nofZ m + nlit 24 100 * (Fin th - nlit 1 2))%num (nofZ 1 + nlit 15 100 * nofZ m)%num
       = Fin ((1 + IZR m + 24 / 100 * (th - 1 / 2)) / (1 + 15 / 100 * IZR m))).
    { change (xdiv (Fin (1 + IZR m + 24 / 100 * (th - 1 / 2))) (Fin (1 + 15 / 100 * IZR m)) = Fin ((1 + IZR m + 24 / 100 * (th - 1 / 2)) / (1 + 15 / 100 * IZR m))). apply xdiv_F. lra. }
    rewrite EC. set (c := _ / _). assert (C1 : c * (1 + 15 / 100 * IZR m) = 1 + IZR m + 24 / 100 * (th - 1 / 2)) by (unfold c; field; lra).
    assert (C0 : 0 < c) by (unfold c; apply Rdiv_lt_0_compat; lra).
    destruct (starter_cm (IZR m) c t0 (tin - t0) th Hm' T0 ltac:(lra) Hth C0 ltac:(lra)) as (x & -> & X).
    change (@nleb XR (Fin x) (@nopp XR (nofZ 1))) with (xleb (Fin x) (Fin (- 1))). rewrite (proj2 (xleb_Ff _ _)) by lra. exists x. split; [reflexivity|exact X].
  - intros L Hx Hd. rewrite (proj2 (xleb_F _ _)) by lra.
    set (a := tin - tmin) in *. set (b := t0 - tmin). assert (AB : 0 < a <= b) by (unfold a, b; lra).
    assert (S1 : 0 < xm * xm) by nra.
    assert (DP : 0 < d - a * (d / b - 1 / (xm * xm))).
    { assert (a * (d / b) <= d) by (apply Rmult_le_reg_r with b; [lra|]; replace (a * (d / b) * b) with (a * d) by (field; lra); nra).
      assert (0 < a * (1 / (xm * xm))) by (apply Rmult_lt_0_compat; [lra|]; apply Rdiv_lt_0_compat; lra). lra. }
    set (D := d - a * (d / b - 1 / (xm * xm))) in *.
    assert (QP : 0 < a / D) by (apply Rdiv_lt_0_compat; lra).
    assert (EX : (Fin xm - nsqrt (Fin a / (Fin d - Fin a * (Fin d / (Fin t0 - Fin tmin) - nofZ 1 / sq (Fin xm)))))%num = Fin (xm - sqrt (a / D))).
    { change (xsub (Fin xm) (xsqrt (xdiv (Fin a) (xsub (Fin d) (xmul (Fin a) (xsub (xdiv (Fin d) (Fin b)) (xdiv (Fin 1) (Fin (xm * xm)))))))) = Fin (xm - sqrt (a / D))).
      rewrite (xdiv_F d), (xdiv_F 1) by lra. cbn [xsub xmul xlift2]. fold D. rewrite xdiv_F by lra. rewrite xsqrt_F by lra. reflexivity. }
    exists (xm - sqrt (a / D)). split; [f_equal; exact EX|].
    destruct (sqrt_facts _ QP) as [R1 R2]. set (r := sqrt (a / D)) in *.
    assert (RE : r * r * D = a) by (rewrite R2; field; lra).
    assert (DE : D * (xm * xm) - a = d * (xm * xm) * (1 - a / b)) by (unfold D; field; lra).
    assert (AB1 : a / b <= 1) by (apply Rmult_le_reg_r with b; [lra|]; replace (a / b * b) with a by (field; lra); lra).
    assert (LE : r * r <= xm * xm) by (apply Rmult_le_reg_r with D; [exact DP|]; rewrite RE; assert (0 <= d * (xm * xm) * (1 - a / b)) by (apply Rmult_le_pos; nra); lra).
    split; [split; nra|]. split; intros E.
    + assert (RX : r = xm) by lra. rewrite <- RX, Rmult_comm, RE in DE. assert (Z : 1 - a / b = 0) by (assert (0 < d * (r * r)) by nra; nra).
      assert (a = b) by (replace a with (a / b * b) by (field; lra); replace (a / b) with 1 by lra; ring). unfold a, b in *. lra.
    + assert (a = b) by (unfold a, b; lra). assert (Z : a / b = 1) by (rewrite <- H; field; lra). rewrite Z in DE.
      assert (r * r = xm * xm) by (apply Rmult_eq_reg_r with D; [|lra]; rewrite RE; lra). nra.
Qed.
Print Assumptions C61_gooding_second.

(** One revolution on the half turn [q = 0], where [t0 = 3 pi]. *)
Example C61_gooding_second_case : exists x,
  @goo_second_starter XR 1 2 (Fin 0) (Fin (1 - 0 * 0)) (Fin (1 / 2)) (Fin 13) (Fin 9) (Fin (13 - 9)) (Fin (1 / 10)) (Fin 5) (Fin 0) = (2%Z, Fin x) /\ -1 < x < 0.
Proof.
  destruct (C61_gooding_second 0 1 2 (1 / 2) 13 9 (1 / 10) 5 (Fin 0) ltac:(lra) ltac:(lia) ltac:(lra)) as (t0 & E & A & _). apply A.
  rewrite (tlamb_F 0 1 0 0) in E by (lra || lia || (right; split; [lia|lra])). injection E as <-. unfold goo_T. destruct (Req_EM_T 0 1); [lra|].
  destruct (izzo_T_F 0 1 ltac:(lra) 0) as [_ ->]; [split; [lra|split; [lra|right; lra]]|]. destruct (Rlt_dec 0 1) as [_|]; [|lra].
  unfold T_ell. replace (1 - 0 * 0) with 1 by ring. rewrite sqrt_1, !Rmult_0_l, Rplus_0_l, acos_0. pose proof PI_4. lra.
Qed.

(** ** der2011: the numerical derivatives of the hyperbolic search *)

(** Rolle's theorem twice: the second divided difference is half a second
    derivative. *)
Lemma second_difference (f f1 f2 : R -> R) a b c : a < b -> b < c ->
  (forall t, a <= t <= c -> is_derive f t (f1 t) /\ is_derive f1 t (f2 t)) ->
  exists zeta, a < zeta < c /\ 2 * ((f c - f b) / (c - b) - (f b - f a) / (b - a)) / (c - a) = f2 zeta.
Proof.
  intros Hab Hbc D. set (k := ((f c - f b) / (c - b) - (f b - f a) / (b - a)) / (c - a)). set (l := (f b - f a) / (b - a)).
  set (g := fun t => f t - f a - l * (t - a) - k * ((t - a) * (t - b))).
  set (g1 := fun t => f1 t - l - k * ((t - a) + (t - b))). set (g2 := fun t => f2 t - k * 2).
  assert (DG : forall t, a <= t <= c -> derivable_pt_lim g t (g1 t)).
  { intros t Ht. destruct (D t Ht) as [D1 _]. apply is_derive_Reals. unfold g, g1. 
    apply (is_derive_ext (fun t => f t + (- f a - l * (t - a) - k * ((t - a) * (t - b))))); [intros u; match goal with |- @eq _ ?A ?B => change (@eq R A B) end; ring|].
    replace (f1 t - l - k * (t - a + (t - b))) with (plus (f1 t) (- l - k * (t - a + (t - b)))) by (unfold plus; cbn; ring).
    assert (DP : is_derive (fun t => - f a - l * (t - a) - k * ((t - a) * (t - b))) t (- l - k * (t - a + (t - b)))) by (auto_derive; [exact I|ring]).
    exact (is_derive_plus _ _ _ _ _ D1 DP). }
  assert (DG1 : forall t, a <= t <= c -> derivable_pt_lim g1 t (g2 t)).
  { intros t Ht. destruct (D t Ht) as [_ D2]. apply is_derive_Reals. unfold g1, g2.
    apply (is_derive_ext (fun t => f1 t + (- l - k * ((t - a) + (t - b))))); [intros u; match goal with |- @eq _ ?A ?B => change (@eq R A B) end; ring|].
    replace (f2 t - k * 2) with (plus (f2 t) (- k * 2)) by (unfold plus; cbn; ring).
    assert (DP : is_derive (fun t => - l - k * ((t - a) + (t - b))) t (- k * 2)) by (auto_derive; [exact I|ring]).
    exact (is_derive_plus _ _ _ _ _ D2 DP). }
  assert (G0 : g a = 0 /\ g b = 0 /\ g c = 0).
  { unfold g, k, l. repeat split; field; lra. }
  destruct G0 as (Ga & Gb & Gc).
  destruct (MVT_cor2 g g1 a b Hab ltac:(intros t Ht; apply DG; lra)) as (p & Ep & Hp).
  destruct (MVT_cor2 g g1 b c Hbc ltac:(intros t Ht; apply DG; lra)) as (r & Er & Hr).
  rewrite Ga, Gb in Ep. rewrite Gb, Gc in Er.
  assert (P0 : g1 p = 0) by (destruct (Rmult_integral (g1 p) (b - a)); lra).
  assert (R0 : g1 r = 0) by (destruct (Rmult_integral (g1 r) (c - b)); lra).
  destruct (MVT_cor2 g1 g2 p r ltac:(lra) ltac:(intros t Ht; apply DG1; lra)) as (z & Ez & Hz).
  rewrite P0, R0 in Ez. assert (Z0 : g2 z = 0) by (destruct (Rmult_integral (g2 z) (r - p)); lra).
  exists z. split; [lra|]. unfold g2 in Z0. transitivity (k * 2); [unfold k, l, Rdiv; ring|]. symmetry. apply Rminus_diag_uniq. exact Z0.
Qed.

(** [_hyperbolic_numerical_derivatives] (der.py:372-391) returns the first and
    second derivative of the time [T] of the hyperbolic transfers at two points
    no further from [x] than the step [2^-26 max(1, x)]. *)
Theorem C64_der_differences : forall sg, 0 < sg * sg < 1 ->
  exists T T1 T2 : R -> R,
    (forall t, 1 < t -> @der_tof_hyperbolic XR (Fin sg) (Fin t) (@der_y XR (Fin sg) (Fin t)) = Fin (T t) /\
       is_derive T t (T1 t) /\ is_derive T1 t (T2 t)) /\
    forall x, 1 + / 2 ^ 52 < x -> exists xi zeta,
      @der_hyperbolic_derivatives XR (Fin sg) (Fin x) (@der_y XR (Fin sg) (Fin x)) = (Fin (T1 xi), Fin (T2 zeta)) /\
      Rabs (xi - x) <= / 2 ^ 26 * x /\ Rabs (zeta - x) <= / 2 ^ 26 * x /\ 1 < xi /\ 1 < zeta.
Proof.
  intros sg Hs. assert (Hl : -1 < sg < 1) by nra. exists (izzo_T sg 0), (d1 sg 0), (d2 sg 0).
  assert (DT : forall t, 1 < t -> @der_tof_hyperbolic XR (Fin sg) (Fin t) (@der_y XR (Fin sg) (Fin t)) = Fin (izzo_T sg 0 t) /\ is_derive (izzo_T sg 0) t (d1 sg 0 t) /\ is_derive (d1 sg 0) t (d2 sg 0 t)).
  { intros t Ht. assert (Du : izzo_domain 0 t) by (repeat split; try lra; left; reflexivity). split; [|split].
    - rewrite der_tof_hyperbolic_F by assumption. destruct (izzo_T_F sg 0 Hl t Du) as [_ ->]. destruct (Rlt_dec t 1); [lra|reflexivity].
    - now apply izzo_T_derive.
    - now apply d1_derive. }
  split; [exact DT|]. intros x Hx. assert (E0 : 0 < / 2 ^ 52) by (apply Rinv_0_lt_compat; lra). assert (E1 : 0 < / 2 ^ 26) by (apply Rinv_0_lt_compat; lra).
  set (h := / 2 ^ 26 * x). assert (HP : 0 < h) by (unfold h; nra).
  set (a := Rmax (1 + / 2 ^ 52) (x - h)). set (c := x + h).
  assert (A : 1 + / 2 ^ 52 <= a /\ x - h <= a /\ a < x) by (unfold a; split; [apply Rmax_l|split; [apply Rmax_r|apply Rmax_lub_lt; lra]]).
  assert (C : x < c) by (unfold c; lra).
  destruct (mean_slope (izzo_T sg 0) (d1 sg 0) a c ltac:(lra) ltac:(intros t Ht; apply DT; lra)) as (xi & Hxi & Exi).
  destruct (second_difference (izzo_T sg 0) (d1 sg 0) (d2 sg 0) a x c ltac:(lra) C ltac:(intros t Ht; apply DT; lra)) as (zeta & Hz & Ez).
  exists xi, zeta. split; [|fold h; unfold c in *; repeat split; try (apply Rabs_le; lra); lra].
  unfold der_hyperbolic_derivatives.
  assert (ST : @nmul XR der_sqrt_eps (@pymax XR (nofZ 1) (nabs (Fin x))) = Fin h).
  { change (@nofZ XR 1) with (Fin 1). change (@nabs XR (Fin x)) with (Fin (Rabs x)). rewrite pymax_F, Rabs_right, Rmax_right by lra. unfold der_sqrt_eps. change (Fin (1 / 67108864 * x) = Fin h). unfold h. f_equal. lra. }
  rewrite ST. change (@nsub XR (Fin x) (Fin h)) with (Fin (x - h)). change (@nadd XR (Fin x) (Fin h)) with (Fin c).
  assert (EA : @pymax XR (@nadd XR (nofZ 1) der_eps) (Fin (x - h)) = Fin a).
  { unfold der_eps, eps_machine. change (@nadd XR (nofZ 1) (nlit 1 4503599627370496)) with (Fin (1 + 1 / 4503599627370496)). rewrite pymax_F. unfold a. do 2 f_equal. lra. }
  rewrite EA. rewrite (proj1 (DT a ltac:(lra))), (proj1 (DT x ltac:(lra))), (proj1 (DT c ltac:(lra))).
  rewrite <- Exi, <- Ez. set (fa := izzo_T sg 0 a). set (fx := izzo_T sg 0 x). set (fc := izzo_T sg 0 c).
  change ((xdiv (Fin (fc - fa)) (Fin (c - a)), xdiv (xmul (Fin 2) (xsub (xdiv (Fin (fc - fx)) (Fin (c - x))) (xdiv (Fin (fx - fa)) (Fin (x - a))))) (Fin (c - a))) =
    (Fin ((fc - fa) / (c - a)), Fin (2 * ((fc - fx) / (c - x) - (fx - fa) / (x - a)) / (c - a)))).
  rewrite (xdiv_F (fc - fa)), (xdiv_F (fc - fx)), (xdiv_F (fx - fa)) by lra. cbn [xsub xmul xlift2]. rewrite xdiv_F by lra. reflexivity.
Qed.
Print Assumptions C64_der_differences.

(** The hypotheses hold for instance at [sigma = 1/2] and [x = 2]. *)
Example C64_der_case : exists d dd, @der_hyperbolic_derivatives XR (Fin (1 / 2)) (Fin 2) (@der_y XR (Fin (1 / 2)) (Fin 2)) = (Fin d, Fin dd).
Proof.
  destruct (C64_der_differences (1 / 2) ltac:(lra)) as (T & T1 & T2 & _ & H). destruct (H 2 ltac:(lra)) as (xi & z & E & _). eauto.
Qed.

(** ** mcelreath2025: the time equation evaluated in two ways *)

(** [_tof_at_x] (mcelreath.py:337-346) is the time equation that is iterated,
    [_tof_equation] (mcelreath.py:349-361), on both axes away from zero, and the
    time of the parabola next to zero. *)
Theorem C64_mcelreath_tof_at_x : forall n1 n2 m,
  (forall x, / 10 ^ 8 <= Rabs x -> sin (x / 2) <> 0 -> 2 * m * cos (x / 2) < n1 + n2 ->
     @mce_tof_at_x XR (cr x) (Fin n1) (Fin n2) (Fin m) = cre (@mce_tof_equation XR (cr x) (Fin (n1 + n2)) (Fin m))) /\
  (forall w, / 10 ^ 8 <= Rabs w -> 2 * m * cosh (w / 2) < n1 + n2 ->
     @mce_tof_at_x XR (ci w) (Fin n1) (Fin n2) (Fin m) = cre (@mce_tof_equation XR (ci w) (Fin (n1 + n2)) (Fin m))) /\
  (forall z, (z = 0 \/ Rabs z < / 10 ^ 8) ->
     @mce_tof_at_x XR (cr z) (Fin n1) (Fin n2) (Fin m) = @mce_parabolic_tof XR (Fin (n1 + n2)) (Fin m) /\
     @mce_tof_at_x XR (ci z) (Fin n1) (Fin n2) (Fin m) = @mce_parabolic_tof XR (Fin (n1 + n2)) (Fin m)).
Proof.
  intros n1 n2 m. assert (E8 : / 10 ^ 8 = 1 / 100000000) by lra. rewrite E8. clear E8.
  assert (CI : forall w, @cabs XR (ci w) = Fin (Rabs w)).
  { intros w. unfold cabs, ci, cc. cbn [cre cim]. change (xsqrt (Fin (0 * 0 + w * w)) = Fin (Rabs w)). rewrite xsqrt_F by nra. f_equal. replace (0 * 0 + w * w) with (Rsqr w) by (unfold Rsqr; ring). apply sqrt_Rsqr_abs. }
  split; [|split].
  - intros x Hx Hsn Hy. unfold mce_tof_at_x. rewrite cr_abs. change (@nlit XR 1 100000000) with (Fin (1 / 100000000)). change (@nltb XR) with xltb. rewrite (proj2 (xltb_Ff _ _)) by exact Hx.
    assert (MY : 0 < my (n1 + n2) m x) by (unfold my; lra).
    destruct (mq_facts (n1 + n2) m x MY Hsn) as [Q1 Q2]. pose proof (ma_pos (n1 + n2) m x MY Hsn) as P.
    rewrite mce_tof_r by assumption. unfold mce_universal_values. change (@nadd XR (Fin n1) (Fin n2)) with (Fin (n1 + n2)).
    rewrite mce_alpha_r, mce_half_r, !cr_sin by assumption. rewrite cr_sqrt by lra. fold (mq (n1 + n2) m x).
    rewrite cr_mul, cr_sub, !cr_div by nra. change (@nmul XR (nofZ 2) (Fin m)) with (Fin (2 * m)). rewrite cr_scale, cr_add. unfold cr, cc. cbn [cre]. f_equal. unfold mt. rewrite <- Q2. reflexivity.
  - intros w Hx Hy. assert (W0 : w <> 0) by (intros ->; rewrite Rabs_R0 in Hx; lra).
    unfold mce_tof_at_x. rewrite CI. change (@nlit XR 1 100000000) with (Fin (1 / 100000000)). change (@nltb XR) with xltb. rewrite (proj2 (xltb_Ff _ _)) by exact Hx.
    assert (MY : 0 < hy (n1 + n2) m w) by (unfold hy; lra).
    destruct (hq_facts (n1 + n2) m w MY W0) as [Q1 Q2]. pose proof (ha_pos (n1 + n2) m w MY W0) as P.
    rewrite mce_tof_i by assumption. unfold mce_universal_values. change (@nadd XR (Fin n1) (Fin n2)) with (Fin (n1 + n2)).
    rewrite mce_alpha_i, mce_half_i, !ci_sin by assumption. rewrite cr_sqrt_neg by lra. rewrite Ropp_involutive. fold (hq (n1 + n2) m w).
    rewrite cr_ci_mul, ci_sub, !ci_div by nra. change (@nmul XR (nofZ 2) (Fin m)) with (Fin (2 * m)). rewrite cr_scale, cr_add. unfold cr, cc. cbn [cre]. f_equal. unfold ht. rewrite <- Q2. field. lra.
  - intros z Hz. assert (Z : Rabs z < 1 / 100000000) by (destruct Hz as [-> |Hz]; [rewrite Rabs_R0; lra|exact Hz]).
    unfold mce_tof_at_x. rewrite cr_abs, CI. change (@nlit XR 1 100000000) with (Fin (1 / 100000000)). change (@nltb XR) with xltb. rewrite (proj2 (xltb_F _ _)) by exact Z. split; reflexivity.
Qed.
Print Assumptions C64_mcelreath_tof_at_x.

Example C64_mcelreath_case :
  (/ 10 ^ 8 <= Rabs PI /\ sin (PI / 2) <> 0 /\ 2 * (1 / 2) * cos (PI / 2) < 2 + 2) /\
  (/ 10 ^ 8 <= Rabs 1 /\ 2 * (1 / 2) * cosh (1 / 2) < 2 + 2).
Proof.
  pose proof PI2_3_2. rewrite sin_PI2, cos_PI2, (Rabs_right PI), Rabs_R1 by lra. repeat split; try lra.
  unfold cosh. assert (exp (1 / 2) < exp 1) by (apply exp_increasing; lra). assert (exp (- (1 / 2)) < exp 0) by (apply exp_increasing; lra). rewrite exp_0 in *. pose proof exp_le_3. lra.
Qed.

(** ** arora2013 with revolutions *)

(** [brentq] answers inside the interval it was given. *)
Definition brentq_inside (ev : @env XR) : Prop :=
  forall f lo hi xtol rtol n r k, e_brentq ev f (Fin lo) (Fin hi) xtol rtol n = Ok (r, k) -> exists z, r = Fin z /\ lo <= z <= hi.

(** [_get_multirev_k_guess] (arora.py:329-403) only answers for times that are no
    shorter than the least one found by [minimize_scalar], up to [atol].  The
    answer is the place of the minimum for times within [atol] of it; beyond, it
    lies between the minimum and the upper end for the low path and between the
    lower end and the minimum for the high path, inside the elliptic range. *)
Theorem C64_arora_multirev : forall ev tof tau S M low atol rtol k,
  brentq_inside ev ->
  @aro_multirev_k_guess XR ev (Fin tof) (Fin tau) (Fin S) M low (Fin atol) rtol = Ok k ->
  exists f lo hi xtol kmin tmin,
    e_minimize ev f (Fin lo) (Fin hi) xtol = Ok (true, kmin, tmin) /\
    lo = - sqrt 2 + / 10 ^ 8 /\ hi = sqrt 2 - / 10 ^ 8 /\
    forall km tm, kmin = Fin km -> tmin = Fin tm ->
      tm - atol <= tof /\
      (Rabs (tof - tm) <= atol -> k = Fin km) /\
      (atol < Rabs (tof - tm) -> exists z, k = Fin z /\ if low then km <= z <= hi else lo <= z <= km).
Proof.
  intros ev tof tau S M low atol rtol k BI H. unfold aro_multirev_k_guess in H.
  change (@nsqrt XR (nofZ 2)) with (xsqrt (Fin 2)) in H. rewrite xsqrt_F in H by lra. change (@nlit XR 1 100000000) with (Fin (1 / 100000000)) in H.
  change (@nadd XR (@nopp XR (Fin (sqrt 2))) (Fin (1 / 100000000))) with (Fin (- sqrt 2 + 1 / 100000000)) in H.
  change (@nsub XR (Fin (sqrt 2)) (Fin (1 / 100000000))) with (Fin (sqrt 2 - 1 / 100000000)) in H.
  match type of H with bind (e_minimize ev ?f ?a ?b ?t) _ = _ => destruct (e_minimize ev f a b t) as [[[su kmin] tmin]|e] eqn:EM; [|discriminate H]; cbn [bind] in H; destruct su; [|discriminate H]; exists f, (- sqrt 2 + 1 / 100000000), (sqrt 2 - 1 / 100000000), t, kmin, tmin end.
  split; [exact EM|]. split; [lra|]. split; [lra|]. intros km tm -> ->. cbn [negb] in H.
  change (@nltb XR (Fin tof) (@nsub XR (Fin tm) (Fin atol))) with (xltb (Fin tof) (Fin (tm - atol))) in H.
  destruct (xltb (Fin tof) (Fin (tm - atol))) eqn:E1; [discriminate H|]. apply xltb_Ff in E1. split; [lra|].
  change (@nleb XR (@nabs XR (@nsub XR (Fin tof) (Fin tm))) (Fin atol)) with (xleb (Fin (Rabs (tof - tm))) (Fin atol)) in H.
  destruct (xleb (Fin (Rabs (tof - tm))) (Fin atol)) eqn:E2.
  - apply xleb_F in E2. injection H as <-. split; [reflexivity|]. intros; lra.
  - apply xleb_Ff in E2. split; [intros; lra|]. intros _. destruct low.
    + match type of H with bind (e_brentq ev ?f ?a ?b ?x ?y ?n) _ = _ => destruct (e_brentq ev f a b x y n) as [[r j]|e] eqn:EB; [|discriminate H] end.
      cbn [bind] in H. injection H as <-. apply BI in EB. exact EB.
    + match type of H with bind (e_brentq ev ?f ?a ?b ?x ?y ?n) _ = _ => destruct (e_brentq ev f a b x y n) as [[r j]|e] eqn:EB; [|discriminate H] end.
      cbn [bind] in H. injection H as <-. apply BI in EB. exact EB.
Qed.
Print Assumptions C64_arora_multirev.

(** The hypothesis on [brentq] can be met, and the search then answers. *)
Definition ex_env : @env XR := Env (fun _ => Fin 0) 1%nat
  (fun _ lo hi _ _ _ => match lo, hi with Fin a, Fin b => if Rle_dec a b then Ok (Fin a, 0%Z) else Err (ValueError "") | _, _ => Err (ValueError "") end)
  (fun _ _ _ _ => Ok (true, Fin 0, Fin 1)).
Example C64_arora_case : brentq_inside ex_env /\ @aro_multirev_k_guess XR ex_env (Fin 2) (Fin (1 / 2)) (Fin 1) 1 true (Fin 0) (Fin 0) = Ok (Fin 0).
Proof.
  split.
  - intros f lo hi xtol rtol n r k. cbn. destruct (Rle_dec lo hi); intros E; [|discriminate E]. injection E as <- _. exists lo. split; [reflexivity|lra].
  - unfold aro_multirev_k_guess. cbn [e_minimize ex_env bind negb].
    change (@nltb XR (Fin 2) (@nsub XR (Fin 1) (Fin 0))) with (xltb (Fin 2) (Fin (1 - 0))). rewrite (proj2 (xltb_Ff _ _)) by lra.
    change (@nleb XR (@nabs XR (@nsub XR (Fin 2) (Fin 1))) (Fin 0)) with (xleb (Fin (Rabs (2 - 1))) (Fin 0)). rewrite (proj2 (xleb_Ff _ _)) by (rewrite Rabs_right; lra).
    change (@nsqrt XR (nofZ 2)) with (xsqrt (Fin 2)). rewrite xsqrt_F by lra. cbn [e_brentq ex_env].
    change (@nsub XR (Fin (sqrt 2)) (nlit 1 100000000)) with (Fin (sqrt 2 - 1 / 100000000)).
    change (bind (if Rle_dec 0 (sqrt 2 - 1 / 100000000) then @Ok (xr * Z) (Fin 0, 0%Z) else Err (ValueError "")) (fun p => let '(root, _) := p in Ok root) = Ok (Fin 0)).
    destruct (Rle_dec 0 (sqrt 2 - 1 / 100000000)) as [_|N]; [reflexivity|]. exfalso. apply N. pose proof Rlt_sqrt2_0. assert (1 < sqrt 2) by (rewrite <- sqrt_1 at 1; apply sqrt_lt_1; lra). lra.
Qed.
