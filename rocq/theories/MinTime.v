(** * The time of flight with complete revolutions, as a function of the path
    parameter [x]: it decreases to one minimum and then increases. *)
From Coq Require Import ZArith List Bool Lia Reals Ranalysis5 Lra Psatz.
From Coquelicot Require Import Coquelicot.
From Verif Require Import Num XReal XRealLemmas MApi MIzzo RDerive UniversalKepler LambertUV LambertRev LambertZ DelatorreXR Hyp2F1 IzzoXR PropertiesDerivIzzo.
Local Open Scope R_scope.

Section Min.
Variables (ll : R) (M : Z).
Hypothesis Hl : -1 < ll < 1.
Hypothesis HM : (1 <= M)%Z.

Let Y (x : R) : R := sqrt (1 - ll * ll * (1 - x * x)).
Notation T := (izzo_T ll M).
Notation T' := (d1 ll M).

Lemma mt_dom x : -1 < x < 1 -> izzo_domain M x.
Proof. intros H. split; [lra|]. split; [lra|]. right; lra. Qed.
Lemma mt_T x : -1 < x < 1 -> T x = T_ell ll M x.
Proof. intros H. destruct (izzo_T_F ll M Hl x (mt_dom x H)) as [_ ->]. destruct (Rlt_dec x 1); [reflexivity|lra]. Qed.
Lemma mt_M : 1 <= IZR M.
Proof. apply IZR_le. lia. Qed.
Lemma mt_Y x : 0 < Y x /\ Y x * Y x = 1 - ll * ll * (1 - x * x).
Proof. now apply Y_facts. Qed.
Lemma mt_Y1 x : -1 < x < 1 -> Y x <= 1 /\ Rabs (ll * x) < Y x.
Proof.
  intros H. destruct (mt_Y x) as [P E]. assert (0 < 1 - x * x) by nra. assert (0 <= ll * ll < 1) by nra. split; [nra|].
  assert (0 <= Rabs (ll * x)) by apply Rabs_pos. assert (Rabs (ll * x) * Rabs (ll * x) = (ll * x) * (ll * x)) by (unfold Rabs; destruct (Rcase_abs _); ring).
  destruct (Rlt_dec (Rabs (ll * x)) (Y x)) as [|N]; [assumption|exfalso]. nra.
Qed.

Lemma mt_lower x : -1 < x < 1 -> / (1 - x * x) <= T x.
Proof.
  intros H. rewrite (mt_T x H). destruct (mt_Y x) as [P E]. destruct (mt_Y1 x H) as [B _].
  assert (Q : 0 < 1 - x * x) by nra. destruct (sqrt_facts _ Q) as [Q1 Q2]. assert (Q3 : sqrt (1 - x * x) <= 1) by nra.
  unfold T_ell. fold (Y x). set (q := sqrt (1 - x * x)) in *.
  pose proof (acos_bound (x * Y x + ll * (1 - x * x))) as [A _]. pose proof mt_M as M1. pose proof PI2_3_2 as P3.
  unfold Rdiv. rewrite <- (Rmult_1_l (/ (1 - x * x))) at 1. apply Rmult_le_compat_r; [left; now apply Rinv_0_lt_compat|].
  set (w := acos _) in *. assert (D : PI <= (w + IZR M * PI) * / q).
  { apply Rmult_le_reg_r with q; [assumption|]. rewrite Rmult_assoc, Rinv_l, Rmult_1_r by lra. assert (PI * q <= PI) by nra. assert (PI <= IZR M * PI) by nra. lra. }
  assert (-1 <= ll * Y x) by nra. lra.
Qed.

(** The second derivative in terms of the first. *)
Lemma mt_second x : -1 < x < 1 -> x * (1 - x * x) * d2 ll M x = (1 + 4 * (x * x)) * T' x + 2 * (1 - ll * ll * ll * ll * ll * (x * x * x) / (Y x * Y x * Y x)).
Proof.
  intros H. destruct (mt_Y x) as [P E]. assert (Q : 0 < 1 - x * x) by nra.
  unfold d2, T2, d1, T1. fold (Y x). set (t := T x). set (y := Y x) in *. clearbody y t.
  assert (Hy2 : y * y = 1 - ll * ll * (1 - x * x)) by lra. field [Hy2]. split; lra.
Qed.

Lemma mt_factor x : 0 < x < 1 -> 0 < 1 - ll * ll * ll * ll * ll * (x * x * x) / (Y x * Y x * Y x).
Proof.
  intros H. destruct (mt_Y x) as [P E]. destruct (mt_Y1 x ltac:(lra)) as [_ B].
  pose proof (Rle_abs (ll * x)) as A. set (r := ll * x / Y x).
  assert (R1 : r < 1) by (unfold r; apply Rmult_lt_reg_r with (Y x); [assumption|]; unfold Rdiv; rewrite Rmult_assoc, Rinv_l by lra; lra).
  replace (ll * ll * ll * ll * ll * (x * x * x) / (Y x * Y x * Y x)) with (ll * ll * (r * r * r)) by (unfold r; field; lra).
  assert (r * r * r < 1). { destruct (Rle_dec r 0); [|nra]. assert (0 <= r * r) by nra. nra. }
  assert (0 <= ll * ll < 1) by nra. nra.
Qed.

(** A decreasing function with the sign of [- T']. *)
Definition mt_h (x : R) : R := - ((1 - x * x) * (1 - x * x) * sqrt (1 - x * x)) * T' x / (3 * x).

Lemma mt_h_derive x : 0 < x < 1 -> exists d, is_derive mt_h x d /\ d < 0.
Proof.
  intros H. assert (Q : 0 < 1 - x * x) by nra. destruct (sqrt_facts _ Q) as [Q1 Q2].
  pose proof (mt_second x ltac:(lra)) as S. pose proof (mt_factor x H) as F. set (k := 1 - _ / _) in *.
  exists (- ((1 - x * x) * sqrt (1 - x * x)) * (2 * k) / (3 * (x * x))). split.
  - unfold mt_h. eapply rd_eq.
    { rd_step ltac:(idtac; lazymatch goal with |- is_derive (fun _ => T' _) _ _ => apply d1_derive; [exact Hl|apply mt_dom; lra] | _ => idtac end); try lra; try nra. }
    req. set (q := sqrt (1 - x * x)) in *. set (a := d2 ll M x) in *. set (b := T' x) in *. clearbody q a b k.
    replace (2 * k) with (x * (1 - x * x) * a - (1 + 4 * (x * x)) * b) by lra.
    assert (E : x * x = 1 - q * q) by lra. field [E]. lra.
  - replace (- ((1 - x * x) * sqrt (1 - x * x)) * (2 * k) / (3 * (x * x))) with (- ((1 - x * x) * sqrt (1 - x * x) * (2 * k) / (3 * (x * x)))) by (field; lra).
    apply Ropp_lt_gt_0_contravar. apply Rdiv_lt_0_compat; [|nra]. apply Rmult_lt_0_compat; [|lra]. now apply Rmult_lt_0_compat.
Qed.

Lemma mt_h_decreasing x y : 0 < x -> x < y -> y < 1 -> mt_h y < mt_h x.
Proof.
  intros H1 H2 H3.
  destruct (MVT_gen mt_h x y (Derive mt_h)) as (c & Hc & E).
  - intros z Hz. rewrite Rmin_left, Rmax_right in Hz by lra. destruct (mt_h_derive z ltac:(lra)) as (d & D & _). apply Derive_correct. now exists d.
  - intros z Hz. rewrite Rmin_left, Rmax_right in Hz by lra. destruct (mt_h_derive z ltac:(lra)) as (d & D & _). apply derivable_continuous_pt.
    exists d. now apply is_derive_Reals.
  - rewrite Rmin_left, Rmax_right in Hc by lra. destruct (mt_h_derive c ltac:(lra)) as (d & D & N). apply is_derive_unique in D. rewrite D in E.
    assert (d * (y - x) < 0) by nra. lra.
Qed.

Lemma mt_h_sign x : 0 < x < 1 -> (mt_h x = 0 <-> T' x = 0) /\ (0 < mt_h x <-> T' x < 0).
Proof.
  intros H. assert (Q : 0 < 1 - x * x) by nra. destruct (sqrt_facts _ Q) as [Q1 _].
  set (k := (1 - x * x) * (1 - x * x) * sqrt (1 - x * x) / (3 * x)).
  assert (K : 0 < k) by (apply Rdiv_lt_0_compat; [|lra]; apply Rmult_lt_0_compat; [now apply Rmult_lt_0_compat|assumption]).
  assert (E : mt_h x = - (k * T' x)) by (unfold mt_h, k; field; lra). rewrite E. split; split; intros Z; nra.
Qed.

Lemma mt_T1_nonpos x : -1 < x <= 0 -> T' x < 0.
Proof.
  intros H. pose proof (mt_lower x ltac:(lra)) as L. destruct (mt_Y x) as [P E]. destruct (mt_Y1 x ltac:(lra)) as [_ B].
  assert (Q : 0 < 1 - x * x) by nra. assert (0 < / (1 - x * x)) by now apply Rinv_0_lt_compat.
  unfold d1, T1. fold (Y x).
  set (r := ll * x / Y x). assert (R1 : Rabs r < 1).
  { unfold r, Rdiv. rewrite Rabs_mult, (Rabs_pos_eq (/ Y x)) by (left; now apply Rinv_0_lt_compat).
    apply Rmult_lt_reg_r with (Y x); [assumption|]. rewrite Rmult_assoc, Rinv_l by lra. lra. }
  apply Rabs_def2 in R1. replace (2 * (ll * ll * ll) * x / Y x) with (2 * (ll * ll * r)) by (unfold r; field; lra).
  assert (0 <= ll * ll < 1) by nra. assert (ll * ll * r < 1) by nra. assert (3 * T x * x <= 0) by nra.
  unfold Rdiv. nra.
Qed.

Lemma mt_T1_last : 0 < T' (7 / 8).
Proof.
  pose proof (mt_T (7 / 8) ltac:(lra)) as ET. destruct (mt_Y (7 / 8)) as [P E]. destruct (mt_Y1 (7 / 8) ltac:(lra)) as [B1 B].
  set (r := ll * (7 / 8) / Y (7 / 8)). assert (R1 : Rabs r < 1).
  { unfold r, Rdiv at 1. rewrite Rabs_mult, (Rabs_pos_eq (/ Y (7 / 8))) by (left; now apply Rinv_0_lt_compat).
    apply Rmult_lt_reg_r with (Y (7 / 8)); [assumption|]. rewrite Rmult_assoc, Rinv_l by lra. lra. }
  apply Rabs_def2 in R1. pose proof (mt_lower (7 / 8) ltac:(lra)) as L.
  unfold d1, T1. fold (Y (7 / 8)). replace (2 * (ll * ll * ll) * (7 / 8) / Y (7 / 8)) with (2 * (ll * ll * r)) by (unfold r; field; lra).
  assert (0 <= ll * ll < 1) by nra. assert (-1 < ll * ll * r) by nra.
  replace (/ (1 - 7 / 8 * (7 / 8))) with (64 / 15) in L by field.
  apply Rdiv_lt_0_compat; lra.
Qed.

(** The stationary point exists and is unique. *)
Lemma mt_critical : exists x, 0 < x < 1 /\ T' x = 0.
Proof.
  assert (C : forall x, 0 <= x <= 7 / 8 -> continuity_pt T' x).
  { intros x H. apply derivable_continuous_pt. exists (d2 ll M x). apply is_derive_Reals. apply d1_derive; [exact Hl|]. apply mt_dom. lra. }
  pose proof (mt_T1_nonpos 0 ltac:(lra)) as N. pose proof mt_T1_last as P.
  destruct (Ranalysis5.IVT_interv T' 0 (7 / 8) C ltac:(lra) N P) as (x & Hx & E).
  exists x. split; [|exact E]. split; [|lra]. destruct (Req_dec x 0) as [-> |]; [lra|]. lra.
Qed.

Lemma mt_left x0 x : 0 < x0 < 1 -> T' x0 = 0 -> -1 < x < x0 -> T' x < 0.
Proof.
  intros H0 E H. destruct (Rle_dec x 0) as [|N]; [apply mt_T1_nonpos; lra|].
  apply mt_h_sign; [lra|]. rewrite <- (proj2 (proj1 (mt_h_sign x0 H0)) E). apply mt_h_decreasing; lra.
Qed.
Lemma mt_right x0 x : 0 < x0 < 1 -> T' x0 = 0 -> x0 < x < 1 -> 0 < T' x.
Proof.
  intros H0 E H. pose proof (mt_h_decreasing x0 x ltac:(lra) ltac:(lra) ltac:(lra)) as D.
  rewrite (proj2 (proj1 (mt_h_sign x0 H0)) E) in D. destruct (mt_h_sign x ltac:(lra)) as [S1 S2].
  destruct (Rtotal_order (T' x) 0) as [L|[L|L]]; [apply S2 in L; lra|apply S1 in L; lra|assumption].
Qed.

Lemma mt_mvt x y : -1 < x -> x < y -> y < 1 -> exists c, x < c < y /\ T y - T x = T' c * (y - x).
Proof.
  intros H1 H2 H3. destruct (MVT_cor2 T T' x y H2) as (c & E & Hc).
  - intros c Hc. apply is_derive_Reals. apply izzo_T_derive; [exact Hl|]. apply mt_dom. lra.
  - exists c. split; [exact Hc|exact E].
Qed.
Lemma mt_decreasing x0 x y : 0 < x0 < 1 -> T' x0 = 0 -> -1 < x -> x < y -> y <= x0 -> T y < T x.
Proof.
  intros H0 E H1 H2 H3. destruct (mt_mvt x y) as (c & Hc & D); try lra.
  pose proof (mt_left x0 c H0 E ltac:(lra)). assert (T' c * (y - x) < 0) by nra. lra.
Qed.
Lemma mt_increasing x0 x y : 0 < x0 < 1 -> T' x0 = 0 -> x0 <= x -> x < y -> y < 1 -> T x < T y.
Proof.
  intros H0 E H1 H2 H3. destruct (mt_mvt x y) as (c & Hc & D); try lra.
  pose proof (mt_right x0 c H0 E ltac:(lra)). assert (0 < T' c * (y - x)) by nra. lra.
Qed.
Lemma mt_minimum x0 x : 0 < x0 < 1 -> T' x0 = 0 -> -1 < x < 1 -> x <> x0 -> T x0 < T x.
Proof.
  intros H0 E H N. destruct (Rtotal_order x x0) as [L|[L|L]]; [|contradiction|].
  - apply (mt_decreasing x0); auto; lra.
  - apply (mt_increasing x0); auto; lra.
Qed.

Lemma mt_continuous x : -1 < x < 1 -> continuity_pt T x.
Proof.
  intros H. apply derivable_continuous_pt. exists (T' x). apply is_derive_Reals. apply izzo_T_derive; [exact Hl|]. now apply mt_dom.
Qed.
Lemma mt_unbounded x0 B : -1 < x0 < 1 -> (exists x, -1 < x < x0 /\ B < T x) /\ (exists x, x0 < x < 1 /\ B < T x).
Proof.
  intros H. set (C := Rmax 1 (Rmax (B + 1) (/ (1 - x0 * x0) + 1))).
  assert (C1 : 1 <= C) by apply Rmax_l. assert (C2 : B + 1 <= C) by (eapply Rle_trans; [|apply Rmax_r]; apply Rmax_l).
  assert (C3 : / (1 - x0 * x0) + 1 <= C) by (eapply Rle_trans; [|apply Rmax_r]; apply Rmax_r).
  assert (I : 0 < / C <= 1).
  { split; [apply Rinv_0_lt_compat; lra|]. rewrite <- Rinv_1. apply Rinv_le_contravar; lra. }
  assert (Q0 : 0 < 1 - x0 * x0) by nra.
  assert (I2 : / C < 1 - x0 * x0).
  { rewrite <- (Rinv_inv (1 - x0 * x0)). apply Rinv_lt_contravar; [|lra]. apply Rmult_lt_0_compat; [now apply Rinv_0_lt_compat|lra]. }
  set (u := sqrt (1 - / C)). assert (U2 : u * u = 1 - / C) by (apply sqrt_sqrt; lra). assert (U0 : 0 <= u) by apply sqrt_pos.
  assert (U1 : u < 1) by nra. assert (Ux : Rabs x0 < u).
  { destruct (Rlt_dec (Rabs x0) u) as [|N]; [assumption|exfalso]. pose proof (Rabs_pos x0).
    assert (Rabs x0 * Rabs x0 = x0 * x0) by (unfold Rabs; destruct (Rcase_abs x0); ring). nra. }
  apply Rabs_def2 in Ux. assert (V : forall x, x * x = u * u -> -1 < x < 1 -> B < T x).
  { intros x Ex Hx. pose proof (mt_lower x Hx) as L. rewrite Ex, U2 in L. replace (1 - (1 - / C)) with (/ C) in L by ring. rewrite Rinv_inv in L. lra. }
  split; [exists (- u)|exists u]; (split; [lra|]); apply V; try ring; lra.
Qed.

(** Every longer time is reached exactly once on either side of the minimum. *)
Lemma mt_solutions x0 t : 0 < x0 < 1 -> T' x0 = 0 -> T x0 < t ->
  exists x1 x2, -1 < x1 < x0 /\ x0 < x2 < 1 /\ T x1 = t /\ T x2 = t /\
    forall x, -1 < x < 1 -> T x = t -> x = x1 \/ x = x2.
Proof.
  intros H0 E Ht. destruct (mt_unbounded x0 t ltac:(lra)) as [(a & Ha & La) (b & Hb & Lb)].
  destruct (Ranalysis5.IVT_interv (fun x => t - T x) a x0) as (x1 & X1 & E1).
  - intros x Hx. apply continuity_pt_minus; [apply continuity_pt_const; now intros ? ?|apply mt_continuous; lra].
  - lra. - lra. - lra.
  - destruct (Ranalysis5.IVT_interv (fun x => T x - t) x0 b) as (x2 & X2 & E2).
    + intros x Hx. apply continuity_pt_minus; [apply mt_continuous; lra|apply continuity_pt_const; now intros ? ?].
    + lra. + lra. + lra.
    + assert (N1 : x1 <> x0) by (intros ->; lra). assert (N2 : x2 <> x0) by (intros ->; lra).
      exists x1, x2. split; [lra|]. split; [lra|]. split; [lra|]. split; [lra|].
      intros x Hx Ex. destruct (Rtotal_order x x0) as [L|[L|L]]; [left|subst; lra|right].
      * destruct (Rtotal_order x x1) as [K|[K|K]]; [|assumption|].
        -- pose proof (mt_decreasing x0 x x1 H0 E ltac:(lra) K ltac:(lra)). lra.
        -- pose proof (mt_decreasing x0 x1 x H0 E ltac:(lra) K ltac:(lra)). lra.
      * destruct (Rtotal_order x x2) as [K|[K|K]]; [|assumption|].
        -- pose proof (mt_increasing x0 x x2 H0 E ltac:(lra) K ltac:(lra)). lra.
        -- pose proof (mt_increasing x0 x2 x H0 E ltac:(lra) K ltac:(lra)). lra.
Qed.
End Min.
