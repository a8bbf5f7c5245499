(** * thorne2004's series routines: the A coefficients (C34). *)
From Coq Require Import String ZArith List Bool Lia Reals Lra Psatz.
From Coquelicot Require Import Coquelicot.
From Verif Require Import Num XReal XRealLemmas MApi MThorne Spec VecFacts CallXR Godal GodalIzzo GodalXR LambertZ IzzoXR OrbitXR
  StumpffSmooth JiangXR JiangRun JiangLoop PropertiesAngles ThorneXR ThorneRun AsinSeries.
Local Open Scope R_scope.

(** ** The coefficients over the reals *)
Lemma poch_F a n : 0 < a -> exists v, @npoch XR (Fin a) n = Fin v /\ 0 < v.
Proof.
  intros Ha. induction n as [|n (v & E & P)]; cbn [npoch]; [exists 1; split; [reflexivity|lra]|].
  exists (v * (a + IZR (Z.of_nat n))). rewrite E. split; [reflexivity|]. rewrite <- INR_IZR_INZ. pose proof (pos_INR n).
  apply Rmult_lt_0_compat; lra.
Qed.
Lemma fact_F n : exists v, @nfact XR n = Fin v /\ 0 < v.
Proof.
  induction n as [|n (v & E & P)]; cbn [nfact]; [exists 1; split; [reflexivity|lra]|].
  exists (v * IZR (Z.of_nat (S n))). rewrite E. split; [reflexivity|]. rewrite <- INR_IZR_INZ.
  apply Rmult_lt_0_compat; [assumption|]. apply lt_0_INR. lia.
Qed.
Lemma coeff_F n : exists u v w f, @npoch XR (Fin (1 / 2)) n = Fin u /\ @npoch XR (Fin (3 / 2)) n = Fin v /\
  @npoch XR (Fin (5 / 2)) n = Fin w /\ @nfact XR n = Fin f /\ 0 < u /\ 0 < v /\ 0 < w /\ 0 < f /\ u * v / (w * f) = 3 / 4 * phi_a n.
Proof.
  induction n as [|n (u & v & w & f & E1 & E2 & E3 & E4 & P1 & P2 & P3 & P4 & E)]; cbn [npoch nfact].
  - exists 1, 1, 1, 1. unfold phi_a. cbn. repeat (split; [reflexivity||lra|]). field.
  - exists (u * (1 / 2 + INR n)), (v * (3 / 2 + INR n)), (w * (5 / 2 + INR n)), (f * INR (S n)).
    rewrite E1, E2, E3, E4. rewrite !INR_IZR_INZ. split; [reflexivity|]. split; [reflexivity|]. split; [reflexivity|]. split; [reflexivity|].
    rewrite <- !INR_IZR_INZ. pose proof (pos_INR n). pose proof (lt_0_INR (S n) ltac:(lia)).
    split; [apply Rmult_lt_0_compat; lra|]. split; [apply Rmult_lt_0_compat; lra|]. split; [apply Rmult_lt_0_compat; lra|].
    split; [apply Rmult_lt_0_compat; lra|]. unfold phi_a in *. cbn [bin]. rewrite S_INR in *.
    transitivity (u * v / (w * f) * ((1 / 2 + INR n) * (3 / 2 + INR n) / ((5 / 2 + INR n) * (INR n + 1)))); [field; lra|].
    rewrite E. field. lra.
Qed.

Section Coefficients.
Variables (mu : R) (r1 r2 : rvec) (w : R).
Hypothesis Hm : 0 < mu.
Hypothesis Hn : non_collinear r1 r2.
Hypothesis Hw : w = 1 \/ w = -1.
Let c := chord r1 r2.
Let s := semiper r1 r2.
Let K := (s - c) / s.
Let l := sqrt K.
Definition A_coeff (n : nat) : R := 3 / 4 * phi_a n * (1 - w * (l * l * l) * K ^ n) / (1 - w * (l * l * l)).
Lemma K_facts : 0 < K < 1 /\ 0 < l < 1 /\ l * l = K /\ 0 < 1 - w * (l * l * l).
Proof.
  destruct (Hc r1 r2 Hn) as [C1 C2]. fold c s in C1, C2.
  assert (K1 : 0 < K < 1).
  { unfold K. split; [apply Rdiv_lt_0_compat; lra|]. apply Rmult_lt_reg_r with s; [lra|]. field_simplify; lra. }
  assert (L1 : 0 < l) by (apply sqrt_lt_R0; lra). assert (L2 : l * l = K) by (apply sqrt_sqrt; lra).
  assert (L3 : l < 1) by nra. split; [exact K1|]. split; [split; assumption|]. split; [exact L2|].
  assert (0 < l * l * l < 1) by nra. destruct Hw as [-> | ->]; lra.
Qed.
Lemma tho_A_F n : @tho_A XR (Fin s) (Fin c) (Fin (- w)) n = Fin (A_coeff n).
Proof.
  destruct K_facts as (K1 & L1 & L2 & D). destruct (Hc r1 r2 Hn) as [C1 C2]. fold c s in C1, C2.
  destruct (coeff_F n) as (u & v & x & f & E1 & E2 & E3 & E4 & P1 & P2 & P3 & P4 & E). unfold tho_A.
  change (@nsub XR (Fin s) (Fin c)) with (Fin (s - c)).
  replace (@ndiv XR (Fin (s - c)) (Fin s)) with (Fin K) by (symmetry; apply xdiv_F; lra).
  rewrite pow_3_2 by lra. fold l.
  change (@nlit XR 1 2) with (Fin (1 / 2)). change (@nlit XR 3 2) with (Fin (3 / 2)). change (@nlit XR 5 2) with (Fin (5 / 2)).
  rewrite E1, E2, E3, E4.
  assert (EP : @npow XR (Fin K) (@nadd XR (nofZ (Z.of_nat n)) (Fin (3 / 2))) = Fin (l * l * l * K ^ n)).
  { change (@npow XR (Fin K) (@nadd XR (nofZ (Z.of_nat n)) (Fin (3 / 2)))) with (xpow (Fin K) (Fin (IZR (Z.of_nat n) + 3 / 2))).
    rewrite xpow_F by lra. apply (f_equal Fin). rewrite <- INR_IZR_INZ, Rpower_plus, Rpower_pow by lra.
    replace (3 / 2) with (/ 2 + (/ 2 + / 2)) by field. rewrite !Rpower_plus, Rpower_sqrt by lra. fold l. ring. }
  rewrite EP. xunf. cbn [xmul xadd xlift2]. rewrite xdiv_F.
  - apply (f_equal Fin). unfold A_coeff. transitivity (u * v / (x * f) * (1 - w * (l * l * l) * K ^ n) / (1 - w * (l * l * l))); [|rewrite E; reflexivity].
    field. repeat split; lra.
  - assert (0 < (1 + - w * (l * l * l)) * x * f) by (apply Rmult_lt_0_compat; [apply Rmult_lt_0_compat|]; lra). lra.
Qed.
Lemma A_sum u : Rabs u < 1 -> is_pseries A_coeff u (3 / 4 * (phi_f u - w * (l * l * l) * phi_f (K * u)) / (1 - w * (l * l * l))).
Proof.
  intros Hu. destruct K_facts as (K1 & L1 & L2 & D).
  assert (Hk : Rabs (K * u) < 1). { rewrite Rabs_mult, (Rabs_right K) by lra. pose proof (Rabs_pos u). nra. }
  set (d := 1 - w * (l * l * l)) in *.
  assert (S1 : is_series (fun n => phi_a n * u ^ n) (phi_f u)) by (apply is_pseries_R, phi_pseries, Hu).
  assert (S2 : is_series (fun n => phi_a n * (K * u) ^ n) (phi_f (K * u))) by (apply is_pseries_R, phi_pseries, Hk).
  apply is_pseries_R.
  pose proof (is_series_minus _ _ _ _ (is_series_scal (3 / 4 / d) _ _ S1) (is_series_scal (3 / 4 * (w * (l * l * l)) / d) _ _ S2)) as T.
  match type of T with is_series _ ?v => replace (3 / 4 * (phi_f u - w * (l * l * l) * phi_f (K * u)) / d) with v end.
  2: { unfold minus, plus, opp, scal; cbn. unfold mult; cbn. field. lra. }
  refine (is_series_ext _ _ _ _ T). intros n. unfold minus, plus, opp, scal; cbn. unfold mult; cbn. unfold A_coeff. fold d.
  rewrite Rpow_mult_distr. field. lra.
Qed.

Lemma et_series a : s < 2 * a -> is_pseries A_coeff (s / (2 * a)) (et mu r1 r2 w a false / pt mu r1 r2 w).
Proof.
  intros Ha. destruct K_facts as (K1 & L1 & L2 & D). destruct (Hc r1 r2 Hn) as [C1 C2]. fold c s in C1, C2.
  destruct (lag_bounds s (s - c) a ltac:(lra) ltac:(lra) ltac:(lra)) as [B1 B2].
  set (S := s / (2 * a)) in *.
  assert (S1 : S < 1) by (unfold S; apply Rmult_lt_reg_r with (2 * a); [lra|]; field_simplify; lra).
  assert (HK : (s - c) / (2 * a) = K * S) by (unfold K, S; field; lra). 
  match goal with |- is_pseries _ _ ?v => replace v with (3 / 4 * (phi_f S - w * (l * l * l) * phi_f (K * S)) / (1 - w * (l * l * l))) end.
  { apply A_sum. apply Rabs_def1; lra. }
  destruct (sqrt_facts S) as [R1 R2]; [lra|].
  assert (Q1 : phi_f S * (sqrt S * sqrt S * sqrt S) = 2 * asin (sqrt S) - sin (2 * asin (sqrt S))).
  { assert (R3 : sqrt S < 1) by nra. assert (AB : 0 < asin (sqrt S) < PI / 2).
    { split; [apply asin_pos; lra|]. destruct (asin_bound (sqrt S)) as [_ [L|L]]; [exact L|exfalso].
      assert (sin (asin (sqrt S)) = 1) by (rewrite L; apply sin_PI2). rewrite sin_asin in H by lra. lra. }
    pose proof (phi_ell (asin (sqrt S)) ltac:(lra)) as P. rewrite sin_asin in P by lra. rewrite R2 in P at 1. exact P. }
  assert (Q2 : phi_f (K * S) * ((l * sqrt S) * (l * sqrt S) * (l * sqrt S)) = 2 * asin (sqrt (K * S)) - sin (2 * asin (sqrt (K * S)))).
  { assert (EL : sqrt (K * S) = l * sqrt S) by (rewrite sqrt_mult by lra; reflexivity). rewrite EL.
    assert (R3 : 0 < l * sqrt S < 1) by (assert (sqrt S < 1) by nra; nra). set (q := l * sqrt S) in *.
    assert (AB : 0 < asin q < PI / 2).
    { split; [apply asin_pos; lra|]. destruct (asin_bound q) as [_ [L|L]]; [exact L|exfalso].
      assert (sin (asin q) = 1) by (rewrite L; apply sin_PI2). rewrite sin_asin in H by lra. lra. }
    pose proof (phi_ell (asin q) ltac:(lra)) as P. rewrite sin_asin in P by lra.
    replace (q * q) with (K * S) in P at 1 by (unfold q; rewrite <- L2; rewrite <- R2 at 1; ring). exact P. }
  unfold et, lag_time, lag_A, lag_B, pt, par_time. fold s c. rewrite HK. fold S.
  set (As := asin (sqrt S)) in *. set (Bs := asin (sqrt (K * S))) in *.
  assert (W : 2 * (w * Bs) - sin (2 * (w * Bs)) = w * (2 * Bs - sin (2 * Bs))).
  { destruct Hw as [-> | ->]; [rewrite !Rmult_1_l; reflexivity|]. replace (2 * (-1 * Bs)) with (- (2 * Bs)) by ring. rewrite sin_neg. ring. }
  rewrite W, <- Q1, <- Q2.
  destruct (sqrt_facts mu Hm) as [M1 M2]. destruct (sqrt_facts a) as [A1 A2]; [lra|]. destruct (sqrt_facts s) as [T1 T2]; [lra|].
  destruct (sqrt_facts 2) as [W1 W2]; [lra|].
  assert (ES : sqrt S = sqrt s / (sqrt 2 * sqrt a)) by (unfold S; rewrite sqrt_div_alt, sqrt_mult by lra; reflexivity).
  assert (EC : sqrt (s - c) = l * sqrt s).
  { unfold l, K. rewrite sqrt_div_alt by lra. field. lra. }
  rewrite EC, ES.
  assert (NW : w * w * w = w) by (destruct Hw as [-> | ->]; ring).
  assert (X1 : sqrt s * sqrt s * sqrt s - w * (l * sqrt s) * (w * (l * sqrt s)) * (w * (l * sqrt s)) = sqrt s * sqrt s * sqrt s * (1 - w * (l * l * l))).
  { transitivity (sqrt s * sqrt s * sqrt s * (1 - (w * w * w) * (l * l * l))); [ring|]. rewrite NW. reflexivity. }
  rewrite X1. clear X1 Q1 Q2 W ES EC.
  set (p1 := phi_f S). set (p2 := phi_f (K * S)). set (d := 1 - w * (l * l * l)) in *.
  transitivity (a * sqrt a / sqrt mu * ((p1 - w * (l * l * l) * p2) * (sqrt s * sqrt s * sqrt s / (sqrt 2 * sqrt 2 * sqrt 2 * (sqrt a * sqrt a * sqrt a)))) /
    (sqrt 2 * (sqrt s * sqrt s * sqrt s * d) / (3 * sqrt mu))).
  2: { field. repeat split; lra. }
  transitivity (3 * (p1 - w * (l * l * l) * p2) * a / (d * (sqrt 2 * sqrt 2) * (sqrt 2 * sqrt 2) * (sqrt a * sqrt a))).
  2: { field. repeat split; lra. }
  rewrite W2, A2. field. split; lra.
Qed.
Lemma ht_series b : s < 2 * b -> is_pseries A_coeff (- (s / (2 * b))) (ht mu r1 r2 w b / pt mu r1 r2 w).
Proof.
  intros Hb. destruct K_facts as (K1 & L1 & L2 & D). destruct (Hc r1 r2 Hn) as [C1 C2]. fold c s in C1, C2.
  set (S := s / (2 * b)) in *.
  assert (S1 : 0 < S < 1). { unfold S. split; [apply Rdiv_lt_0_compat; lra|]. apply Rmult_lt_reg_r with (2 * b); [lra|]; field_simplify; lra. }
  assert (HK : (s - c) / (2 * b) = K * S) by (unfold K, S; field; lra). 
  match goal with |- is_pseries _ _ ?v => replace v with (3 / 4 * (phi_f (- S) - w * (l * l * l) * phi_f (K * - S)) / (1 - w * (l * l * l))) end.
  { apply A_sum. apply Rabs_def1; lra. }
  destruct (sqrt_facts S) as [R1 R2]; [lra|].
  assert (Q1 : phi_f (- S) * (sqrt S * sqrt S * sqrt S) = sinh (2 * arcsinh (sqrt S)) - 2 * arcsinh (sqrt S)).
  { assert (R3 : sqrt S < 1) by nra.
    assert (AB : 0 < arcsinh (sqrt S)) by (rewrite <- arcsinh_0; now apply arcsinh_lt).
    pose proof (phi_hyp (arcsinh (sqrt S)) ltac:(lra)) as P. rewrite sinh_arcsinh in P. rewrite R2 in P at 1. apply P. lra. }
  assert (Q2 : phi_f (K * - S) * ((l * sqrt S) * (l * sqrt S) * (l * sqrt S)) = sinh (2 * arcsinh (sqrt (K * S))) - 2 * arcsinh (sqrt (K * S))).
  { assert (EL : sqrt (K * S) = l * sqrt S) by (rewrite sqrt_mult by lra; reflexivity). rewrite EL.
    assert (R3 : 0 < l * sqrt S < 1) by (assert (sqrt S < 1) by nra; nra). set (q := l * sqrt S) in *.
    assert (AB : 0 < arcsinh q) by (rewrite <- arcsinh_0; now apply arcsinh_lt).
    pose proof (phi_hyp (arcsinh q) ltac:(lra)) as P. rewrite sinh_arcsinh in P.
    replace (- (q * q)) with (K * - S) in P at 1 by (unfold q; rewrite <- L2; rewrite <- R2 at 1; ring). apply P. lra. }
  unfold ht, lagh_time, lagh_A, lagh_B, pt, par_time. fold s c. rewrite HK. fold S.
  set (As := arcsinh (sqrt S)) in *. set (Bs := arcsinh (sqrt (K * S))) in *.
  assert (W : sinh (2 * (w * Bs)) - 2 * (w * Bs) = w * (sinh (2 * Bs) - 2 * Bs)).
  { destruct Hw as [-> | ->]; [rewrite !Rmult_1_l; reflexivity|]. replace (2 * (-1 * Bs)) with (- (2 * Bs)) by ring.
    assert (N : forall x, sinh (- x) = - sinh x) by (intros x; unfold sinh; rewrite Ropp_involutive; field). rewrite N. ring. }
  rewrite W, <- Q1, <- Q2.
  destruct (sqrt_facts mu Hm) as [M1 M2]. destruct (sqrt_facts b) as [A1 A2]; [lra|]. destruct (sqrt_facts s) as [T1 T2]; [lra|].
  destruct (sqrt_facts 2) as [W1 W2]; [lra|].
  assert (ES : sqrt S = sqrt s / (sqrt 2 * sqrt b)) by (unfold S; rewrite sqrt_div_alt, sqrt_mult by lra; reflexivity).
  assert (EC : sqrt (s - c) = l * sqrt s).
  { unfold l, K. rewrite sqrt_div_alt by lra. field. lra. }
  rewrite EC, ES.
  assert (NW : w * w * w = w) by (destruct Hw as [-> | ->]; ring).
  assert (X1 : sqrt s * sqrt s * sqrt s - w * (l * sqrt s) * (w * (l * sqrt s)) * (w * (l * sqrt s)) = sqrt s * sqrt s * sqrt s * (1 - w * (l * l * l))).
  { transitivity (sqrt s * sqrt s * sqrt s * (1 - (w * w * w) * (l * l * l))); [ring|]. rewrite NW. reflexivity. }
  rewrite X1. clear X1 Q1 Q2 W ES EC.
  set (p1 := phi_f (- S)). set (p2 := phi_f (K * - S)). set (d := 1 - w * (l * l * l)) in *.
  transitivity (b * sqrt b / sqrt mu * ((p1 - w * (l * l * l) * p2) * (sqrt s * sqrt s * sqrt s / (sqrt 2 * sqrt 2 * sqrt 2 * (sqrt b * sqrt b * sqrt b)))) /
    (sqrt 2 * (sqrt s * sqrt s * sqrt s * d) / (3 * sqrt mu))).
  2: { field. repeat split; lra. }
  transitivity (3 * (p1 - w * (l * l * l) * p2) * b / (d * (sqrt 2 * sqrt 2) * (sqrt 2 * sqrt 2) * (sqrt b * sqrt b))).
  2: { field. repeat split; lra. }
  rewrite W2, A2. field. split; lra.
Qed.
End Coefficients.

(** ** C34 *)

(** The coefficients of [get_A_array] (with 1 in front) are those of the time of
    flight, divided by the parabolic one, as a power series in [s / 2a]: for every
    ellipse on the short branch and every hyperbola with [2 |a| > s]. *)
Theorem C34_thorne_coefficients : forall mu r1 r2 mp, 0 < mu -> non_collinear r1 r2 -> mp = 1 \/ mp = -1 ->
  let s := semiper r1 r2 in let c := chord r1 r2 in
  exists (A : nat -> R) t_p, A O = 1 /\ 0 < t_p /\
  (forall n, @tho_A XR (Fin s) (Fin c) (Fin mp) n = Fin (A n)) /\
  @tho_parabolic_tof XR (Fin mu) (Fin s) (Fin c) (Fin mp) = Fin t_p /\
  (forall a, s < 2 * a -> exists t, @tho_lagrange_tof XR (Fin mu) (Fin s) (Fin c) (Fin a) (Fin mp) ThA = Ok (Fin t) /\
     is_pseries A (s / (2 * a)) (t / t_p)) /\
  (forall a, a < 0 -> s < 2 * - a -> exists t, @tho_lagrange_tof XR (Fin mu) (Fin s) (Fin c) (Fin a) (Fin mp) ThH = Ok (Fin t) /\
     is_pseries A (s / (2 * a)) (t / t_p)).
Proof.
  intros mu r1 r2 mp Hm Hn Hmp s c. assert (exists w, mp = - w /\ (w = 1 \/ w = -1)) as (w & -> & Hw).
  { exists (- mp). split; [ring|destruct Hmp as [-> | ->]; [right|left]; ring]. }
  exists (A_coeff r1 r2 w), (pt mu r1 r2 w). destruct (K_facts r1 r2 w Hn Hw) as (K1 & L1 & L2 & D).
  split. { unfold A_coeff, phi_a. cbn. field. lra. }
  split.
  { unfold pt, par_time. destruct (Hc r1 r2 Hn) as [C1 C2]. fold s c in C1, C2 |- *.
    destruct (sqrt_facts mu Hm) as [M1 M2]. destruct (sqrt_facts s) as [T1 T2]; [lra|]. destruct (sqrt_facts 2) as [W1 W2]; [lra|].
    destruct (sqrt_facts (s - c)) as [U1 U2]; [lra|]. assert (U3 : sqrt (s - c) < sqrt s) by (apply sqrt_lt_1; lra).
    apply Rdiv_lt_0_compat; [|lra]. apply Rmult_lt_0_compat; [exact W1|].
    set (x := sqrt s) in *. set (y := sqrt (s - c)) in *. assert (y * y * y < x * x * x) by nra.
    assert (0 < y * y * y) by (apply cube_pos; lra).
    destruct Hw as [-> | ->]; [replace (1 * y * (1 * y) * (1 * y)) with (y * y * y) by ring|replace (-1 * y * (-1 * y) * (-1 * y)) with (- (y * y * y)) by ring]; lra. }
  split; [intros n; apply tho_A_F; assumption|]. split; [apply tho_parabolic_F; assumption|]. split.
  - intros a Ha. exists (et mu r1 r2 w a false). split; [apply (tho_elliptic_F mu r1 r2 w Hm Hn Hw a false); fold s; lra|].
    now apply et_series.
  - intros a Ha Ha'. exists (ht mu r1 r2 w (- a)). split.
    + pose proof (tho_hyperbolic_F mu r1 r2 w Hm Hn Hw (- a) ltac:(lra)) as E. rewrite Ropp_involutive in E. exact E.
    + replace (s / (2 * a)) with (- (s / (2 * - a))) by (field; lra). now apply ht_series.
Qed.
Print Assumptions C34_thorne_coefficients.
Example C34_coefficients_case : non_collinear ex_r1 ex_r2 /\ semiper ex_r1 ex_r2 < 2 * semiper ex_r1 ex_r2.
Proof. split; [apply ex_non_collinear|]. destruct (Hc ex_r1 ex_r2 ex_non_collinear). lra. Qed.
