(** * arora2013 starts outside its domain for long times: C61. *)
From Coq Require Import String ZArith List Bool Lia Reals Lra Psatz.
From Verif Require Import Num XReal XRealLemmas MApi ApiFacts Loops MScipy MLinalg MArora MInit MAssertions Spec SpecLambert VecFacts VecXR CallXR Godal GodalXR
  LambertZ AnglesXR AroraW PropertiesArora PropertiesAngles PropertiesMotion PropertiesOrbit PropertiesUnique.
Local Open Scope R_scope.

(** ** The rational starts *)
Section Rational.
Variables (c1 c2 c3 c4 : R) (alpha : Z) (A B : R).
Hypothesis Hc : 0 < c3 < c1 /\ c1 < c2.
Hypothesis Hc4 : 0 < c4.
Hypothesis Hal : (0 < alpha)%Z.
Hypothesis HA : 0 < A.
Hypothesis HB : 0 < B.

Definition rat_num (F : R) : R := (B * (F - A) * c1 - c3 * (A * (F - B))) * c2 + c3 * c1 * (F * (A - B)).
Definition rat_den (F : R) : R := A * (F - B) * c1 - c3 * (B * (F - A)) - F * (A - B) * c2.

Lemma rational_F F : rat_den F <> 0 -> 0 < rat_num F / rat_den F ->
  @aro_rational XR (Fin c1) (Fin c2) (Fin c3) (Fin c4) alpha (Fin A) (Fin B) (Fin F) = Fin (- c4 * Rpower (rat_num F / rat_den F) (1 / IZR alpha)).
Proof.
  intros N P. unfold aro_rational, aro_gammas. cbv beta iota zeta. xunf. cbn [xmul xsub xadd xlift2 nofZ XR].
  fold (rat_num F). fold (rat_den F). rewrite xdiv_F by exact N. assert (1 <= IZR alpha) by (apply IZR_le; lia).
  rewrite (xdiv_F 1) by lra. rewrite xpow_F by exact P. reflexivity.
Qed.

(** With weights: a mean of [c1] and [c3]. *)
Lemma rat_weights F : rat_den F = - (B * (A - F) * (c2 - c3) + A * (F - B) * (c2 - c1)) /\
  rat_num F = - (B * (A - F) * (c2 - c3) * c1 + A * (F - B) * (c2 - c1) * c3).
Proof. unfold rat_den, rat_num. split; ring. Qed.

Lemma Rpower_le_base a b p : 0 < a <= b -> 0 < p -> Rpower a p <= Rpower b p.
Proof. intros H Hp. apply Rle_Rpower_l; lra. Qed.

(** For [B < A]: exact at both knots, between them for [F] in between, and
    tending to [c2] for long times ([F] near 0). *)
Lemma rational_between F : B < A -> 0 < F <= A -> exists r, 0 < r /\
  @aro_rational XR (Fin c1) (Fin c2) (Fin c3) (Fin c4) alpha (Fin A) (Fin B) (Fin F) = Fin (- c4 * Rpower r (1 / IZR alpha)) /\
  c3 <= r < c2 /\ (B <= F -> r <= c1) /\ (F <= B -> c1 <= r) /\ (F = A -> r = c3) /\ (F = B -> r = c1).
Proof.
  intros HBA HF. destruct (rat_weights F) as [ED EN].
  set (w1 := B * (A - F) * (c2 - c3)) in *. set (w3 := A * (F - B) * (c2 - c1)) in *.
  assert (W1 : 0 <= w1) by (unfold w1; apply Rmult_le_pos; nra).
  assert (K : 0 < B * (A - F) + A * (F - B)) by (replace (B * (A - F) + A * (F - B)) with (F * (A - B)) by ring; nra).
  assert (WS : 0 < w1 + w3).
  { replace (w1 + w3) with ((B * (A - F) + A * (F - B)) * (c2 - c1) + B * (A - F) * (c1 - c3)) by (unfold w1, w3; ring).
    assert (0 < (B * (A - F) + A * (F - B)) * (c2 - c1)) by (apply Rmult_lt_0_compat; lra).
    assert (0 <= B * (A - F) * (c1 - c3)) by (apply Rmult_le_pos; nra). lra. }
  assert (EN' : rat_num F = - (w1 * c1 + w3 * c3)) by exact EN. assert (ED' : rat_den F = - (w1 + w3)) by exact ED.
  assert (ER : rat_num F / rat_den F = (w1 * c1 + w3 * c3) / (w1 + w3)) by (rewrite EN', ED'; field; lra).
  assert (R3 : (w1 * c1 + w3 * c3) / (w1 + w3) - c3 = w1 * (c1 - c3) / (w1 + w3)) by (field; lra).
  assert (R1 : (w1 * c1 + w3 * c3) / (w1 + w3) - c1 = - (w3 * (c1 - c3) / (w1 + w3))) by (field; lra).
  assert (R2 : c2 - (w1 * c1 + w3 * c3) / (w1 + w3) = (w1 * (c2 - c1) + w3 * (c2 - c3)) / (w1 + w3)) by (field; lra).
  assert (P2 : 0 < (w1 * (c2 - c1) + w3 * (c2 - c3)) / (w1 + w3)).
  { apply Rdiv_lt_0_compat; [|lra]. replace (w1 * (c2 - c1) + w3 * (c2 - c3)) with ((c2 - c3) * (c2 - c1) * (B * (A - F) + A * (F - B))) by (unfold w1, w3; ring).
    repeat apply Rmult_lt_0_compat; lra. }
  assert (IV : 0 < / (w1 + w3)) by now apply Rinv_0_lt_compat.
  set (r := (w1 * c1 + w3 * c3) / (w1 + w3)) in *.
  assert (P3 : 0 <= w1 * (c1 - c3) / (w1 + w3)) by (unfold Rdiv; apply Rmult_le_pos; [apply Rmult_le_pos; lra|lra]).
  exists r. split; [lra|]. split; [|split; [lra|split; [|split; [|split]]]].
  - rewrite rational_F; [now rewrite ER|lra|rewrite ER; lra].
  - intros L. assert (0 <= w3) by (unfold w3; apply Rmult_le_pos; nra).
    assert (0 <= w3 * (c1 - c3) / (w1 + w3)) by (unfold Rdiv; apply Rmult_le_pos; [apply Rmult_le_pos; lra|lra]). lra.
  - intros L. assert (0 <= - w3) by (unfold w3; replace (- (A * (F - B) * (c2 - c1))) with (A * (B - F) * (c2 - c1)) by ring; apply Rmult_le_pos; nra).
    assert (0 <= - w3 * (c1 - c3) / (w1 + w3)) by (unfold Rdiv; apply Rmult_le_pos; [apply Rmult_le_pos; lra|lra]).
    assert (- w3 * (c1 - c3) / (w1 + w3) = - (w3 * (c1 - c3) / (w1 + w3))) by (field; lra). lra.
  - intros ->. assert (w1 = 0) by (unfold w1; ring). assert (E0 : w1 * (c1 - c3) / (w1 + w3) = 0) by (rewrite H; unfold Rdiv; ring). lra.
  - intros ->. assert (w3 = 0) by (unfold w3; ring). assert (E0 : w3 * (c1 - c3) / (w1 + w3) = 0) by (rewrite H; unfold Rdiv; ring). lra.
Qed.

(** Long times, whichever order the knots have. *)
Lemma rational_long r : 0 < r < c2 -> exists d, 0 < d /\ forall F, 0 < F < d -> exists r',
  r < r' /\ @aro_rational XR (Fin c1) (Fin c2) (Fin c3) (Fin c4) alpha (Fin A) (Fin B) (Fin F) = Fin (- c4 * Rpower r' (1 / IZR alpha)).
Proof.
  intros Hr. set (d0 := A * B * (c1 - c3)). assert (D0 : 0 < d0) by (unfold d0; repeat apply Rmult_lt_0_compat; lra).
  set (d1 := A * c1 - c3 * B - (A - B) * c2). set (n1 := (B * c1 - c3 * A) * c2 + c3 * c1 * (A - B)).
  assert (ED : forall F, rat_den F = - d0 + d1 * F) by (intros; unfold rat_den, d0, d1; ring).
  assert (EN : forall F, rat_num F = - d0 * c2 + n1 * F) by (intros; unfold rat_num, d0, n1; ring).
  set (a := Rabs d1 + 1). set (b := Rabs (n1 - r * d1) + 1).
  assert (Pa : 0 < a /\ d1 <= a) by (unfold a; pose proof (Rabs_pos d1); pose proof (Rle_abs d1); lra).
  assert (Pb : 0 < b /\ n1 - r * d1 <= b) by (unfold b; pose proof (Rabs_pos (n1 - r * d1)); pose proof (Rle_abs (n1 - r * d1)); lra).
  clearbody a b. exists (Rmin (d0 / a) ((c2 - r) * d0 / b)). split.
  { apply Rmin_glb_lt; apply Rdiv_lt_0_compat; try lra. apply Rmult_lt_0_compat; lra. }
  intros F [F0 FL]. assert (L1 : F < d0 / a) by (eapply Rlt_le_trans; [exact FL|apply Rmin_l]). assert (L2 : F < (c2 - r) * d0 / b) by (eapply Rlt_le_trans; [exact FL|apply Rmin_r]).
  assert (M1 : a * F < d0) by (replace d0 with (a * (d0 / a)) by (field; lra); apply Rmult_lt_compat_l; lra).
  assert (M2 : b * F < (c2 - r) * d0) by (replace ((c2 - r) * d0) with (b * ((c2 - r) * d0 / b)) by (field; lra); apply Rmult_lt_compat_l; lra).
  assert (DN : rat_den F < 0) by (rewrite ED; nra).
  assert (NN : rat_num F < r * rat_den F) by (rewrite EN, ED; nra).
  assert (RR : r < rat_num F / rat_den F).
  { replace (rat_num F / rat_den F) with (- rat_num F / - rat_den F) by (field; lra). apply Rmult_lt_reg_r with (- rat_den F); [lra|].
    replace (- rat_num F / - rat_den F * - rat_den F) with (- rat_num F) by (field; lra). lra. }
  exists (rat_num F / rat_den F). split; [exact RR|]. apply rational_F; lra.
Qed.
End Rational.

(** ** The last region of the elliptic start *)

(** [4439/3156 * (67286/17897 (1 - 10^-6))^(1/243)] exceeds [sqrt 2]. *)
Definition E4_r : R := IZR 67286 * IZR 999999 / (IZR 17897 * IZR 1000000).
Lemma E4_root : sqrt 2 < IZR 4439 / IZR 3156 * Rpower E4_r (1 / IZR 243).
Proof.
  destruct sqrt2_facts as [W1 W2]. set (x := Rpower E4_r (1 / IZR 243)).
  assert (R0 : 0 < E4_r) by (unfold E4_r; lra).
  assert (P : 0 < x) by apply exp_pos.
  assert (X : x ^ 243 = E4_r).
  { rewrite <- Rpower_pow by exact P. unfold x. rewrite Rpower_mult. replace (1 / IZR 243 * INR 243) with 1; [now apply Rpower_1|].
    rewrite INR_IZR_INZ. change (Z.of_nat 243) with 243%Z. field. }
  destruct (Rlt_dec (sqrt 2) (IZR 4439 / IZR 3156 * x)) as [|N]; [assumption|exfalso].
  assert (L : (IZR 4439 / IZR 3156 * x) ^ 486 <= (sqrt 2) ^ 486) by (apply pow_incr; split; [apply Rmult_le_pos; lra|lra]).
  assert (E2 : (sqrt 2) ^ 486 = IZR 2 ^ 243) by (change 486%nat with (2 * 243)%nat; rewrite pow_mult; f_equal; cbn [pow]; lra).
  assert (EX : x ^ 486 = E4_r * E4_r) by (change 486%nat with (243 + 243)%nat; rewrite pow_add, X; reflexivity).
  rewrite Rpow_mult_distr, EX, E2 in L.
  assert (Q : (IZR 4439 / IZR 3156) ^ 486 = IZR 4439 ^ 486 / IZR 3156 ^ 486) by (unfold Rdiv; rewrite Rpow_mult_distr, pow_inv; reflexivity).
  rewrite Q in L. clear Q EX E2 X N P. clearbody x.
  assert (Z0 : (2 ^ 243 * 3156 ^ 486 * ((17897 * 1000000) * (17897 * 1000000)) < 4439 ^ 486 * ((67286 * 999999) * (67286 * 999999)))%Z) by (vm_compute; reflexivity).
  apply IZR_lt in Z0. rewrite !mult_IZR in Z0. 
  change (IZR (2 ^ 243)) with (IZR (2 ^ Z.of_nat 243)) in Z0. change (IZR (3156 ^ 486)) with (IZR (3156 ^ Z.of_nat 486)) in Z0.
  change (IZR (4439 ^ 486)) with (IZR (4439 ^ Z.of_nat 486)) in Z0. rewrite <- !pow_IZR in Z0.
  unfold E4_r in L.
  assert (PD : 0 < IZR 3156 ^ 486) by (apply pow_lt; lra). set (D := IZR 3156 ^ 486) in *. set (U := IZR 4439 ^ 486) in *. set (V := IZR 2 ^ 243) in *. clearbody D U V.
  set (p := IZR 67286 * IZR 999999) in *. set (q := IZR 17897 * IZR 1000000) in *. assert (Q0 : 0 < q) by (unfold q; lra). clearbody p q.
  apply (Rmult_le_compat_r (D * (q * q))) in L; [|nra].
  replace (U / D * (p / q * (p / q)) * (D * (q * q))) with (U * (p * p)) in L by (field; lra). lra.
Qed.

Section Long.
Variables (tau S tof_p : R).
Hypothesis Ht : tau * tau <= 1 / 2.
Hypothesis HS : 0 < S.

Lemma knot_F k w : 0 < 1 - k * tau -> 0 < tau + (1 - k * tau) * w ->
  exists t, @aro_TOF XR (Fin k) (Fin tau) (Fin S) (Fin w) = Fin t /\ 0 < t.
Proof.
  intros H1 H2. unfold aro_TOF. xunf. cbn [nofZ XR xmul xsub xlift2]. rewrite xsqrt_F by lra. cbn [xmul xadd xlift2].
  eexists. split; [reflexivity|]. destruct (sqrt_facts _ H1) as [P _]. repeat apply Rmult_lt_0_compat; assumption.
Qed.

Lemma elliptic_long : exists T0, forall tof, T0 < tof ->
  exists k, @aro_guess_elliptic XR (Fin tof) (Fin tof_p) (Fin tau) (Fin S) = Fin k /\ k < - sqrt 2.
Proof.
  assert (TB : - (7072 / 10000) < tau < 7072 / 10000).
  { split; [destruct (Rlt_dec (- (7072 / 10000)) tau) as [|N]|destruct (Rlt_dec tau (7072 / 10000)) as [|N]]; try assumption; exfalso.
    - assert (7072 / 10000 * (7072 / 10000) <= (- tau) * (- tau)) by (apply Rmult_le_compat; lra). lra.
    - assert (7072 / 10000 * (7072 / 10000) <= tau * tau) by (apply Rmult_le_compat; lra). lra. }
  destruct (knot_F (- (141 / 100)) (4839684497246 / 1000000000)) as (t141 & E141 & P141); [lra|lra|].
  destruct (knot_F (- (138 / 100)) (212087279879 / 1000000000)) as (t138 & E138 & P138); [lra|lra|].
  destruct (knot_F (- (1)) (5712388981 / 1000000000)) as (t1 & E1 & P1); [lra|lra|].
  destruct (knot_F 0 (1110720735 / 1000000000)) as (t0 & E0 & P0); [lra|lra|].
  assert (HR : 0 < E4_r < 67286 / 17897) by (unfold E4_r; lra).
  destruct (rational_long (49267 / 27059) (67286 / 17897) (2813 / 287443) (4439 / 3156) 243 (/ t138) (/ t141)
    ltac:(lra) ltac:(lia) ltac:(now apply Rinv_0_lt_compat) ltac:(now apply Rinv_0_lt_compat) E4_r HR) as (d & D0 & D).
  exists (Rmax (Rmax t0 t1) (Rmax t138 (/ d))). intros tof HT.
  assert (L0 : t0 < tof /\ t1 < tof /\ t138 < tof /\ / d < tof).
  { pose proof (Rmax_l (Rmax t0 t1) (Rmax t138 (/ d))). pose proof (Rmax_r (Rmax t0 t1) (Rmax t138 (/ d))).
    pose proof (Rmax_l t0 t1). pose proof (Rmax_r t0 t1). pose proof (Rmax_l t138 (/ d)). pose proof (Rmax_r t138 (/ d)). lra. }
  destruct L0 as (L0 & L1 & L138 & Ld).
  assert (F0 : 0 < / tof < d).
  { split; [apply Rinv_0_lt_compat; lra|]. rewrite <- (Rinv_inv d). apply Rinv_lt_contravar; [|exact Ld].
    apply Rmult_lt_0_compat; [now apply Rinv_0_lt_compat|lra]. }
  destruct (D _ F0) as (r & Hr & ER).
  exists (- (4439 / 3156) * Rpower r (1 / IZR 243)). split.
  - rewrite <- ER. unfold aro_guess_elliptic. cbv zeta. cbn [nlit XR]. xunf. cbn [nofZ XR]. unfold xopp. cbn [xlift1].
    rewrite E141, E138, E1, E0.
    replace (xleb (Fin tof) (Fin t0)) with false by (symmetry; now apply xleb_Ff).
    replace (xleb (Fin tof) (Fin t1)) with false by (symmetry; now apply xleb_Ff).
    replace (xleb (Fin tof) (Fin t138)) with false by (symmetry; now apply xleb_Ff). rewrite !andb_false_r.
    rewrite !(xdiv_F 1) by lra. rewrite (xdiv_F 49267), (xdiv_F 67286), (xdiv_F 2813), (xdiv_F 4439) by lra.
    unfold Rdiv at 5 6 7. rewrite !Rmult_1_l. reflexivity.
  - pose proof E4_root as E. assert (X : Rpower E4_r (1 / IZR 243) <= Rpower r (1 / IZR 243)) by (apply Rle_Rpower_l; lra).
    set (a := Rpower r _) in *. set (b := Rpower E4_r _) in *. clearbody a b. lra.
Qed.

(** Outside the domain the first evaluation refuses. *)
Lemma below_domain dpos tof atol n k : k < - sqrt 2 ->
  @aro_body XR dpos (Fin tof) (Fin tof_p) (Fin tau) (Fin S) 0 atol n (Fin k) = Raise (ValueError "Did not found a suitable equaiton to find W!").
Proof.
  intros Hk. destruct sqrt2_facts as [W1 W2]. assert (W3 : 1 < sqrt 2) by nra. unfold aro_body, aro_W. rewrite aro_sq2_F. unfold aro_eps. cbv zeta. cbn [nlit XR]. xunf. unfold xopp. cbn [xlift1 xsub xadd xlift2].
  replace (xleb (Fin (- sqrt 2)) (Fin k)) with false by (symmetry; now apply xleb_Ff). cbn [andb orb Z.ltb Z.compare].
  replace (xltb (Fin (sqrt 2 + 2 / 100)) (Fin k)) with false by (symmetry; apply xltb_Ff; lra).
  replace (xleb (Fin (sqrt 2 - 2 / 100)) (Fin k)) with false by (symmetry; apply xleb_Ff; lra). cbn [Z.eqb andb]. reflexivity.
Qed.
End Long.

(** Whatever the geometry, for all times beyond some bound arora2013 raises
    ValueError, although a transfer exists: the start of its last region tends to
    [-4439/3156 (67286/17897)^(1/243) = -1.41421357 < - sqrt 2], outside the domain. *)
Theorem C61_arora_long_refuted : forall mu p r1 r2, 0 < mu -> vz (vcross r1 r2) <> 0 ->
  exists T0, forall tof, T0 < tof ->
    (exists v1 v2, lambert_solution mu r1 v1 r2 v2 tof 0 /\ moves_as_requested p r1 v1) /\
    forall ev low maxiter atol rtol full, (1 <= maxiter)%Z ->
      @run XR Arora ev (call mu r1 r2 tof 0 p low maxiter atol rtol full) = Err (ValueError "Did not found a suitable equaiton to find W!").
Proof.
  intros mu p r1 r2 Hmu Hz. pose proof (vz_non_collinear _ _ Hz) as Hn. destruct (norms_pos _ _ Hn) as [N1 N2].
  destruct (transfer_angle r1 r2 p Hn) as (th & ET & F).
  set (h := vnorm r2 / vnorm r1). set (T := sqrt (vnorm r1 * vnorm r1 * vnorm r1 / mu)).
  assert (P3 : 0 < vnorm r1 * vnorm r1 * vnorm r1 / mu).
  { apply Rdiv_lt_0_compat; [|assumption]. repeat apply Rmult_lt_0_compat; assumption. }
  assert (Hh : 0 < h) by (apply Rdiv_lt_0_compat; assumption).
  assert (HT : 0 < T) by (apply sqrt_lt_R0; assumption).
  assert (S1 : 0 < (1 + h) * (1 + h) * (1 + h)) by (repeat apply Rmult_lt_0_compat; lra).
  set (S := sqrt ((1 + h) * (1 + h) * (1 + h))). assert (HS : 0 < S) by now apply sqrt_lt_R0.
  set (d := if Rle_dec th PI then 1 else -1). assert (Dd : d * d = 1) by (unfold d; destruct (Rle_dec th PI); lra).
  set (tau := d * sqrt (h * (1 + cos th)) / (1 + h)).
  assert (CB : -1 <= cos th <= 1) by apply COS_bound.
  assert (Q0 : 0 <= h * (1 + cos th)) by (apply Rmult_le_pos; lra).
  assert (Htau : tau * tau <= 1 / 2).
  { replace (tau * tau) with (d * d * (sqrt (h * (1 + cos th)) * sqrt (h * (1 + cos th))) / ((1 + h) * (1 + h))) by (unfold tau; field; lra).
    rewrite Dd, sqrt_sqrt by assumption. apply Rmult_le_reg_r with ((1 + h) * (1 + h)); [nra|].
    replace (1 * (h * (1 + cos th)) / ((1 + h) * (1 + h)) * ((1 + h) * (1 + h))) with (h * (1 + cos th)) by (field; lra).
    assert (h * (1 + cos th) <= h * 2) by (apply Rmult_le_compat_l; lra). pose proof (Rle_0_sqr (1 - h)) as X. unfold Rsqr in X. lra. }
  destruct sqrt2_facts as [W1 W2].
  assert (Hp : 0 <= 1 - sqrt 2 * tau).
  { assert ((sqrt 2 * tau) * (sqrt 2 * tau) <= 1) by (replace ((sqrt 2 * tau) * (sqrt 2 * tau)) with ((sqrt 2 * sqrt 2) * (tau * tau)) by ring; rewrite W2; lra). nra. }
  set (tp := S * sqrt (1 - sqrt 2 * tau) * (tau + sqrt 2) / 3).
  destruct (elliptic_long tau S tp Htau HS) as (T1 & L).
  exists (Rmax 0 (Rmax (tp * T) (T1 * T))). intros tof HL.
  assert (LL : 0 < tof /\ tp * T < tof /\ T1 * T < tof).
  { pose proof (Rmax_l 0 (Rmax (tp * T) (T1 * T))). pose proof (Rmax_r 0 (Rmax (tp * T) (T1 * T))).
    pose proof (Rmax_l (tp * T) (T1 * T)). pose proof (Rmax_r (tp * T) (T1 * T)). lra. }
  destruct LL as (L0 & Lp & L1).
  split; [now apply C36_zero_rev_exists|].
  intros ev low mi atol rtol full Hmi.
  assert (VI : valid_input mu r1 r2 tof 0).
  { unfold valid_input. split; [lra|]. split; [|split; [|split; [lra|lia]]].
    - intros E. apply Hz. rewrite E. unfold vcross, vzero. cbn [vx vy vz]. ring.
    - intros E. apply Hz. rewrite E. unfold vcross, vzero. cbn [vx vy vz]. ring. }
  cbn [run]. unfold arora2013. rewrite validated_call_ok by exact VI.
  cbn [a_mu a_r1 a_r2 a_tof a_M a_is_prograde a_is_low_path a_maxiter a_atol a_rtol a_full_output call].
  rewrite ET. unfold MAssertions.assert_transfer_angle_not_zero.
  replace (@neqb XR (Fin th) (nofZ 0)) with false by (symmetry; apply xeqb_Ff; pose proof (af_range _ _ _ _ F); lra).
  cbn [bind]. rewrite !norm_F. rewrite !vdivs_F by lra. rewrite !norm_F, !vnorm_mult. rewrite !(Rabs_pos_eq (/ vnorm r1)) by (apply Rlt_le; now apply Rinv_0_lt_compat).
  replace (/ vnorm r1 * vnorm r1) with 1 by (field; lra).
  replace (/ vnorm r1 * vnorm r2) with h by (unfold h; field; lra).
  replace (@nsqrt XR (@ndiv XR (@cube XR (Fin (vnorm r1))) (Fin mu))) with (Fin T).
  2:{ unfold T, cube. xunf. cbn [xmul xlift2]. rewrite xdiv_F by lra. rewrite xsqrt_F by lra. reflexivity. }
  replace (@nmul XR (Fin mu) (@ndiv XR (@sq XR (Fin T)) (@cube XR (Fin (vnorm r1))))) with (Fin 1).
  2:{ unfold sq, cube. xunf. cbn [xmul xlift2]. rewrite xdiv_F.
      - cbn [xmul xlift2]. f_equal. unfold T. rewrite sqrt_sqrt by lra. field. split; lra.
      - repeat apply Rmult_integral_contrapositive_currified; lra. }
  replace (@nsqrt XR (@ndiv XR (@cube XR (@nadd XR (Fin 1) (Fin h))) (Fin 1))) with (Fin S).
  2:{ unfold cube. xunf. cbn [xmul xadd xlift2]. rewrite xdiv_F by lra. unfold Rdiv.
      rewrite Rinv_1, Rmult_1_r. rewrite xsqrt_F by lra. reflexivity. }
  replace (if @nleb XR (Fin th) npi then @nofZ XR 1 else @nopp XR (@nofZ XR 1)) with (Fin d).
  2:{ unfold d. xunf. unfold xleb. destruct (Rle_dec th PI); reflexivity. }
  replace (@ndiv XR (@nmul XR (Fin d) (@nsqrt XR (@nmul XR (@nmul XR (Fin 1) (Fin h)) (@nadd XR (nofZ 1) (@ncos XR (Fin th))))))
             (@nadd XR (Fin 1) (Fin h))) with (Fin tau).
  2:{ unfold tau. xunf. cbn [xmul xadd xlift2 xlift1]. rewrite Rmult_1_l, xsqrt_F by lra. cbn [xmul xlift2]. rewrite xdiv_F by lra. reflexivity. }
  replace (@ndiv XR (Fin tof) (Fin T)) with (Fin (tof / T)) by (symmetry; apply xdiv_F; lra).
  replace (@nsqrt XR (nofZ 2)) with (Fin (sqrt 2)) by (symmetry; apply xsqrt_F; lra).
  replace (@ndiv XR (@nmul XR (@nmul XR (Fin S) (@nsqrt XR (@nsub XR (nofZ 1) (@nmul XR (Fin (sqrt 2)) (Fin tau))))) (@nadd XR (Fin tau) (Fin (sqrt 2)))) (nofZ 3))
    with (Fin tp).
  2:{ xunf. cbn [nofZ XR xmul xadd xsub xlift1 xlift2]. rewrite xsqrt_F by exact Hp. cbn [xmul xadd xsub xlift1 xlift2]. rewrite xdiv_F by lra. reflexivity. }
  assert (G1 : tp < tof / T /\ T1 < tof / T).
  { split; apply Rmult_lt_reg_r with T; try assumption; replace (tof / T * T) with tof by (field; lra); lra. }
  replace (@nleb XR (Fin (tof / T)) (Fin tp)) with false by (symmetry; apply xleb_Ff; lra).
  cbn [Z.eqb bind]. destruct (L _ (proj2 G1)) as (k & -> & Hk).
  destruct (Z.to_nat mi) as [|n] eqn:En; [lia|]. cbn [for_range]. now rewrite below_domain.
Qed.
Print Assumptions C61_arora_long_refuted.

Example C61_long_case : 0 < 1 /\ vz (vcross ex_r1 ex_r2) <> 0.
Proof. split; [lra|]. unfold vcross, ex_r1, ex_r2; cbn [vx vy vz]; lra. Qed.

(** The rational starts (arora.py:230-255) between their knots: region E3 starts
    from -1 at the time of [k = -1] and stays above [- sqrt 2]. *)
Theorem C61_arora_rational : forall Fn Fi F, 0 < Fi < Fn -> 0 < F <= Fn ->
  exists k, @aro_rational XR (Fin (540649 / 3125)) (Fin 256) (Fin 1) (Fin 1) 16 (Fin Fn) (Fin Fi) (Fin F) = Fin k /\
    - sqrt 2 < k <= -1 /\ (F = Fn -> k = -1) /\ (F = Fi -> k ^ 16 = 540649 / 3125).
Proof.
  intros Fn Fi F HB HF.
  destruct (rational_between (540649 / 3125) 256 1 1 16 Fn Fi ltac:(lra) ltac:(lia) ltac:(lra) ltac:(lra) F ltac:(lra) HF) as (r & R0 & E & R1 & _ & _ & R4 & R5).
  eexists. split; [exact E|]. destruct sqrt2_facts as [W1 W2].
  assert (X : forall a, 0 < a -> Rpower a (1 / IZR 16) ^ 16 = a).
  { intros a Ha. rewrite <- Rpower_pow by apply exp_pos. rewrite Rpower_mult. replace (1 / IZR 16 * INR 16) with 1; [now apply Rpower_1|].
    rewrite INR_IZR_INZ. change (Z.of_nat 16) with 16%Z. field. }
  assert (P1 : Rpower 1 (1 / IZR 16) = 1) by (unfold Rpower; rewrite ln_1, Rmult_0_r; apply exp_0).
  assert (P2 : Rpower 256 (1 / IZR 16) = sqrt 2).
  { replace 256 with (Rpower (sqrt 2) (INR 16)).
    - rewrite Rpower_mult. replace (INR 16 * (1 / IZR 16)) with 1; [now apply Rpower_1|]. rewrite INR_IZR_INZ. change (Z.of_nat 16) with 16%Z. field.
    - rewrite Rpower_pow by exact W1. change 16%nat with (2 * 8)%nat. rewrite pow_mult. replace (sqrt 2 ^ 2) with 2 by (cbn [pow]; lra). lra. }
  split; [split|split].
  - assert (Rpower r (1 / IZR 16) < Rpower 256 (1 / IZR 16)) by (apply Rlt_Rpower_l; lra). lra.
  - assert (Rpower 1 (1 / IZR 16) <= Rpower r (1 / IZR 16)) by (apply Rle_Rpower_l; lra). lra.
  - intros Z0. rewrite (R4 Z0), P1. ring.
  - intros Z0. replace (- (1) * Rpower r (1 / IZR 16)) with (- Rpower r (1 / IZR 16)) by ring.
    replace ((- Rpower r (1 / IZR 16)) ^ 16) with (Rpower r (1 / IZR 16) ^ 16) by ring. rewrite X by exact R0. exact (R5 Z0).
Qed.
Print Assumptions C61_arora_rational.
Example C61_rational_case : 0 < 1 / 3 < 1 /\ 0 < 1 / 2 <= 1.
Proof. lra. Qed.
