(** * negrete2024's contours and quadrature: C62. *)
From Coq Require Import Reals ZArith Bool Lra Lia Psatz String.
From Coquelicot Require Complex.
From Coquelicot Require Import Hierarchy Series PSeries.
From Verif Require Import Num XReal XRealLemmas MApi MComplex ComplexXR MNegrete Spec SpecLambert VecFacts VecXR UniversalKepler LambertUV LambertRev LambertZ ZMono LambertUnique StumpffXR StumpffSmooth MStumpff PropertiesStumpff MLinalg MAngles Godal GodalXR GodalIzzo GodalMore ApiFacts Loops LambertExist CallXR MInit PropertiesArora PropertiesAngles PropertiesMotion PropertiesUnique PropertiesOrbit PropertiesNegrete.
Module CC := Coquelicot.Complex.
Import Coquelicot.Complex.
Local Open Scope R_scope.

(** ** The trapezoidal rule on a circle *)

(** The [i]-th of [n] equally spaced points of the circle of centre [c] and radius [rho]. *)
Definition point (c rho : R) (n : Z) (i : nat) : CC.C :=
  (c + rho * cos (2 * PI * INR i / IZR n), rho * sin (2 * PI * INR i / IZR n)).
(** [f 0 + ... + f (n - 1)] *)
Fixpoint csum (f : nat -> CC.C) (n : nat) : CC.C :=
  match n with O => CC.RtoC 0 | S j => CC.Cplus (csum f j) (f j) end.
(** The trapezoidal rule for the integral of [z^k f(z)] along the circle, whose
    parametrisation has the derivative [2 pi i (z - c)]. *)
Definition trapezoid (c rho : R) (n : Z) (f : nat -> CC.C) (k : nat) : CC.C :=
  CC.Cmult (CC.RtoC (/ IZR n))
    (csum (fun i => CC.Cmult (cpow (point c rho n i) k) (CC.Cmult (f i) (CC.Cmult (0, 2 * PI) (CC.Cminus (point c rho n i) (CC.RtoC c))))) (Z.to_nat n)).

Lemma csum_ext f g n : (forall i, (i < n)%nat -> f i = g i) -> csum f n = csum g n.
Proof. induction n as [|n IH]; intros H; [reflexivity|]. cbn [csum]. rewrite IH, (H n) by (intros; try apply H; lia). reflexivity. Qed.
Lemma csum_plus f g n : csum (fun i => CC.Cplus (f i) (g i)) n = CC.Cplus (csum f n) (csum g n).
Proof. induction n as [|n IH]; cbn [csum]; [|rewrite IH]; ring. Qed.
Lemma csum_mult a f n : csum (fun i => CC.Cmult a (f i)) n = CC.Cmult a (csum f n).
Proof. induction n as [|n IH]; cbn [csum]; [|rewrite IH]; ring. Qed.

Lemma zpow_C z k : @neg_zpow XR (cC z) k = cC (cpow z k).
Proof.
  induction k as [|k IH]; [reflexivity|]. cbn [neg_zpow cpow]. rewrite IH, cC_mul. f_equal. ring.
Qed.

Lemma accumulate_C (f : nat -> @cplx XR) g n : (forall i, (i < n)%nat -> f i = cC (g i)) -> @neg_accumulate XR f n = cC (csum g n).
Proof.
  induction n as [|n IH]; intros H; [reflexivity|]. cbn [neg_accumulate csum]. rewrite IH, (H n) by (intros; try apply H; lia). reflexivity.
Qed.

(** The moments of the code are the trapezoidal rule for [z^k] times the pole
    function, on equally spaced points of the circle. *)
Theorem C62_quadrature : forall c rho mu n1 n2 A tof n k f,
  (0 < n)%Z ->
  (forall i, (i < Z.to_nat n)%nat -> @neg_pole XR (cC (point c rho n i)) mu n1 n2 A tof = cC (f i)) ->
  @neg_moment XR (Fin c) (Fin rho) mu n1 n2 A tof n k = cC (trapezoid c rho n f k).
Proof.
  intros c rho mu n1 n2 A tof n k f Hn Hf. unfold neg_moment, trapezoid.
  assert (N0 : IZR n <> 0) by (apply not_0_IZR; lia).
  assert (EI : @ndiv XR (nofZ 1) (nofZ n) = Fin (/ IZR n)) by (change (xdiv (Fin 1) (Fin (IZR n)) = Fin (/ IZR n)); rewrite xdiv_F by assumption; f_equal; field; lra).
  rewrite EI. rewrite <- cC_scale. f_equal. apply accumulate_C. intros i Hi. unfold neg_contribution.
  change (@nmul XR (nofZ (Z.of_nat i)) (Fin (/ IZR n))) with (Fin (IZR (Z.of_nat i) * / IZR n)). rewrite <- INR_IZR_INZ.
  change (@nmul XR (@nmul XR (nofZ 2) npi) (Fin (INR i * / IZR n))) with (Fin (2 * PI * (INR i * / IZR n))).
  change (@nmul XR (@nmul XR (nofZ 2) npi) (Fin rho)) with (Fin (2 * PI * rho)).
  rewrite !cimag_F. set (th := 2 * PI * (INR i * / IZR n)).
  assert (ET : 2 * PI * INR i / IZR n = th) by (unfold th, Rdiv; ring).
  assert (EE : @cexp XR (ci th) = cc (cos th) (sin th)).
  { unfold cexp, ci, cc. cbn [cre cim]. change (@nexp XR (Fin 0)) with (Fin (exp 0)). rewrite exp_0. change (@ncos XR (Fin th)) with (Fin (cos th)). change (@nsin XR (Fin th)) with (Fin (sin th)).
    change (cc (1 * cos th) (1 * sin th) = cc (cos th) (sin th)). now rewrite !Rmult_1_l. }
  rewrite EE. rewrite cscale_F, creal_F. unfold cr. rewrite cadd_F.
  assert (EP : cc (c + rho * cos th) (0 + rho * sin th) = cC (point c rho n i)) by (unfold point; rewrite ET; unfold cC; cbn [fst snd]; apply cc_eq; ring).
  rewrite EP. rewrite (Hf i Hi), zpow_C.
  assert (ED : @cmul XR (ci (2 * PI * rho)) (cc (cos th) (sin th)) = cC (CC.Cmult (0, 2 * PI) (CC.Cminus (point c rho n i) (CC.RtoC c)))).
  { unfold ci. rewrite cmul_F. unfold point. rewrite ET. unfold cC. cbn [CC.Cmult CC.Cminus CC.Cplus CC.Copp CC.RtoC fst snd]. apply cc_eq; ring. }
  rewrite ED, !cC_mul. reflexivity.
Qed.
Print Assumptions C62_quadrature.

(** ** Exactness *)
Definition unit_root (n : Z) (i : nat) : CC.C := (cos (2 * PI * INR i / IZR n), sin (2 * PI * INR i / IZR n)).

Lemma cpow_angle t k : cpow (cos t, sin t) k = (cos (INR k * t), sin (INR k * t)).
Proof.
  induction k as [|k IH].
  - cbn [cpow]. change (INR 0) with 0. rewrite Rmult_0_l, cos_0, sin_0. reflexivity.
  - cbn [cpow]. rewrite IH, S_INR. replace ((INR k + 1) * t) with (t + INR k * t) by ring. rewrite cos_plus, sin_plus.
    apply injective_projections; cbn [CC.Cmult fst snd]; ring.
Qed.
Lemma geometric w n : CC.Cmult (CC.Cminus w (CC.RtoC 1)) (csum (cpow w) n) = CC.Cminus (cpow w n) (CC.RtoC 1).
Proof. induction n as [|n IH]; cbn [csum cpow]; [ring|]. rewrite CC.Cmult_plus_distr_l, IH. ring. Qed.

(** The [m]-th powers of the [n]-th roots of unity add up to zero. *)
Lemma roots_sum n m : (0 < m)%nat -> (m < Z.to_nat n)%nat -> csum (fun i => cpow (unit_root n i) m) (Z.to_nat n) = CC.RtoC 0.
Proof.
  intros Hm Hn. assert (Hn0 : (0 < n)%Z) by lia. assert (N0 : 0 < IZR n) by now apply IZR_lt.
  assert (EN : INR (Z.to_nat n) = IZR n) by (rewrite INR_IZR_INZ, Z2Nat.id by lia; reflexivity).
  pose proof PI_RGT_0 as P. set (t := 2 * PI * INR m / IZR n). set (w := (cos t, sin t)).
  transitivity (csum (cpow w) (Z.to_nat n)).
  { apply csum_ext. intros i _. unfold unit_root, w. rewrite !cpow_angle. unfold t.
    replace (INR m * (2 * PI * INR i / IZR n)) with (INR i * (2 * PI * INR m / IZR n)) by (field; lra). reflexivity. }
  assert (Hw : CC.Cminus w (CC.RtoC 1) <> CC.RtoC 0).
  { intros E. assert (C : cos t = 1) by (apply (f_equal fst) in E; cbn in E; lra).
    assert (T : 0 < t / 2 < PI).
    { unfold t. apply lt_INR in Hm, Hn. change (INR 0) with 0 in Hm. rewrite EN in Hn. replace (2 * PI * INR m / IZR n / 2) with (PI * (INR m / IZR n)) by (field; lra).
      assert (0 < INR m / IZR n) by now apply Rdiv_lt_0_compat. assert (INR m / IZR n < 1) by (apply Rmult_lt_reg_r with (IZR n); [assumption|]; unfold Rdiv; rewrite Rmult_assoc, Rinv_l; lra).
      split; nra. }
    pose proof (sin_gt_0 _ (proj1 T) (proj2 T)) as S. replace t with (2 * (t / 2)) in C by field. rewrite cos_2a_sin in C. nra. }
  assert (E : CC.Cmult (CC.Cminus w (CC.RtoC 1)) (csum (cpow w) (Z.to_nat n)) = CC.RtoC 0).
  { rewrite geometric. unfold w at 1. rewrite cpow_angle. unfold t. rewrite EN. replace (IZR n * (2 * PI * INR m / IZR n)) with (0 + 2 * INR m * PI) by (field; lra).
    rewrite cos_period, sin_period, cos_0, sin_0. apply injective_projections; cbn; ring. }
  destruct (CC.Ceq_dec (csum (cpow w) (Z.to_nat n)) (CC.RtoC 0)) as [Z|Z]; [assumption|]. exfalso. exact (CC.Cmult_neq_0 _ _ Hw Z E).
Qed.

Lemma point_unit c rho n i : point c rho n i = CC.Cplus (CC.RtoC c) (CC.Cmult (CC.RtoC rho) (unit_root n i)).
Proof. unfold point, unit_root. apply injective_projections; cbn; ring. Qed.

(** The rule integrates polynomials of degree less than [n - 1] exactly: to zero. *)
Lemma monomial_zero c rho n k : (0 <= k <= 2)%nat -> (S k < Z.to_nat n)%nat ->
  csum (fun i => CC.Cmult (cpow (point c rho n i) k) (CC.Cminus (point c rho n i) (CC.RtoC c))) (Z.to_nat n) = CC.RtoC 0.
Proof.
  intros Hk Hn. set (u := unit_root n). set (N := Z.to_nat n).
  assert (S1 : csum (fun i => cpow (u i) 1) N = CC.RtoC 0) by (apply roots_sum; lia).
  assert (k = 0 \/ k = 1 \/ k = 2)%nat as [-> | [-> | ->]] by lia.
  - transitivity (CC.Cmult (CC.RtoC rho) (csum (fun i => cpow (u i) 1) N)).
    + rewrite <- csum_mult. apply csum_ext. intros i _. rewrite point_unit. cbn [cpow]. fold (u i). ring.
    + rewrite S1. ring.
  - assert (S2 : csum (fun i => cpow (u i) 2) N = CC.RtoC 0) by (apply roots_sum; lia).
    transitivity (CC.Cplus (CC.Cmult (CC.Cmult (CC.RtoC c) (CC.RtoC rho)) (csum (fun i => cpow (u i) 1) N)) (CC.Cmult (CC.Cmult (CC.RtoC rho) (CC.RtoC rho)) (csum (fun i => cpow (u i) 2) N))).
    + rewrite <- !csum_mult, <- csum_plus. apply csum_ext. intros i _. rewrite point_unit. cbn [cpow]. fold (u i). ring.
    + rewrite S1, S2. ring.
  - assert (S2 : csum (fun i => cpow (u i) 2) N = CC.RtoC 0) by (apply roots_sum; lia).
    assert (S3 : csum (fun i => cpow (u i) 3) N = CC.RtoC 0) by (apply roots_sum; lia).
    transitivity (CC.Cplus (CC.Cplus (CC.Cmult (CC.Cmult (CC.Cmult (CC.RtoC c) (CC.RtoC c)) (CC.RtoC rho)) (csum (fun i => cpow (u i) 1) N))
      (CC.Cmult (CC.Cmult (CC.Cplus (CC.RtoC 1) (CC.RtoC 1)) (CC.Cmult (CC.RtoC c) (CC.Cmult (CC.RtoC rho) (CC.RtoC rho)))) (csum (fun i => cpow (u i) 2) N)))
      (CC.Cmult (CC.Cmult (CC.RtoC rho) (CC.Cmult (CC.RtoC rho) (CC.RtoC rho))) (csum (fun i => cpow (u i) 3) N))).
    + rewrite <- !csum_mult, <- !csum_plus. apply csum_ext. intros i _. rewrite point_unit. cbn [cpow]. fold (u i). ring.
    + rewrite S1, S2, S3. ring.
Qed.

(** The sum of [w / (w - a)] over the [n]-th roots of unity [w] is [n / (1 - a^n)]. *)
Fixpoint quotient (a w : CC.C) (m : nat) : CC.C :=
  match m with O => CC.RtoC 0 | S j => CC.Cplus (CC.Cmult w (quotient a w j)) (cpow a j) end.
Lemma quotient_spec a w m : CC.Cmult (CC.Cminus w a) (quotient a w m) = CC.Cminus (cpow w m) (cpow a m).
Proof.
  induction m as [|m IH]; cbn [quotient cpow]; [ring|].
  transitivity (CC.Cplus (CC.Cmult w (CC.Cmult (CC.Cminus w a) (quotient a w m))) (CC.Cmult (CC.Cminus w a) (cpow a m))); [ring|]. rewrite IH. ring.
Qed.
Lemma unit_root_pow n i : (0 < n)%Z -> cpow (unit_root n i) (Z.to_nat n) = CC.RtoC 1.
Proof.
  intros Hn. assert (N0 : 0 < IZR n) by now apply IZR_lt. unfold unit_root. rewrite cpow_angle, INR_IZR_INZ, Z2Nat.id by lia.
  replace (IZR n * (2 * PI * INR i / IZR n)) with (0 + 2 * INR i * PI) by (field; lra). rewrite cos_period, sin_period, cos_0, sin_0. reflexivity.
Qed.
Lemma csum_one n : csum (fun _ => CC.RtoC 1) n = CC.RtoC (INR n).
Proof. induction n as [|n IH]; [reflexivity|]. cbn [csum]. rewrite IH, S_INR. apply injective_projections; cbn; ring. Qed.
Lemma quotient_sum a n m r : (0 < n)%Z -> (0 < m)%nat -> (0 < r)%nat -> (r + m = S (Z.to_nat n))%nat ->
  csum (fun i => CC.Cmult (cpow (unit_root n i) r) (quotient a (unit_root n i) m)) (Z.to_nat n) = CC.RtoC (INR (Z.to_nat n)).
Proof.
  intros Hn Hm. revert r. induction m as [|m IH]; [lia|]. clear Hm. intros r Hr E.
  destruct (Nat.eq_dec m 0) as [-> | M0].
  - rewrite <- csum_one. apply csum_ext. intros i _. replace r with (Z.to_nat n) by lia. rewrite unit_root_pow by assumption. cbn [quotient cpow]. ring.
  - transitivity (CC.Cplus (csum (fun i => CC.Cmult (cpow (unit_root n i) (S r)) (quotient a (unit_root n i) m)) (Z.to_nat n)) (CC.Cmult (cpow a m) (csum (fun i => cpow (unit_root n i) r) (Z.to_nat n)))).
    + rewrite <- csum_mult, <- csum_plus. apply csum_ext. intros i _. cbn [quotient cpow]. ring.
    + rewrite IH by lia. rewrite roots_sum by lia. ring.
Qed.

Section OnePole.
Variables (c rho : R) (n : Z) (g : nat -> CC.C) (z0 r : CC.C).
Hypothesis Hn : (2 <= n)%Z.
Hypothesis Hrho : rho <> 0.
Hypothesis Hr : r <> CC.RtoC 0.
Hypothesis Hg : forall i, (i < Z.to_nat n)%nat -> CC.Cmult (g i) (CC.Cminus (point c rho n i) z0) = r.

Lemma trapezoid_step k : (k <= 2)%nat -> (S k < Z.to_nat n)%nat -> trapezoid c rho n g (S k) = CC.Cmult z0 (trapezoid c rho n g k).
Proof.
  intros Hk Hkn. pose proof (monomial_zero c rho n k ltac:(lia) Hkn) as Z. unfold trapezoid.
  set (w := fun i => CC.Cmult (CC.Cmult (0, 2 * PI) r) (CC.Cmult (cpow (point c rho n i) k) (CC.Cminus (point c rho n i) (CC.RtoC c)))).
  assert (W : csum w (Z.to_nat n) = CC.RtoC 0) by (unfold w; rewrite csum_mult, Z; ring).
  set (h := fun i => CC.Cmult (cpow (point c rho n i) k) (CC.Cmult (g i) (CC.Cmult (0, 2 * PI) (CC.Cminus (point c rho n i) (CC.RtoC c))))).
  rewrite (csum_ext _ (fun i => CC.Cplus (CC.Cmult z0 (h i)) (w i))).
  - rewrite csum_plus, csum_mult, W. fold h. ring.
  - intros i Hi. unfold h, w. cbn [cpow]. rewrite <- (Hg i Hi). ring.
Qed.

Lemma trapezoid_nonzero : trapezoid c rho n g 0 <> CC.RtoC 0.
Proof.
  assert (N0 : 0 < IZR n) by (apply IZR_lt; lia). pose proof PI_RGT_0 as P.
  assert (R0 : CC.RtoC rho <> CC.RtoC 0) by now apply RtoC_nonzero.
  set (a := CC.Cdiv (CC.Cminus z0 (CC.RtoC c)) (CC.RtoC rho)).
  assert (Ea : forall i, CC.Cminus (point c rho n i) z0 = CC.Cmult (CC.RtoC rho) (CC.Cminus (unit_root n i) a)) by (intros i; rewrite point_unit; unfold a; field; assumption).
  pose proof (quotient_sum a n (Z.to_nat n) 1 ltac:(lia) ltac:(lia) ltac:(lia) ltac:(lia)) as Q.
  set (S := csum (fun i => CC.Cmult (g i) (unit_root n i)) (Z.to_nat n)).
  assert (E : CC.Cmult (CC.Cmult (CC.RtoC rho) (CC.Cminus (CC.RtoC 1) (cpow a (Z.to_nat n)))) S = CC.Cmult r (CC.RtoC (INR (Z.to_nat n)))).
  { rewrite <- Q. unfold S. rewrite <- !csum_mult. apply csum_ext. intros i Hi. rewrite <- (unit_root_pow n i) by lia. rewrite <- (quotient_spec a (unit_root n i)).
    rewrite <- (Hg i Hi), Ea. cbn [cpow]. ring. }
  assert (S0 : S <> CC.RtoC 0).
  { intros Z. rewrite Z in E. assert (NZ : CC.Cmult r (CC.RtoC (INR (Z.to_nat n))) <> CC.RtoC 0).
    { apply CC.Cmult_neq_0; [assumption|]. apply RtoC_nonzero. apply not_0_INR. lia. }
    apply NZ. rewrite <- E. ring. }
  unfold trapezoid. rewrite (csum_ext _ (fun i => CC.Cmult (CC.Cmult (0, 2 * PI) (CC.RtoC rho)) (CC.Cmult (g i) (unit_root n i)))) by (intros i _; rewrite point_unit; cbn [cpow]; ring).
  rewrite csum_mult. fold S. apply CC.Cmult_neq_0; [apply RtoC_nonzero, Rinv_neq_0_compat; lra|].
  apply CC.Cmult_neq_0; [|assumption]. apply CC.Cmult_neq_0; [|assumption]. intros Z. apply (f_equal snd) in Z. cbn in Z. lra.
Qed.

Lemma trapezoid_pow k : (k <= 3)%nat -> (k < Z.to_nat n)%nat -> trapezoid c rho n g k = CC.Cmult (trapezoid c rho n g 0) (cpow z0 k).
Proof.
  intros Hk Hkn. induction k as [|k IH]; [cbn [cpow]; ring|]. rewrite trapezoid_step by lia. rewrite IH by lia. cbn [cpow]. ring.
Qed.
End OnePole.

Lemma xabs_0 : @nabs XR (Fin 0) = Fin 0.
Proof. change (Fin (Rabs 0) = Fin 0). now rewrite Rabs_R0. Qed.

(** Where the pole function has a single simple pole at a real [z0] and no other
    term, the quotient of the first two moments is that pole, for every circle
    and every number of points from two on: the trapezoidal rule adds no error. *)
Theorem C62_one_pole : forall c rho mu n1 n2 A tof n z0 r f atol rtol,
  (2 <= n)%Z -> rho <> 0 -> r <> CC.RtoC 0 -> 0 <= atol -> 0 <= rtol ->
  (forall i, (i < Z.to_nat n)%nat ->
     @neg_pole XR (cC (point c rho n i)) mu n1 n2 A tof = cC (f i) /\
     CC.Cmult (f i) (CC.Cminus (point c rho n i) (CC.RtoC z0)) = r) ->
  let moment := @neg_moment XR (Fin c) (Fin rho) mu n1 n2 A tof n in
  @neg_real_solution XR (cdiv (moment 1%nat) (moment 0%nat)) (Fin atol) (Fin rtol) = Ok (Fin z0).
Proof.
  intros c rho mu n1 n2 A tof n z0 r f at_ rt Hn Hrho Hr Ha Ht Hf moment. unfold moment.
  rewrite !(C62_quadrature c rho mu n1 n2 A tof n _ f) by (try lia; intros i Hi; apply Hf; assumption).
  assert (Hg : forall i, (i < Z.to_nat n)%nat -> CC.Cmult (f i) (CC.Cminus (point c rho n i) (CC.RtoC z0)) = r) by (intros i Hi; now apply Hf).
  pose proof (trapezoid_nonzero c rho n f _ r Hn Hrho Hr Hg) as NZ.
  rewrite (trapezoid_step c rho n f _ r Hg 0) by lia. rewrite cC_div by assumption.
  replace (CC.Cdiv (CC.Cmult (CC.RtoC z0) (trapezoid c rho n f 0)) (trapezoid c rho n f 0)) with (CC.RtoC z0) by (field; assumption).
  unfold neg_real_solution. change (cim (cC (CC.RtoC z0))) with (Fin 0). change (cre (cC (CC.RtoC z0))) with (Fin z0). rewrite xabs_0.
  change (@nadd XR (Fin at_) (@nmul XR (Fin rt) (@nabs XR (Fin z0)))) with (Fin (at_ + rt * Rabs z0)).
  assert (L : @nltb XR (Fin (at_ + rt * Rabs z0)) (Fin 0) = false).
  { change (xltb (Fin (at_ + rt * Rabs z0)) (Fin 0) = false). apply xltb_Ff. pose proof (Rabs_pos z0). nra. }
  now rewrite L.
Qed.
Print Assumptions C62_one_pole.

(** Where it has two simple poles, the four moments encode them exactly as soon
    as there are four points, which negrete2024 always takes. *)
Theorem C62_two_poles : forall c rho mu n1 n2 A tof n z1 z2 p q f g,
  (4 <= n)%Z -> rho <> 0 -> p <> CC.RtoC 0 -> q <> CC.RtoC 0 -> z1 <> z2 ->
  (forall i, (i < Z.to_nat n)%nat ->
     @neg_pole XR (cC (point c rho n i)) mu n1 n2 A tof = cC (CC.Cplus (f i) (g i)) /\
     CC.Cmult (f i) (CC.Cminus (point c rho n i) z1) = p /\ CC.Cmult (g i) (CC.Cminus (point c rho n i) z2) = q) ->
  let moment := @neg_moment XR (Fin c) (Fin rho) mu n1 n2 A tof n in
  let roots := @neg_quadratic_roots XR (moment 0%nat) (moment 1%nat) (moment 2%nat) (moment 3%nat) in
  roots = (cC z1, cC z2) \/ roots = (cC z2, cC z1).
Proof.
  intros c rho mu n1 n2 A tof n z1 z2 p q f g Hn Hrho Hp Hq Hz Hf moment.
  assert (F1 : forall i, (i < Z.to_nat n)%nat -> CC.Cmult (f i) (CC.Cminus (point c rho n i) z1) = p) by (intros i Hi; now apply Hf).
  assert (F2 : forall i, (i < Z.to_nat n)%nat -> CC.Cmult (g i) (CC.Cminus (point c rho n i) z2) = q) by (intros i Hi; now apply Hf).
  pose proof (trapezoid_nonzero c rho n f z1 p ltac:(lia) Hrho Hp F1) as Z1. pose proof (trapezoid_nonzero c rho n g z2 q ltac:(lia) Hrho Hq F2) as Z2.
  assert (EM : forall k, (k <= 3)%nat -> moment k = cC (CC.Cplus (CC.Cmult (trapezoid c rho n f 0) (cpow z1 k)) (CC.Cmult (trapezoid c rho n g 0) (cpow z2 k)))).
  { intros k Hk. unfold moment. rewrite (C62_quadrature c rho mu n1 n2 A tof n k (fun i => CC.Cplus (f i) (g i))) by (try lia; intros i Hi; now apply Hf).
    rewrite <- (trapezoid_pow c rho n f z1 p F1 k), <- (trapezoid_pow c rho n g z2 q F2 k) by lia. f_equal.
    unfold trapezoid. rewrite <- CC.Cmult_plus_distr_l, <- csum_plus. f_equal. apply csum_ext. intros i _. ring. }
  cbv zeta. rewrite !EM by lia. exact (C50_negrete_quadratic _ _ z1 z2 Z1 Z2 Hz).
Qed.
Print Assumptions C62_two_poles.

(** ** Where the circles lie *)
Ltac decide_lt x y := destruct (Rlt_dec x y) as [?|?]; [rewrite (proj2 (xltb_F x y)) by assumption|rewrite (proj2 (xltb_Ff x y)) by lra].

Lemma least_F a b : (if @nltb XR (Fin a) (Fin b) then Fin a else Fin b) = Fin (Rmin a b).
Proof.
  change (@nltb XR (Fin a) (Fin b)) with (xltb (Fin a) (Fin b)). destruct (Rlt_dec a b) as [L|L].
  - rewrite (proj2 (xltb_F a b)) by assumption. now rewrite Rmin_left by lra.
  - rewrite (proj2 (xltb_Ff a b)) by lra. now rewrite Rmin_right by lra.
Qed.

(** The refinement of an estimate [z] between two singularities takes a circle
    around it (around [min(1/2, b/4)] for an elliptic transfer whose estimate is
    negative) of a radius between [1e-8] and [2].  If the estimate keeps a
    distance of [2e-8] from both ends, the circle stays between them; it touches
    the lower end only if that is the parabola and [z < 1]. *)
Theorem C62_refinement : forall z a b mu n1 n2 A tof n atol rtol,
  a < b ->
  exists c rho,
    @neg_refine_once XR (Fin z) (Fin a) (Fin b) mu n1 n2 A tof n atol rtol =
      (let moment := @neg_moment XR (Fin c) (Fin rho) mu n1 n2 A tof n in
       neg_real_solution (cdiv (moment 1%nat) (moment 0%nat)) atol rtol) /\
    1 / 100000000 <= rho <= 2 /\
    (a <= z \/ a <> 0 -> c = z) /\ (a = 0 -> z < 0 -> c = Rmin (1 / 2) (b / 4)) /\
    (a + 1 / 50000000 <= c <= b - 1 / 50000000 ->
     a <= c - rho /\ c + rho < b /\ (c - rho = a -> a = 0 /\ c < 1)).
Proof.
  intros z a b mu n1 n2 A tof n at_ rt Hab. unfold neg_refine_once.
  assert (EC : exists c, @neg_refinement_center XR (Fin z) (Fin a) (Fin b) = Fin c /\ (a <= z \/ a <> 0 -> c = z) /\ (a = 0 -> z < 0 -> c = Rmin (1 / 2) (b / 4))).
  { unfold neg_refinement_center. change (@neqb XR (Fin a) (nofZ 0)) with (xeqb (Fin a) (Fin 0)). change (@nltb XR (Fin z) (Fin a)) with (xltb (Fin z) (Fin a)).
    destruct (Req_dec a 0) as [E|E].
    - rewrite (proj2 (xeqb_F a 0)) by assumption. cbn [andb]. decide_lt z a.
      + change (@nmul XR (nlit 1 4) (Fin b)) with (Fin (1 / 4 * b)). change (@nlit XR 1 2) with (Fin (1 / 2)). rewrite least_F.
        exists (Rmin (1 / 2) (1 / 4 * b)). split; [reflexivity|]. split; [intros [?|?]; lra|]. intros _ _. f_equal. lra.
      + exists z. split; [reflexivity|]. split; [reflexivity|]. intros; lra.
    - rewrite (proj2 (xeqb_Ff a 0)) by assumption. cbn [andb]. exists z. split; [reflexivity|]. split; [reflexivity|]. intros; lra. }
  destruct EC as (c & EC & C1 & C2). rewrite EC. exists c.
  assert (ER : exists rho, @neg_refinement_radius XR (Fin c) (Fin a) (Fin b) = Fin rho /\ 1 / 100000000 <= rho <= 2 /\
    (a + 1 / 50000000 <= c <= b - 1 / 50000000 -> a <= c - rho /\ c + rho < b /\ (c - rho = a -> a = 0 /\ c < 1))).
  { unfold neg_refinement_radius.
    change (@neqb XR (Fin a) (nofZ 0)) with (xeqb (Fin a) (Fin 0)). change (@nltb XR (nofZ 0) (Fin c)) with (xltb (Fin 0) (Fin c)). change (@nltb XR (Fin c) (nofZ 1)) with (xltb (Fin c) (Fin 1)).
    change (@nltb XR (Fin a) (Fin c)) with (xltb (Fin a) (Fin c)). change (@nltb XR (Fin c) (Fin b)) with (xltb (Fin c) (Fin b)).
    change (@nltb XR (Fin c) (nofZ 0)) with (xltb (Fin c) (Fin 0)). change (@nltb XR (nofZ 0) (Fin b)) with (xltb (Fin 0) (Fin b)).
    change (@nmul XR (nlit 1 2) (@nsub XR (Fin b) (Fin c))) with (Fin (1 / 2 * (b - c))). change (@nmul XR (nlit 1 2) (@nsub XR (Fin c) (Fin a))) with (Fin (1 / 2 * (c - a))).
    change (@nmul XR (nlit 9 10) (@nabs XR (Fin c))) with (Fin (9 / 10 * Rabs c)). change (@nlit XR 1 100000000) with (Fin (1 / 100000000)). change (@nofZ XR 2) with (Fin 2).
    rewrite !least_F.
    set (B1 := andb (xeqb (Fin a) (Fin 0)) _). assert (EB1 : B1 = true <-> a = 0 /\ 0 < c < 1).
    { unfold B1. rewrite !andb_true_iff, xeqb_F, !xltb_F. tauto. }
    set (B2 := andb (xltb (Fin a) (Fin c)) (xltb (Fin c) (Fin b))). assert (EB2 : B2 = true <-> a < c < b).
    { unfold B2. rewrite !andb_true_iff, !xltb_F. tauto. }
    set (B3 := andb _ (xltb (Fin 0) (Fin b))).
    assert (FIN : forall x, x <= 2 -> (a + 1 / 50000000 <= c <= b - 1 / 50000000 -> a <= c - Rmax (1 / 100000000) x /\ c + Rmax (1 / 100000000) x < b /\ (c - Rmax (1 / 100000000) x = a -> a = 0 /\ c < 1)) ->
      exists rho, (if @nltb XR (Fin (1 / 100000000)) (Fin x) then Fin x else Fin (1 / 100000000)) = Fin rho /\ 1 / 100000000 <= rho <= 2 /\
       (a + 1 / 50000000 <= c <= b - 1 / 50000000 -> a <= c - rho /\ c + rho < b /\ (c - rho = a -> a = 0 /\ c < 1))).
    { intros x Hx H. exists (Rmax (1 / 100000000) x). change (@nltb XR (Fin (1 / 100000000)) (Fin x)) with (xltb (Fin (1 / 100000000)) (Fin x)).
      split; [decide_lt (1 / 100000000) x; [now rewrite Rmax_right by lra|now rewrite Rmax_left by lra]|]. split; [|exact H]. split; [apply Rmax_l|]. apply Rmax_lub; lra. }
    destruct B1 eqn:D1; [|destruct B2 eqn:D2].
    - destruct (proj1 EB1 eq_refl) as [A0 HC]. apply FIN.
      + eapply Rle_trans; [apply Rmin_r|apply Rmin_r].
      + intros HH. pose proof (Rmin_l (1 / 2 * (b - c)) (Rmin c 2)) as M1. pose proof (Rmin_r (1 / 2 * (b - c)) (Rmin c 2)) as M2. pose proof (Rmin_l c 2) as M3.
        set (x := Rmin (1 / 2 * (b - c)) (Rmin c 2)) in *. unfold Rmax. destruct (Rle_dec (1 / 100000000) x); repeat split; lra.
    - destruct (proj1 EB2 eq_refl) as [A0 HC]. apply FIN.
      + eapply Rle_trans; [apply Rmin_r|apply Rmin_r].
      + intros HH. pose proof (Rmin_l (1 / 2 * (b - c)) (Rmin (1 / 2 * (c - a)) 2)) as M1. pose proof (Rmin_r (1 / 2 * (b - c)) (Rmin (1 / 2 * (c - a)) 2)) as M2. pose proof (Rmin_l (1 / 2 * (c - a)) 2) as M3.
        set (x := Rmin (1 / 2 * (b - c)) (Rmin (1 / 2 * (c - a)) 2)) in *. unfold Rmax. destruct (Rle_dec (1 / 100000000) x); repeat split; lra.
    - assert (NO : ~ (a < c < b)) by (rewrite <- EB2; discriminate). destruct B3; apply FIN; try lra; try apply Rmin_r. }
  destruct ER as (rho & ER & R1 & R2). exists rho. rewrite ER. split; [reflexivity|]. now repeat split; try apply R1; try apply R2.
Qed.
Print Assumptions C62_refinement.

(** For less than one revolution and an elliptic time of flight the first circle
    cuts the real axis at [1/2] and [4 pi^2 - 1/2], and the refinements run
    between the parabola and the singularity of a full revolution. *)
Theorem C62_elliptic_contour : forall mu n1 n2 A tof tp n atol rtol,
  @neg_tof_at_z XR (Fin 0) mu n1 n2 A = Fin tp -> tp <= tof ->
  exists c rho,
    @neg_find_single XR mu n1 n2 A (Fin tof) n atol rtol =
      (let moment := @neg_moment XR (Fin c) (Fin rho) mu n1 n2 A (Fin tof) n in
       let* z := neg_real_solution (cdiv (moment 1%nat) (moment 0%nat)) atol rtol in
       neg_refine_single_root z (Fin 0) (Fin (4 * PI ^ 2)) mu n1 n2 A (Fin tof) n atol rtol) /\
    0 < rho /\ c - rho = 1 / 2 /\ c + rho = 4 * PI ^ 2 - 1 / 2.
Proof.
  intros mu n1 n2 A tof tp n at_ rt E L. unfold neg_find_single. change (@nofZ XR 0) with (Fin 0). rewrite E.
  change (@nltb XR (Fin tof) (Fin tp)) with (xltb (Fin tof) (Fin tp)). rewrite (proj2 (xltb_Ff tof tp)) by lra. cbn [bind].
  exists (2 * (PI * PI)), (2 * (PI * PI) - 1 / 2). split.
  - change (@nmul XR (nofZ 2) (sq npi)) with (Fin (2 * (PI * PI))). change (@nmul XR (nofZ 4) (sq npi)) with (Fin (4 * (PI * PI))). replace (PI ^ 2) with (PI * PI) by ring. reflexivity.
  - pose proof PI2_3_2 as P. replace (PI ^ 2) with (PI * PI) by ring. repeat split; nra.
Qed.
Print Assumptions C62_elliptic_contour.

(** With [M] revolutions the first circle keeps a distance of [1/2] from the
    singularities [(2 pi M)^2] and [(2 pi (M + 1))^2] between which the
    refinements run, and the answer is one of two refined roots. *)
Theorem C62_multi_contour : forall mu n1 n2 A tof M low n atol rtol z,
  (1 <= M)%Z ->
  @neg_find_multi XR mu n1 n2 A tof M low n atol rtol = Ok z ->
  let a := (2 * PI * IZR M) ^ 2 in
  let b := (2 * PI * (IZR M + 1)) ^ 2 in
  exists c rho s t,
    0 < rho /\ c - rho = a + 1 / 2 /\ c + rho = b - 1 / 2 /\
    let moment := @neg_moment XR (Fin c) (Fin rho) mu n1 n2 A tof n in
    (neg_quadratic_roots (moment 0%nat) (moment 1%nat) (moment 2%nat) (moment 3%nat) = (s, t) \/
     neg_quadratic_roots (moment 0%nat) (moment 1%nat) (moment 2%nat) (moment 3%nat) = (t, s)) /\
    neg_refine_single_root (cre s) (Fin a) (Fin b) mu n1 n2 A tof n atol rtol = Ok z.
Proof.
  intros mu n1 n2 A tof M l n at_ rt z HM H a b. assert (M1 : 1 <= IZR M) by now apply IZR_le. pose proof PI2_3_2 as P. pose proof PI_RGT_0 as P0.
  unfold neg_find_multi in H.
  assert (EA : @sq XR (@nmul XR (@nmul XR (nofZ 2) (nofZ M)) npi) = Fin a) by (change (Fin ((2 * IZR M * PI) * (2 * IZR M * PI)) = Fin a); unfold a; f_equal; ring).
  assert (EB : @sq XR (@nmul XR (@nmul XR (nofZ 2) (nofZ (M + 1))) npi) = Fin b).
  { change (Fin ((2 * IZR (M + 1) * PI) * (2 * IZR (M + 1) * PI)) = Fin b). rewrite plus_IZR. unfold b. f_equal. ring. }
  rewrite EA, EB in H. clear EA EB.
  set (c := 2 * (PI * PI) * IZR (2 * M ^ 2 + 2 * M + 1)). set (rho := 2 * (PI * PI) * IZR (2 * M + 1) - 1 / 2).
  change (@nmul XR (@nmul XR (nofZ 2) (sq npi)) (nofZ (2 * M ^ 2 + 2 * M + 1))) with (Fin c) in H.
  change (@nsub XR (@nmul XR (@nmul XR (nofZ 2) (sq npi)) (nofZ (2 * M + 1))) (nlit 1 2)) with (Fin rho) in H.
  set (moment := @neg_moment XR (Fin c) (Fin rho) mu n1 n2 A tof n) in *.
  destruct (neg_quadratic_roots (moment 0%nat) (moment 1%nat) (moment 2%nat) (moment 3%nat)) as [s t] eqn:ER.
  assert (G : 0 < rho /\ c - rho = a + 1 / 2 /\ c + rho = b - 1 / 2).
  { unfold c, rho, a, b. rewrite !plus_IZR, !mult_IZR. rewrite (Z.pow_2_r M), mult_IZR. repeat split; [nra|ring|ring]. }
  unfold raise_if in H. match type of H with context [if ?g then _ else _] => destruct g end; [discriminate H|]. cbn [bind] in H.
  match type of H with context [if ?g then (cre t, cre s) else _] => destruct g end;
  (apply bind_ok in H; destruct H as (lo & E1 & H); apply bind_ok in H; destruct H as (hi & E2 & H);
   match type of H with context [if ?g then (hi, lo) else _] => destruct g end; destruct l; injection H as <-;
   exists c, rho; (first [exists s, t; split; [apply G|]; split; [apply G|]; split; [apply G|]; split; [now left|]; assumption
                        | exists t, s; split; [apply G|]; split; [apply G|]; split; [apply G|]; split; [now right|]; assumption])).
Qed.
Print Assumptions C62_multi_contour.

(** ** The Stumpff series near zero *)
Lemma cpow_neg z k : @neg_term XR (cC z) k = cC (cpow (CC.Copp z) k).
Proof. induction k as [|k IH]; [reflexivity|]. cbn [neg_term cpow]. rewrite IH, cC_opp, cC_mul. f_equal. ring. Qed.

(** The first [m] terms of the Stumpff series of order [k]. *)
Fixpoint stumpff_head (k : nat) (z : CC.C) (m : nat) : CC.C :=
  match m with O => CC.RtoC 0 | S j => CC.Cplus (stumpff_head k z j) (CC.Cmult (CC.RtoC (/ INR (fact (2 * j + k)))) (cpow (CC.Copp z) j)) end.

Lemma coeff_F k j : @neg_coeff XR k j = Fin (/ INR (fact (2 * j + k))).
Proof.
  unfold neg_coeff. change (xdiv (Fin 1) (Fin (IZR (zfact (2 * j + k)))) = Fin (/ INR (fact (2 * j + k)))). rewrite IZR_zfact, xdiv_F by apply INR_fact_neq_0.
  f_equal. unfold Rdiv. ring.
Qed.
Lemma total_C k z m : @neg_total XR (cC z) k m = cC (stumpff_head k z (S m)).
Proof.
  induction m as [|m IH].
  - cbn [neg_total]. rewrite coeff_F, creal_F. cbn [stumpff_head cpow]. apply cc_eq; cbn [fst snd CC.Cplus CC.Cmult CC.RtoC]; ring.
  - cbn [neg_total]. rewrite IH, coeff_F, cpow_neg, cC_scale, cC_add. reflexivity.
Qed.
Lemma head_tail k z m : cS k z = fst (stumpff_head k (CC.RtoC z) m) + (- z) ^ m * cS (2 * m + k) z.
Proof.
  assert (P : forall j, cpow (CC.Copp (CC.RtoC z)) j = CC.RtoC ((- z) ^ j)).
  { induction j as [|j IH]; [reflexivity|]. cbn [cpow pow]. rewrite IH. apply injective_projections; cbn; ring. }
  induction m as [|m IH]; [cbn [stumpff_head fst CC.RtoC pow]; replace (2 * 0 + k)%nat with k by lia; ring|].
  rewrite IH. rewrite (cS_shift (2 * m + k) z). replace (2 + (2 * m + k))%nat with (2 * S m + k)%nat by lia.
  cbn [stumpff_head]. rewrite P. cbn [fst CC.Cplus CC.Cmult CC.RtoC snd]. rewrite <- tech_pow_Rmult. unfold Rdiv. ring.
Qed.

(** Near zero the code's Stumpff functions are the first twenty terms of their
    power series. *)
Theorem C62_series : forall z : CC.C, CC.Cmod z < 1 / 100000000 ->
  @neg_c2 XR (cC z) = cC (stumpff_head 2 z 20) /\ @neg_c3 XR (cC z) = cC (stumpff_head 3 z 20).
Proof.
  intros z H. assert (L : @nltb XR (@cabs XR (cC z)) (nlit 1 100000000) = true).
  { unfold cC, cc, cabs. cbn [cre cim]. change (@nadd XR (@nmul XR (Fin (fst z)) (Fin (fst z))) (@nmul XR (Fin (snd z)) (Fin (snd z)))) with (Fin (fst z * fst z + snd z * snd z)).
    change (@nsqrt XR (Fin (fst z * fst z + snd z * snd z))) with (xsqrt (Fin (fst z * fst z + snd z * snd z))). rewrite xsqrt_F by nra.
    change (xltb (Fin (sqrt (fst z * fst z + snd z * snd z))) (Fin (1 / 100000000)) = true). apply xltb_F. revert H. unfold CC.Cmod. now rewrite <- !Rsqr_pow2. }
  unfold neg_c2, neg_c3, neg_stumpff_series. rewrite L, !total_C. split; reflexivity.
Qed.
Print Assumptions C62_series.

Lemma cS_bound k z : Rabs z <= 1 / 2 -> Rabs (cS k z) <= 2.
Proof.
  intros H. pose proof (Rabs_pos z) as Z0.
  assert (G : ex_series (fun n => Rabs z ^ n)) by (apply ex_series_geom; rewrite Rabs_Rabsolu; lra).
  assert (B : forall n, Rabs (sa k n * z ^ n) <= Rabs z ^ n).
  { intros n. rewrite Rabs_mult, <- RPow_abs. unfold sa, Rdiv. rewrite Rabs_mult, pow_1_abs, Rmult_1_l.
    rewrite Rabs_pos_eq by (left; apply Rinv_0_lt_compat, INR_fact_lt_0).
    assert (1 <= INR (fact (2 * n + k))) by (apply (le_INR 1), lt_O_fact).
    assert (/ INR (fact (2 * n + k)) <= 1) by (rewrite <- Rinv_1; apply Rinv_le_contravar; lra).
    pose proof (pow_le (Rabs z) n Z0). nra. }
  assert (E : ex_series (fun n => Rabs (sa k n * z ^ n))).
  { apply (@ex_series_le R_AbsRing R_CompleteNormedModule _ (fun n => Rabs z ^ n)); [|exact G]. intros n. change (Rabs (Rabs (sa k n * z ^ n)) <= Rabs z ^ n). rewrite Rabs_Rabsolu. apply B. }
  unfold cS, PSeries. eapply Rle_trans; [apply Series_Rabs, E|]. eapply Rle_trans; [apply Series_le with (b := fun n => Rabs z ^ n); [intros n; split; [apply Rabs_pos|apply B]|exact G]|].
  rewrite Series_geom by (rewrite Rabs_Rabsolu; lra). rewrite <- (Rinv_inv 2). apply Rinv_le_contravar; lra.
Qed.

(** On the real axis they are within [2e-160] of the Stumpff functions. *)
Theorem C62_series_accurate : forall z, Rabs z < 1 / 100000000 -> exists a b s t,
  @neg_c2 XR (creal (Fin z)) = creal (Fin a) /\ @neg_c3 XR (creal (Fin z)) = creal (Fin b) /\
  is_series (fun n => (- z) ^ n / INR (fact (2 * n + 2))) s /\ is_series (fun n => (- z) ^ n / INR (fact (2 * n + 3))) t /\
  Rabs (a - s) <= 2 * (1 / 100000000) ^ 20 /\ Rabs (b - t) <= 2 * (1 / 100000000) ^ 20.
Proof.
  intros z H. destruct (C62_series (CC.RtoC z)) as [E2 E3]; [rewrite CC.Cmod_R; exact H|].
  assert (RE : forall k m, stumpff_head k (CC.RtoC z) m = CC.RtoC (fst (stumpff_head k (CC.RtoC z) m))).
  { assert (P : forall j, cpow (CC.Copp (CC.RtoC z)) j = CC.RtoC ((- z) ^ j)).
    { induction j as [|j IH]; [reflexivity|]. cbn [cpow pow]. rewrite IH. apply injective_projections; cbn; ring. }
    intros k m. induction m as [|m IH]; [reflexivity|]. cbn [stumpff_head]. rewrite P, IH. apply injective_projections; cbn; ring. }
  assert (BD : forall k, Rabs (fst (stumpff_head k (CC.RtoC z) 20) - cS k z) <= 2 * (1 / 100000000) ^ 20).
  { intros k. rewrite (head_tail k z 20). set (h := fst _). set (m := (2 * 20 + k)%nat). replace (h - (h + (- z) ^ 20 * cS m z)) with (- ((- z) ^ 20 * cS m z)) by ring.
    rewrite Rabs_Ropp, Rabs_mult, <- RPow_abs, Rabs_Ropp. pose proof (cS_bound m z ltac:(lra)) as B. pose proof (Rabs_pos z) as Z0. pose proof (Rabs_pos (cS m z)).
    assert (Rabs z ^ 20 <= (1 / 100000000) ^ 20) by (apply pow_incr; lra). pose proof (pow_le (Rabs z) 20 Z0).
    rewrite Rmult_comm. apply Rmult_le_compat; assumption. }
  exists (fst (stumpff_head 2 (CC.RtoC z) 20)), (fst (stumpff_head 3 (CC.RtoC z) 20)), (S2 z), (S3 z).
  split; [change (@creal XR (Fin z)) with (cC (CC.RtoC z)); rewrite E2, (RE 2%nat 20%nat); reflexivity|].
  split; [change (@creal XR (Fin z)) with (cC (CC.RtoC z)); rewrite E3, (RE 3%nat 20%nat); reflexivity|].
  destruct (C26_values z) as (a & b & Ea & Eb & La & Lb & _). rewrite c2_F in Ea. rewrite c3_F in Eb. injection Ea as <-. injection Eb as <-.
  split; [exact La|]. split; [exact Lb|]. rewrite S2_cS, S3_cS. split; apply BD.
Qed.
Print Assumptions C62_series_accurate.

(** ** Hyperbola, parabola or ellipse *)
Lemma head_0 k m : stumpff_head k (CC.RtoC 0) (S m) = CC.RtoC (/ INR (fact k)).
Proof.
  induction m as [|m IH].
  - cbn [stumpff_head cpow]. replace (2 * 0 + k)%nat with k by lia. ring.
  - cbn [stumpff_head] in IH |- *. rewrite IH. cbn [cpow]. replace (CC.Copp (CC.RtoC 0)) with (CC.RtoC 0) by (apply injective_projections; cbn; ring). ring.
Qed.
Lemma c_at_0 : @neg_c2 XR (cr 0) = cr (S2 0) /\ @neg_c3 XR (cr 0) = cr (S3 0).
Proof.
  destruct (C62_series (CC.RtoC 0)) as [E2 E3]; [rewrite CC.Cmod_0; lra|]. rewrite head_0 in E2, E3. change (cC (CC.RtoC 0)) with (cr 0) in E2, E3. rewrite E2, E3.
  rewrite S2_cS, S3_cS, (cS_shift 2), (cS_shift 3). split; unfold cr, cC; cbn [fst snd CC.RtoC]; apply cc_eq; unfold Rdiv; ring.
Qed.

Section Regime.
Variables (mu n1 n2 A : R).
Hypothesis Hm : 0 < mu.
Let P := n1 + n2.
Let Q := sqrt 2 * A.

(** The model's [y] and time of flight in terms of the half angle's [z = psi / 4]. *)
Lemma regime_F psi : (1 / 100000000 <= Rabs psi \/ psi = 0) -> psi < 4 * (PI * PI) ->
  @neg_y XR (@creal XR (Fin psi)) (Fin n1) (Fin n2) (Fin A) = cr (P - Q * C0 (psi / 4)) /\
  (0 < P - Q * C0 (psi / 4) -> @neg_tof_at_z XR (Fin psi) (Fin mu) (Fin n1) (Fin n2) (Fin A) = Fin (sqrt 2 / sqrt mu * Gz P Q (psi / 4)) /\
     @neg_scaled_tof XR (@creal XR (Fin psi)) (Fin n1) (Fin n2) (Fin A) = cr (sqrt 2 * Gz P Q (psi / 4))).
Proof.
  intros H Hpsi. assert (Hs : psi / 4 < PI * PI) by lra. pose proof (S1_pos _ Hs) as Q1. destruct (sqrt_facts 2) as [W1 W2]; [lra|].
  assert (C : @neg_c2 XR (cr psi) = cr (S2 psi) /\ @neg_c3 XR (cr psi) = cr (S3 psi)).
  { destruct H as [H| ->]; [split; [now apply neg_c2_F|now apply neg_c3_F]|exact c_at_0]. }
  destruct C as [C2 C3]. set (z := psi / 4) in *. assert (Ep : psi = 4 * z) by (unfold z; field). clearbody z. subst psi.
  assert (E2 : S2 (4 * z) = S1 z * S1 z / 2) by apply S2_double.
  assert (EQ : sqrt (S2 (4 * z)) = S1 z / sqrt 2).
  { rewrite E2. replace (S1 z * S1 z / 2) with ((S1 z / sqrt 2) * (S1 z / sqrt 2)) by (replace 2 with (sqrt 2 * sqrt 2) at 3 by exact W2; field; lra).
    apply sqrt_square. left. now apply Rdiv_lt_0_compat. }
  assert (P2 : 0 < S2 (4 * z)) by (rewrite E2; nra).
  assert (EY : @neg_y XR (@creal XR (Fin (4 * z))) (Fin n1) (Fin n2) (Fin A) = cr (P - Q * C0 z)).
  { unfold neg_y. rewrite creal_F, C2, C3. change (@creal XR (nofZ 1)) with (cr 1). change (@nadd XR (Fin n1) (Fin n2)) with (Fin (n1 + n2)). rewrite creal_F.
    rewrite cr_mul, cr_sub, cr_scale, cr_sqrt, EQ by lra. rewrite cr_div by (apply Rgt_not_eq, Rdiv_lt_0_compat; lra). rewrite cr_add. apply cc_eq; [|reflexivity].
    pose proof (S1_double z) as D. assert (S1 (4 * z) = 1 - 4 * z * S3 (4 * z)) by reflexivity. 
    replace (4 * z * S3 (4 * z) - 1) with (- (S1 z * C0 z)) by lra. unfold P, Q. field. split; lra. }
  split; [exact EY|]. intros HV. unfold neg_tof_at_z, neg_scaled_tof. rewrite EY. rewrite creal_F, C2, C3. set (V := P - Q * C0 z) in *.
  assert (0 < V / S2 (4 * z)) by now apply Rdiv_lt_0_compat. rewrite cr_div by lra. rewrite !cr_sqrt by lra. unfold ccube. rewrite !cr_mul, cr_scale, cr_add.
  change (@nsqrt XR (Fin mu)) with (xsqrt (Fin mu)). rewrite xsqrt_F by lra. destruct (sqrt_facts _ Hm) as [M1 _]. rewrite creal_F, cr_div by lra.
  set (sc := sqrt (V / S2 (4 * z)) * sqrt (V / S2 (4 * z)) * sqrt (V / S2 (4 * z)) * S3 (4 * z) + A * sqrt V).
  cut (sc / sqrt mu = sqrt 2 / sqrt mu * Gz P Q z).
  { intros ES. split; [unfold cr, cc; cbn [cre]; now rewrite <- ES|]. f_equal. replace sc with (sc / sqrt mu * sqrt mu) by (field; lra). rewrite ES. field. lra. }
  unfold sc, Q. rewrite <- tz_Gz by (try assumption; fold Q; fold V; lra). fold Q. fold V. rewrite tz_0. rewrite sqrt_div by lra. rewrite EQ.
  destruct (sqrt_facts _ HV) as [V1 V2]. rewrite (sqrt_mult 2 V) by lra.
  f_equal. f_equal. set (w := sqrt 2) in *. set (a := S1 z) in *. set (v := sqrt V) in *. set (b := S3 (4 * z)). clearbody w a v b.
  rewrite <- V2. replace 2 with (w * w) by exact W2. field. lra.
Qed.
End Regime.

(** The search for the left end of the contour tries [-1, -2, -4, ...]. *)
Lemma contour_loop mu n1 n2 A tof (good : nat -> Prop) :
  (forall k, good k \/ ~ good k) ->
  (forall k i, good k -> @neg_hyperbolic_body XR mu n1 n2 A tof i (Fin (- 2 ^ k)) = Break (Fin (- 2 ^ k))) ->
  (forall k i, ~ good k -> @neg_hyperbolic_body XR mu n1 n2 A tof i (Fin (- 2 ^ k)) = Next (Fin (- 2 ^ S k))) ->
  forall n i j,
  (exists k, (j <= k < j + n)%nat /\ good k /\ (forall m, (j <= m < k)%nat -> ~ good m) /\
     for_range (@neg_hyperbolic_body XR mu n1 n2 A tof) n i (Fin (- 2 ^ j)) = Break (Fin (- 2 ^ k))) \/
  ((forall k, (j <= k < j + n)%nat -> ~ good k) /\ exists s, for_range (@neg_hyperbolic_body XR mu n1 n2 A tof) n i (Fin (- 2 ^ j)) = Next s).
Proof.
  intros D G B n. induction n as [|n IH]; intros i j.
  - right. split; [intros; lia|]. eexists. reflexivity.
  - cbn [for_range]. destruct (D j) as [Hj|Hj].
    + left. exists j. rewrite G by assumption. repeat split; try lia; try assumption. 
    + rewrite B by assumption. destruct (IH (i + 1)%Z (S j)) as [(k & K1 & K2 & K3 & K4)|[K1 K2]].
      * left. exists k. split; [lia|]. split; [assumption|]. split; [|assumption].
        intros m Hm. destruct (Nat.eq_dec m j) as [->|]; [assumption|]. apply K3. lia.
      * right. split; [|assumption]. intros k Hk. destruct (Nat.eq_dec k j) as [->|]; [assumption|]. apply K1. lia.
Qed.

Lemma geo_PQ r1 r2 A : non_collinear r1 r2 -> A * A = Kgeo r1 r2 -> Rabs (sqrt 2 * A) < vnorm r1 + vnorm r2.
Proof.
  intros Hn HA. destruct (norms_pos _ _ Hn) as [N1 N2]. destruct (sqrt_facts 2) as [W1 W2]; [lra|]. unfold Kgeo in HA.
  rewrite <- (Rabs_pos_eq (vnorm r1 + vnorm r2)) by lra. apply Rsqr_lt_abs_0. unfold Rsqr.
  replace (sqrt 2 * A * (sqrt 2 * A)) with ((sqrt 2 * sqrt 2) * (A * A)) by ring. rewrite W2, HA.
  pose proof (cauchy_strict _ _ Hn) as C. rewrite <- !vnorm_sq in C.
  assert (P0 : 0 < vnorm r1 * vnorm r2) by now apply Rmult_lt_0_compat.
  assert (L : vdot r1 r2 < vnorm r1 * vnorm r2) by nra.
  pose proof (Rle_0_sqr (vnorm r1 - vnorm r2)) as Sq. unfold Rsqr in Sq. lra.
Qed.

(** The code looks for a hyperbola exactly when the transfer is one: its root
    [psi] is negative, zero or positive as the time of flight is shorter than,
    equal to or longer than the model's time at zero, which is that of the
    parabola.  A contour found for a hyperbola spans [(-2^k, 0)] up to a fraction
    [1e-6] of its radius, and the root lies between these ends. *)
Theorem C62_hyperbolic_contour : forall mu r1 r2 v1 v2 tof prograde,
  0 < mu -> vz (vcross r1 r2) <> 0 ->
  lambert_solution mu r1 v1 r2 v2 tof 0 -> moves_as_requested prograde r1 v1 ->
  let n1 := norm (vfin r1) in
  let n2 := norm (vfin r2) in
  let A := @neg_A XR n1 n2 (get_transfer_angle (vfin r1) (vfin r2) prograde) in
  exists psi tp,
    psi < 4 * PI ^ 2 /\
    (psi = 0 \/ 1 / 100000000 <= Rabs psi -> @neg_tof_at_z XR (Fin psi) (Fin mu) n1 n2 A = Fin tof) /\
    @neg_tof_at_z XR (Fin 0) (Fin mu) n1 n2 A = Fin tp /\
    (tof < tp <-> psi < 0) /\ (tof = tp <-> psi = 0) /\ (psi < 0 <-> 0 < energy mu r1 v1) /\
    (forall center radius, @neg_hyperbolic_contour XR (Fin mu) n1 n2 A (Fin tof) = Some (center, radius) ->
     exists k c rho, (k < 64)%nat /\ center = Fin c /\ radius = Fin rho /\
       c = - 2 ^ k / 2 /\ rho = 2 ^ k / 2 * (1 - 1 / 1000000) /\ - 2 ^ k < psi).
Proof.
  intros mu r1 r2 v1 v2 tof p Hm Hz L D. pose proof (vz_non_collinear _ _ Hz) as Hn. cbv zeta. rewrite !norm_F.
  destruct (transfer_angle r1 r2 p Hn) as (th & ET & F). rewrite ET.
  destruct (neg_A_F p r1 r2 th Hn F) as (A & EA & A2 & As). rewrite EA.
  destruct (solution_fg _ _ _ _ _ _ _ Hm Hn L) as (_ & B & V & z & G & Hz1 & _ & EC & ETz).
  assert (EB : B = A).
  { destruct (fg_sense _ _ _ _ _ _ _ Hm Hn G) as [B0 SB]. rewrite (sense_of_request _ _ _ _ _ _ _ _ Hm Hz L D), <- As in SB.
    pose proof (fg_A _ _ _ _ _ _ _ G) as X. unfold Kgeo in A2. assert (Z : (A - B) * (A + B) = 0) by lra.
    assert (A0 : A <> 0) by (intros E; rewrite E in A2; pose proof (Kgeo_pos _ _ Hn) as K; unfold Kgeo in K; lra).
    apply Rmult_integral in Z. destruct Z as [Z|Z]; [lra|]. exfalso.
    destruct (Rlt_dec 0 A) as [Q|Q]; [assert (0 < B) by tauto; lra|]. assert (0 < B) by lra. tauto. }
  subst B. pose proof (geo_PQ r1 r2 A Hn A2) as HQ. pose proof PI_RGT_0 as HP. pose proof (fg_V _ _ _ _ _ _ _ G) as HV.
  destruct (sqrt_facts 2) as [W1 W2]; [lra|]. destruct (sqrt_facts _ Hm) as [M1 _]. assert (HC : 0 < sqrt 2 / sqrt mu) by now apply Rdiv_lt_0_compat.
  assert (EV : V = vnorm r1 + vnorm r2 - sqrt 2 * A * C0 z) by lra. destruct at_0 as [C00 _].
  assert (V0 : 0 < vnorm r1 + vnorm r2 - sqrt 2 * A * C0 0) by (rewrite C00; apply Rabs_def2 in HQ; lra).
  set (P := vnorm r1 + vnorm r2) in *. set (Q := sqrt 2 * A) in *.
  assert (ETG : tof = sqrt 2 / sqrt mu * Gz P Q z) by (rewrite ETz, EV; apply tz_Gz; [assumption|fold P Q; lra]).
  destruct (regime_F mu (vnorm r1) (vnorm r2) A Hm 0 (or_intror eq_refl) ltac:(nra)) as [_ T0]. fold P Q in T0. replace (0 / 4) with 0 in T0 by field. destruct (T0 V0) as [T0' _]. clear T0. rename T0' into T0.
  assert (MONO : forall x y, x < y -> y < PI * PI -> 0 < P - Q * C0 x -> 0 < P - Q * C0 y -> sqrt 2 / sqrt mu * Gz P Q x < sqrt 2 / sqrt mu * Gz P Q y).
  { intros x y ? ? ? ?. apply Rmult_lt_compat_l; [exact HC|]. now apply Gz_increasing. }
  exists (4 * z), (sqrt 2 / sqrt mu * Gz P Q 0).
  split; [replace (PI ^ 2) with (PI * PI) by ring; lra|].
  split. { intros H. destruct (regime_F mu (vnorm r1) (vnorm r2) A Hm (4 * z) ltac:(tauto) ltac:(lra)) as [_ TZ]. fold P Q in TZ. replace (4 * z / 4) with z in TZ by field. rewrite (proj1 (TZ ltac:(lra))). now rewrite ETG. }
  split; [exact T0|].
  assert (TRI : (z < 0 /\ tof < sqrt 2 / sqrt mu * Gz P Q 0) \/ (z = 0 /\ tof = sqrt 2 / sqrt mu * Gz P Q 0) \/ (0 < z /\ sqrt 2 / sqrt mu * Gz P Q 0 < tof)).
  { destruct (Rtotal_order z 0) as [Z|[Z|Z]]; [left|right; left|right; right]; (split; [assumption|]); rewrite ETG.
    - apply MONO; try assumption; nra.
    - now rewrite Z.
    - apply MONO; try assumption. lra. }
  split; [lra|]. split; [lra|].
  split.
  { rewrite (fg_energy mu r1 r2 A V v1 v2 (C0 z) Hn Hm G) by exact EC.
    assert (CM : -1 < C0 z) by (apply C0_gt; exact Hz1).
    assert (CZ : (4 * z < 0 <-> 1 < C0 z)).
    { rewrite <- C00. split; intros H.
      - apply C0_decreasing; nra.
      - destruct (Rtotal_order z 0) as [Y|[Y|Y]]; [lra|rewrite Y in H; lra|]. pose proof (C0_decreasing 0 z Y Hz1). lra. }
    rewrite CZ. assert (IX : 0 < / V) by now apply Rinv_0_lt_compat. unfold Rdiv.
    replace (- mu * (1 - C0 z * C0 z) * / V) with ((mu * / V * (C0 z + 1)) * (C0 z - 1)) by ring.
    assert (0 < mu * / V * (C0 z + 1)) by (apply Rmult_lt_0_compat; [apply Rmult_lt_0_compat|]; lra).
    set (q := mu * / V * (C0 z + 1)) in *. clearbody q. split; intros; nra. }
  intros ce ra HCt.
  set (good := fun k : nat => 0 < P - Q * C0 (- 2 ^ k / 4) /\ sqrt 2 / sqrt mu * Gz P Q (- 2 ^ k / 4) < tof).
  assert (P2 : forall k, 1 <= 2 ^ k) by (intros k; apply pow_R1_Rle; lra).
  assert (YT : forall k, @neg_y XR (@creal XR (Fin (- 2 ^ k))) (Fin (vnorm r1)) (Fin (vnorm r2)) (Fin A) = cr (P - Q * C0 (- 2 ^ k / 4)) /\
    (0 < P - Q * C0 (- 2 ^ k / 4) -> @neg_tof_at_z XR (Fin (- 2 ^ k)) (Fin mu) (Fin (vnorm r1)) (Fin (vnorm r2)) (Fin A) = Fin (sqrt 2 / sqrt mu * Gz P Q (- 2 ^ k / 4)))).
  { intros k. specialize (P2 k). destruct (regime_F mu (vnorm r1) (vnorm r2) A Hm (- 2 ^ k)) as [Y T]; [left; rewrite Rabs_Ropp, Rabs_pos_eq by lra; lra|nra|]. split; [exact Y|]. intros HH. exact (proj1 (T HH)). }
  assert (BG : forall k i, good k -> @neg_hyperbolic_body XR (Fin mu) (Fin (vnorm r1)) (Fin (vnorm r2)) (Fin A) (Fin tof) i (Fin (- 2 ^ k)) = Break (Fin (- 2 ^ k))).
  { intros k i [G1 G2]. destruct (YT k) as [Y T]. unfold neg_hyperbolic_body. rewrite Y, T by exact G1.
    change (cre (cr (P - Q * C0 (- 2 ^ k / 4)))) with (Fin (P - Q * C0 (- 2 ^ k / 4))). change (@nofZ XR 0) with (Fin 0). change (@nltb XR) with xltb.
    rewrite (proj2 (xltb_F _ _) G1), (proj2 (xltb_F _ _) G2). reflexivity. }
  assert (BB : forall k i, ~ good k -> @neg_hyperbolic_body XR (Fin mu) (Fin (vnorm r1)) (Fin (vnorm r2)) (Fin A) (Fin tof) i (Fin (- 2 ^ k)) = Next (Fin (- 2 ^ S k))).
  { intros k i NG. destruct (YT k) as [Y T]. unfold neg_hyperbolic_body. rewrite Y.
    change (cre (cr (P - Q * C0 (- 2 ^ k / 4)))) with (Fin (P - Q * C0 (- 2 ^ k / 4))). change (@nofZ XR 0) with (Fin 0). change (@nltb XR) with xltb.
    change (@nmul XR (Fin (- 2 ^ k)) (nofZ 2)) with (Fin (- 2 ^ k * 2)). replace (- 2 ^ k * 2) with (- 2 ^ S k) by (cbn [pow]; ring).
    destruct (Rlt_dec 0 (P - Q * C0 (- 2 ^ k / 4))) as [G1|G1].
    - rewrite (proj2 (xltb_F _ _) G1), T by exact G1. cbn [andb]. rewrite (proj2 (xltb_Ff _ _)); [reflexivity|]. unfold good in NG. lra.
    - rewrite (proj2 (xltb_Ff _ _)) by lra. reflexivity. }
  assert (DEC : forall k, good k \/ ~ good k).
  { intros k. unfold good. destruct (Rlt_dec 0 (P - Q * C0 (- 2 ^ k / 4))), (Rlt_dec (sqrt 2 / sqrt mu * Gz P Q (- 2 ^ k / 4)) tof); tauto. }
  unfold neg_hyperbolic_contour in HCt. replace (@nopp XR (nofZ 1)) with (Fin (- 2 ^ 0)) in HCt by (change (@nopp XR (nofZ 1)) with (Fin (- 1)); f_equal; cbn [pow]; ring).
  destruct (contour_loop (Fin mu) (Fin (vnorm r1)) (Fin (vnorm r2)) (Fin A) (Fin tof) good DEC BG BB 64 0 0) as [(k & K1 & K2 & _ & K4)|[_ [s K2]]].
  - rewrite K4 in HCt. injection HCt as <- <-. specialize (P2 k). exists k, (1 / 2 * - 2 ^ k), (Rabs (1 / 2 * - 2 ^ k) * (1 - 1 / 1000000)).
    split; [lia|]. split; [reflexivity|]. split; [reflexivity|]. split; [field|]. split.
    + rewrite Rabs_mult, Rabs_Ropp, !Rabs_pos_eq by lra. field.
    + destruct K2 as [G1 G2]. rewrite ETG in G2. destruct (Rlt_dec (- 2 ^ k) (4 * z)) as [Y|Y]; [exact Y|]. exfalso.
      destruct (Req_dec z (- 2 ^ k / 4)) as [E|E]; [rewrite <- E in G2; lra|].
      assert (X : z < - 2 ^ k / 4) by lra. pose proof (MONO _ _ X ltac:(nra) ltac:(lra) G1). lra.
  - rewrite K2 in HCt. discriminate HCt.
Qed.
Print Assumptions C62_hyperbolic_contour.

Lemma cosh_half : cosh (1 / 2) * cosh (1 / 2) >= 5 / 4.
Proof.
  assert (E : cosh (1 / 2) >= 9 / 8).
  { unfold cosh. set (e := exp (1 / 2)). assert (E1 : e * exp (- (1 / 2)) = 1) by (unfold e; rewrite <- exp_plus, Rplus_opp_r; apply exp_0).
    assert (E0 : 3 / 2 < e) by (unfold e; pose proof (exp_ineq1 (1 / 2) ltac:(lra)); lra).
    assert (E2 : exp (- (1 / 2)) = / e) by (unfold e; now rewrite exp_Ropp). rewrite E2 in *.
    (* [e >= 1.64] from [exp (1/4) >= 5/4 + 1/32] *)
    assert (E3 : 1641 / 1000 <= e).
    { unfold e. replace (1 / 2) with (1 / 4 + 1 / 4) by field. rewrite exp_plus. pose proof (exp_ineq1 (1 / 4) ltac:(lra)) as X.
      assert (Y : 1 + 1 / 16 < exp (1 / 16)) by (apply exp_ineq1; lra).
      assert (Z : exp (1 / 4) = exp (1 / 16) * exp (1 / 16) * exp (1 / 16) * exp (1 / 16)) by (rewrite <- !exp_plus; f_equal; field).
      assert (W : 1 + 1 / 64 < exp (1 / 64)) by (apply exp_ineq1; lra).
      assert (Z2 : exp (1 / 16) = exp (1 / 64) * exp (1 / 64) * exp (1 / 64) * exp (1 / 64)) by (rewrite <- !exp_plus; f_equal; field).
      set (a := exp (1 / 64)) in *. assert (A2 : (65 / 64) * (65 / 64) <= a * a) by nra. assert (A4 : (65 / 64) * (65 / 64) * ((65 / 64) * (65 / 64)) <= a * a * (a * a)) by nra.
      assert (B : 10639 / 10000 <= exp (1 / 16)) by (rewrite Z2; lra). set (b := exp (1 / 16)) in *.
      assert (B2 : 10639 / 10000 * (10639 / 10000) <= b * b) by nra. assert (B4 : 10639 / 10000 * (10639 / 10000) * (10639 / 10000 * (10639 / 10000)) <= b * b * (b * b)) by nra.
      assert (C : 1281 / 1000 <= exp (1 / 4)) by (rewrite Z; lra). nra. }
    assert (N0 : 0 < / e) by (apply Rinv_0_lt_compat; lra). assert (e * (e + / e - 9 / 4) >= 0) by (rewrite Rmult_minus_distr_l, Rmult_plus_distr_l, E1; nra).
    assert (e + / e - 9 / 4 >= 0) by nra. lra. }
  nra.
Qed.

(** For a short-way geometry of small enough angle the search for the contour
    fails on every hyperbolic transfer: already at its first trial [-1] the
    code's [y] is not positive, and the further trials only move away.  With
    equal distances this means all angles up to [53] degrees. *)
Theorem C62_hyperbolic_refuted : forall mu r1 r2 v1 v2 tof prograde,
  0 < mu -> vz (vcross r1 r2) <> 0 -> short_way prograde r1 r2 ->
  (vnorm r1 + vnorm r2) ^ 2 <= 5 / 2 * (vnorm r1 * vnorm r2 + vdot r1 r2) ->
  lambert_solution mu r1 v1 r2 v2 tof 0 -> moves_as_requested prograde r1 v1 -> 0 < energy mu r1 v1 ->
  forall ev low_path maxiter atol rtol full_output,
  @run XR Negrete ev (call mu r1 r2 tof 0 prograde low_path maxiter atol rtol full_output) = Err (ValueError "Could not bracket hyperbolic contour!").
Proof.
  intros mu r1 r2 v1 v2 tof p Hm Hz SW HG L D HE ev low mi at_ rt fo. pose proof (vz_non_collinear _ _ Hz) as Hn.
  destruct (C62_hyperbolic_contour mu r1 r2 v1 v2 tof p Hm Hz L D) as (psi & tp & _ & _ & T0 & TP & _ & PE & _).
  assert (HT : 0 < tof) by apply L.
  assert (VI : valid_input mu r1 r2 tof 0).
  { unfold valid_input. split; [lra|]. split; [|split; [|split; [lra|lia]]].
    - intros E. apply Hz. rewrite E. unfold vcross, vzero. cbn [vx vy vz]. ring.
    - intros E. apply Hz. rewrite E. unfold vcross, vzero. cbn [vx vy vz]. ring. }
  cbn [run]. unfold negrete2024. rewrite validated_call_ok by exact VI.
  cbn [a_mu a_r1 a_r2 a_tof a_M a_is_prograde a_is_low_path a_maxiter a_atol a_rtol a_full_output call].
  rewrite !norm_F in *. destruct (transfer_angle r1 r2 p Hn) as (th & ET & F). rewrite ET in *. unfold MAssertions.assert_transfer_angle_not_zero.
  replace (@neqb XR (Fin th) (nofZ 0)) with false by (symmetry; apply xeqb_Ff; pose proof (af_range _ _ _ _ F); lra). cbn [bind].
  destruct (neg_A_F p r1 r2 th Hn F) as (A & EA & A2 & As). rewrite EA in *. assert (A0 : 0 < A) by now apply As.
  replace (@neqb XR (Fin A) (nofZ 0)) with false by (symmetry; apply xeqb_Ff; lra). cbn [raise_if bind].
  unfold neg_find_z. cbn [Z.eqb]. unfold neg_find_single. change (@nofZ XR 0) with (Fin 0). rewrite T0.
  change (@nltb XR (Fin tof) (Fin tp)) with (xltb (Fin tof) (Fin tp)). rewrite (proj2 (xltb_F tof tp)) by tauto.
  set (P := vnorm r1 + vnorm r2) in *. set (Q := sqrt 2 * A). destruct (sqrt_facts 2) as [W1 W2]; [lra|]. assert (Q0 : 0 < Q) by now apply Rmult_lt_0_compat.
  destruct (norms_pos _ _ Hn) as [N1 N2]. assert (P0 : 0 < P) by (unfold P; lra).
  assert (PQ : P * P <= 5 / 4 * (Q * Q)).
  { unfold Q. replace (sqrt 2 * A * (sqrt 2 * A)) with ((sqrt 2 * sqrt 2) * (A * A)) by ring. rewrite W2, A2. unfold Kgeo. nra. }
  assert (CH : P <= Q * cosh (1 / 2)).
  { pose proof cosh_half as C. pose proof (cosh_ge_1 (1 / 2)) as C1. apply Rsqr_incr_0_var; [unfold Rsqr|nra]. assert (0 < Q * Q) by nra. nra. }
  assert (NB : forall k i, @neg_hyperbolic_body XR (Fin mu) (Fin (vnorm r1)) (Fin (vnorm r2)) (Fin A) (Fin tof) i (Fin (- 2 ^ k)) = Next (Fin (- 2 ^ S k))).
  { intros k i. assert (P2 : 1 <= 2 ^ k) by (apply pow_R1_Rle; lra). pose proof PI_RGT_0 as HP.
    destruct (regime_F mu (vnorm r1) (vnorm r2) A Hm (- 2 ^ k)) as [Y _]; [left; rewrite Rabs_Ropp, Rabs_pos_eq by lra; lra|nra|].
    unfold neg_hyperbolic_body. rewrite Y. fold P Q. change (cre (cr (P - Q * C0 (- 2 ^ k / 4)))) with (Fin (P - Q * C0 (- 2 ^ k / 4))). change (@nofZ XR 0) with (Fin 0). change (@nltb XR) with xltb.
    assert (C : cosh (1 / 2) <= C0 (- 2 ^ k / 4)).
    { rewrite <- (C0_hyp (1 / 2)) by lra. destruct (Req_dec (- 2 ^ k / 4) (- (1 / 2 * (1 / 2)))) as [E|E]; [rewrite E; lra|]. left. apply C0_decreasing; nra. }
    rewrite (proj2 (xltb_Ff _ _)) by nra. cbn [andb]. change (@nmul XR (Fin (- 2 ^ k)) (nofZ 2)) with (Fin (- 2 ^ k * 2)). replace (- 2 ^ k * 2) with (- 2 ^ S k) by (cbn [pow]; ring). reflexivity. }
  unfold neg_hyperbolic_contour. replace (@nopp XR (nofZ 1)) with (Fin (- 2 ^ 0)) by (change (@nopp XR (nofZ 1)) with (Fin (- 1)); f_equal; cbn [pow]; ring).
  destruct (contour_loop (Fin mu) (Fin (vnorm r1)) (Fin (vnorm r2)) (Fin A) (Fin tof) (fun _ => False) (fun _ => or_intror (fun x => x)) (fun k i f => match f with end) (fun k i _ => NB k i) 64 0 0) as [(k & _ & [] & _)|[_ [s K2]]].
  rewrite K2. reflexivity.
Qed.
Print Assumptions C62_hyperbolic_refuted.

(** ** Cases *)
Definition ex_near : rvec := V3 (4 / 5) (3 / 5) 0.
Lemma near_facts : vnorm ex_r1 = 1 /\ vnorm ex_near = 1 /\ vdot ex_r1 ex_near = 4 / 5 /\ vz (vcross ex_r1 ex_near) = 3 / 5.
Proof.
  split; [apply ex_norms|]. unfold vnorm, ex_near, ex_r1; vunf. repeat split; try lra.
  replace (4 / 5 * (4 / 5) + 3 / 5 * (3 / 5) + 0 * 0) with 1 by field. apply sqrt_1.
Qed.

(** Two positions [37] degrees apart on the unit circle meet the hypotheses of
    [C62_hyperbolic_refuted] with the transfer of half the parabola's time. *)
Example C62_hyperbolic_case : exists v1 v2 tof,
  0 < 1 /\ vz (vcross ex_r1 ex_near) <> 0 /\ short_way true ex_r1 ex_near /\
  (vnorm ex_r1 + vnorm ex_near) ^ 2 <= 5 / 2 * (vnorm ex_r1 * vnorm ex_near + vdot ex_r1 ex_near) /\
  lambert_solution 1 ex_r1 v1 ex_near v2 tof 0 /\ moves_as_requested true ex_r1 v1 /\ 0 < energy 1 ex_r1 v1.
Proof.
  destruct near_facts as (N1 & N2 & ND & NZ). assert (Z : vz (vcross ex_r1 ex_near) <> 0) by lra.
  destruct (C36_zero_rev_exists 1 ex_r1 ex_near 1 true ltac:(lra) Z ltac:(lra)) as (u1 & u2 & U & UM).
  destruct (C62_hyperbolic_contour 1 ex_r1 ex_near u1 u2 1 true ltac:(lra) Z U UM) as (psi & tp & _ & _ & T0 & _).
  assert (TP : 0 < tp).
  { pose proof (vz_non_collinear _ _ Z) as Hn. rewrite !norm_F in T0. destruct (transfer_angle ex_r1 ex_near true Hn) as (th & ET & F). rewrite ET in T0.
    destruct (neg_A_F true ex_r1 ex_near th Hn F) as (A & EA & A2 & As). rewrite EA in T0.
    assert (A0 : 0 < A) by (apply As; unfold short_way; lra). pose proof (geo_PQ _ _ _ Hn A2) as HQ. apply Rabs_def2 in HQ.
    destruct (sqrt_facts 2) as [W1 W2]; [lra|]. destruct at_0 as [C00 _].
    destruct (regime_F 1 (vnorm ex_r1) (vnorm ex_near) A ltac:(lra) 0 (or_intror eq_refl) ltac:(pose proof PI_RGT_0; nra)) as [_ X]. replace (0 / 4) with 0 in X by field. rewrite C00 in X.
    destruct (X ltac:(lra)) as [Y _]. rewrite Y in T0. injection T0 as <-. rewrite sqrt_1. apply Rmult_lt_0_compat; [lra|]. unfold Gz. rewrite C00, kz_0.
    set (V := _ - _ * 1). assert (0 < V) by (unfold V; lra). pose proof (sqrt_lt_R0 _ H). assert (0 < sqrt 2 * A) by now apply Rmult_lt_0_compat.
    assert (0 < V * sqrt V) by now apply Rmult_lt_0_compat. set (q := sqrt 2 * A) in *. set (s := sqrt V) in *. clearbody q s. nra. }
  destruct (C36_zero_rev_exists 1 ex_r1 ex_near (tp / 2) true ltac:(lra) Z ltac:(lra)) as (v1 & v2 & L & LM).
  destruct (C62_hyperbolic_contour 1 ex_r1 ex_near v1 v2 (tp / 2) true ltac:(lra) Z L LM) as (psi' & tp' & _ & _ & T0' & E1 & _ & E2 & _).
  rewrite T0 in T0'. injection T0' as <-.
  exists v1, v2, (tp / 2). split; [lra|]. split; [exact Z|]. split; [unfold short_way; lra|]. split; [rewrite N1, N2, ND; lra|].
  split; [exact L|]. split; [exact LM|]. apply E2, E1. lra.
Qed.

(** Two points of the real axis: the unit square's geometry, the circle through
    [1] and [2], and the pole that the two values of the pole function suggest. *)
Example C62_one_pole_case : exists f z0 r,
  r <> CC.RtoC 0 /\ forall i, (i < Z.to_nat 2)%nat ->
    @neg_pole XR (cC (point (3 / 2) (1 / 2) 2 i)) (Fin 1) (Fin 1) (Fin 1) (Fin 1) (Fin 0) = cC (f i) /\
    CC.Cmult (f i) (CC.Cminus (point (3 / 2) (1 / 2) 2 i) (CC.RtoC z0)) = r.
Proof.
  pose proof PI2_3_2 as P. destruct (sqrt_facts 2) as [W1 W2]; [lra|].
  assert (CV : forall z, 0 < z < 1 -> 0 < 1 + 1 - sqrt 2 * 1 * C0 z).
  { intros z Hz. assert (C0 z < 1) by (destruct at_0 as [<- _]; apply C0_decreasing; nra). assert (-1 < C0 z) by (apply C0_gt; nra). nra. }
  assert (SC : forall psi, 1 <= psi <= 2 -> @neg_scaled_tof XR (cr psi) (Fin 1) (Fin 1) (Fin 1) = cr (sqrt 2 * Gz (1 + 1) (sqrt 2 * 1) (psi / 4))).
  { intros psi Hp. apply (regime_F 1 1 1 1 ltac:(lra) psi); [left; rewrite Rabs_pos_eq by lra; lra|nra|apply CV; lra]. }
  set (g := fun psi => sqrt 2 * Gz (1 + 1) (sqrt 2 * 1) (psi / 4)) in *.
  assert (G12 : g 1 < g 2). { unfold g. apply Rmult_lt_compat_l; [lra|]. apply Gz_increasing; try (apply CV); try nra. rewrite Rmult_1_r, Rabs_pos_eq; nra. }
  assert (G1 : 0 < g 1).
  { unfold g. apply Rmult_lt_0_compat; [lra|]. unfold Gz. pose proof (CV (1 / 4) ltac:(lra)) as V0. set (V := 1 + 1 - _) in *. pose proof (sqrt_lt_R0 _ V0).
    assert (K : 0 < kz (1 / 4)). { unfold kz. pose proof (S1_pos (1 / 4) ltac:(nra)) as S. apply Rdiv_lt_0_compat; [apply S3_positive|]. repeat apply Rmult_lt_0_compat; assumption. }
    assert (0 < V * sqrt V) by now apply Rmult_lt_0_compat. set (k := kz _) in *. set (s := sqrt V) in *. set (w := sqrt 2) in *. clearbody k s w V.
    assert (0 < 2 * (V * s) * k) by (repeat apply Rmult_lt_0_compat; lra). assert (0 < w * 1 / 2 * s) by (repeat apply Rmult_lt_0_compat; lra). lra. }
  assert (PO : forall psi, 1 <= psi <= 2 -> g psi <> 0 -> @neg_pole XR (cr psi) (Fin 1) (Fin 1) (Fin 1) (Fin 1) (Fin 0) = cr (/ g psi)).
  { intros psi Hp H0. unfold neg_pole. rewrite SC by assumption. change (@nsqrt XR (Fin 1)) with (xsqrt (Fin 1)). rewrite xsqrt_F, sqrt_1 by lra.
    change (@nmul XR (Fin 1) (Fin 0)) with (Fin (1 * 0)). rewrite creal_F, cr_sub. fold (g psi). replace (g psi - 1 * 0) with (g psi) by ring. now apply cr_inv. }
  assert (X0 : point (3 / 2) (1 / 2) 2 0 = CC.RtoC 2) by (unfold point; change (INR 0) with 0; replace (2 * PI * 0 / 2) with 0 by field; rewrite cos_0, sin_0; apply injective_projections; cbn; field).
  assert (X1 : point (3 / 2) (1 / 2) 2 1 = CC.RtoC 1) by (unfold point; change (INR 1) with 1; replace (2 * PI * 1 / 2) with PI by field; rewrite cos_PI, sin_PI; apply injective_projections; cbn; field).
  set (z0 := (g 2 - 2 * g 1) / (g 2 - g 1)).
  exists (fun i => match i with O => CC.RtoC (/ g 2) | _ => CC.RtoC (/ g 1) end), z0, (CC.RtoC (/ (g 2 - g 1))).
  split; [apply RtoC_nonzero, Rinv_neq_0_compat; lra|]. intros i Hi. assert (i = 0 \/ i = 1)%nat as [-> | ->] by (change (Z.to_nat 2) with 2%nat in Hi; lia).
  - rewrite X0. split; [change (cC (CC.RtoC 2)) with (cr 2); rewrite PO by lra; reflexivity|]. unfold z0. apply injective_projections; cbn; field; lra.
  - rewrite X1. split; [change (cC (CC.RtoC 1)) with (cr 1); rewrite PO by lra; reflexivity|]. unfold z0. apply injective_projections; cbn; field; lra.
Qed.

(** A multi-revolution refinement that keeps its distance from the ends. *)
Example C62_refinement_case : (2 * PI * 1) ^ 2 < (2 * PI * 2) ^ 2 /\ (2 * PI * 1) ^ 2 + 1 / 50000000 <= (3 * PI) ^ 2 <= (2 * PI * 2) ^ 2 - 1 / 50000000.
Proof. pose proof PI2_3_2. repeat split; nra. Qed.

(** The first circle for an elliptic time of flight need not enclose the root:
    for every geometry and sense some elliptic transfer has its root at [1/4],
    left of the circle of [C62_elliptic_contour]. *)
Theorem C62_elliptic_refuted : forall mu r1 r2 prograde, 0 < mu -> vz (vcross r1 r2) <> 0 ->
  let n1 := norm (vfin r1) in
  let n2 := norm (vfin r2) in
  let A := @neg_A XR n1 n2 (get_transfer_angle (vfin r1) (vfin r2) prograde) in
  exists tof tp, @neg_tof_at_z XR (Fin 0) (Fin mu) n1 n2 A = Fin tp /\ tp < tof /\
    @neg_tof_at_z XR (Fin (1 / 4)) (Fin mu) n1 n2 A = Fin tof /\
    forall n atol rtol, exists c rho, 1 / 4 < c - rho /\ 0 < rho /\
      @neg_find_single XR (Fin mu) n1 n2 A (Fin tof) n atol rtol =
        (let moment := @neg_moment XR (Fin c) (Fin rho) (Fin mu) n1 n2 A (Fin tof) n in
         let* z := neg_real_solution (cdiv (moment 1%nat) (moment 0%nat)) atol rtol in
         neg_refine_single_root z (Fin 0) (Fin (4 * PI ^ 2)) (Fin mu) n1 n2 A (Fin tof) n atol rtol).
Proof.
  intros mu r1 r2 p Hm Hz. pose proof (vz_non_collinear _ _ Hz) as Hn. cbv zeta. rewrite !norm_F.
  destruct (transfer_angle r1 r2 p Hn) as (th & ET & F). rewrite ET.
  destruct (neg_A_F p r1 r2 th Hn F) as (A & EA & A2 & As). rewrite EA.
  pose proof (geo_PQ r1 r2 A Hn A2) as HQ. assert (HP : 1 < PI * PI) by (pose proof PI2_3_2; nra). destruct at_0 as [C00 _]. destruct (sqrt_facts 2) as [W1 W2]; [lra|]. destruct (sqrt_facts _ Hm) as [M1 _].
  assert (C1 : C0 (1 / 4 / 4) < 1) by (rewrite <- C00; apply C0_decreasing; lra). assert (C2 : -1 < C0 (1 / 4 / 4)) by (apply C0_gt; lra).
  apply Rabs_def2 in HQ as HQ'.
  assert (VP : forall c, -1 < c <= 1 -> 0 < vnorm r1 + vnorm r2 - sqrt 2 * A * c).
  { intros c Hc. set (q := sqrt 2 * A) in *. set (s := vnorm r1 + vnorm r2) in *. clearbody q s.
    destruct (Rle_dec 0 q); [assert (q * c <= q * 1) by (apply Rmult_le_compat_l; lra)|assert (- q * - c <= - q * 1) by (apply Rmult_le_compat_l; lra)]; lra. }
  destruct (regime_F mu (vnorm r1) (vnorm r2) A Hm 0 (or_intror eq_refl) ltac:(lra)) as [_ X]. replace (0 / 4) with 0 in X by field. destruct (X ltac:(rewrite C00; apply VP; lra)) as [T0 _]. clear X.
  destruct (regime_F mu (vnorm r1) (vnorm r2) A Hm (1 / 4)) as [_ X]; [left; rewrite Rabs_pos_eq by lra; lra|lra|]. destruct (X ltac:(apply VP; lra)) as [T1 _]. clear X.
  set (P := vnorm r1 + vnorm r2) in *. set (Q := sqrt 2 * A) in *.
  assert (LT : sqrt 2 / sqrt mu * Gz P Q 0 < sqrt 2 / sqrt mu * Gz P Q (1 / 4 / 4)).
  { apply Rmult_lt_compat_l; [now apply Rdiv_lt_0_compat|]. apply Gz_increasing; [exact HQ|lra|lra|rewrite C00; apply VP; lra|apply VP; lra]. }
  do 2 eexists. split; [exact T0|]. split; [exact LT|]. split; [exact T1|]. intros n at_ rt. 
  destruct (C62_elliptic_contour (Fin mu) (Fin (vnorm r1)) (Fin (vnorm r2)) (Fin A) _ _ n at_ rt T0 (Rlt_le _ _ LT)) as (c & rho & E & R1 & R2 & _).
  exists c, rho. split; [lra|]. split; [exact R1|]. exact E.
Qed.
Print Assumptions C62_elliptic_refuted.
