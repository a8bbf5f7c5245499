(** * C68: no answer has less energy than the minimum-energy ellipse. *)
From Coq Require Import Reals ZArith List Bool Lra Lia Psatz.
Import ListNotations.
From Verif Require Import Num XReal XRealLemmas MApi MLinalg MScipy MIzzo MInit Spec SpecLambert VecFacts VecXR UniversalKepler LambertUV LambertZ LambertUnique
  Godal GodalXR GodalIzzo GodalMore OrbitXR CallXR ApiFacts IzzoXR PropertiesAngles PropertiesMotion PropertiesOrbit PropertiesAvanzini PropertiesIzzo.
Local Open Scope R_scope.

Lemma vnorm_triangle u v : vnorm (vminus u v) <= vnorm u + vnorm v.
Proof.
  pose proof (vnorm_nonneg u) as U. pose proof (vnorm_nonneg v) as V. pose proof (vnorm_nonneg (vminus u v)) as W.
  pose proof (cauchy_schwarz u v) as C. rewrite <- !vnorm_sq in C.
  assert (E : vnorm (vminus u v) * vnorm (vminus u v) = vnorm u * vnorm u + vnorm v * vnorm v - 2 * vdot u v) by (rewrite !vnorm_sq; vdes; vunf; ring).
  assert (D : - vdot u v <= vnorm u * vnorm v).
  { assert (0 <= vnorm u * vnorm v) by (now apply Rmult_le_pos). nra. }
  nra.
Qed.

(** The empty focus of an ellipse, and its distance from a position on it. *)
Definition empty_focus (mu : R) (r v : rvec) : rvec := vmult (mu / energy mu r v) (ecc_vector mu r v).

Lemma focal_distance mu r v : 0 < mu -> r <> vzero -> energy mu r v < 0 ->
  vnorm (vminus (empty_focus mu r v) r) = 2 * semimajor mu r v - vnorm r.
Proof.
  intros Hm Hr HE. pose proof (vnorm_pos _ Hr) as N. set (n := vnorm r) in *. set (E := energy mu r v) in *.
  assert (EA : 2 * semimajor mu r v = - (mu / E)) by (unfold semimajor; fold E; field; lra). rewrite EA.
  assert (n2 : n * n = vdot r r) by apply vnorm_sq.
  assert (L : n <= - (mu / E)).
  { assert (K : E * n = vdot v v / 2 * n - mu) by (unfold E, energy; fold n; field; lra).
    assert (0 <= vdot v v) by (vdes; vunf; nra). assert (0 <= vdot v v / 2 * n) by (apply Rmult_le_pos; lra).
    apply Rmult_le_reg_l with (- E); [lra|]. replace (- E * - (mu / E)) with mu by (field; lra). lra. }
  set (e := ecc_vector mu r v).
  assert (Er : vdot e r = (n * n * vdot v v - vdot r v * vdot r v) / mu - n).
  { unfold e, ecc_vector. fold n.
    assert (X : vdot (vminus (vmult (1 / mu) (vcross v (vcross r v))) (vmult (1 / n) r)) r
      = 1 / mu * (vdot r r * vdot v v - vdot r v * vdot r v) - 1 / n * vdot r r).
    { generalize (1 / mu) (1 / n). intros. clear. vdes; vunf; ring. }
    rewrite X, <- n2. field. lra. }
  assert (EE : vdot e e = 1 + 2 * E * (n * n * vdot v v - vdot r v * vdot r v) / (mu * mu)).
  { unfold e, ecc_vector. fold n.
    assert (X : vdot (vminus (vmult (1 / mu) (vcross v (vcross r v))) (vmult (1 / n) r)) (vminus (vmult (1 / mu) (vcross v (vcross r v))) (vmult (1 / n) r))
      = 1 / mu * (1 / mu) * (vdot v v * (vdot r r * vdot v v - vdot r v * vdot r v)) - 2 * (1 / mu) * (1 / n) * (vdot r r * vdot v v - vdot r v * vdot r v) + 1 / n * (1 / n) * vdot r r).
    { generalize (1 / mu) (1 / n). intros. clear. vdes; vunf; ring. }
    rewrite X, <- n2. unfold E, energy. fold n. field. lra. }
  assert (Q : vnorm (vminus (empty_focus mu r v) r) * vnorm (vminus (empty_focus mu r v) r) = (- (mu / E) - n) * (- (mu / E) - n)).
  { rewrite vnorm_sq. unfold empty_focus. fold E e.
    transitivity (mu / E * (mu / E) * vdot e e - 2 * (mu / E) * vdot e r + vdot r r).
    - generalize (mu / E). clearbody e. intros. clear. vdes; vunf; ring.
    - rewrite EE, Er, <- n2. field. lra. }
  pose proof (vnorm_nonneg (vminus (empty_focus mu r v) r)). nra.
Qed.

(** A Kepler orbit through two positions has at least the energy [- mu / s] of
    the ellipse whose major axis is the semiperimeter [s] of the triangle of
    the positions and the attractor. *)
Theorem C68_minimum_energy : forall mu r1 v1 r2 v2,
  0 < mu -> r1 <> vzero -> r2 <> vzero -> same_orbit mu r1 v1 r2 v2 ->
  - mu / ((vnorm r1 + vnorm r2 + vnorm (vminus r2 r1)) / 2) <= energy mu r1 v1.
Proof.
  intros mu r1 v1 r2 v2 Hm H1 H2 (_ & EE & Ee). pose proof (vnorm_pos _ H1) as N1. pose proof (vnorm_pos _ H2) as N2.
  pose proof (vnorm_nonneg (vminus r2 r1)) as NC. set (s := _ / 2). assert (S : 0 < s) by (unfold s; lra).
  destruct (Rlt_dec (energy mu r1 v1) 0) as [HE|HE].
  2:{ assert (0 < mu / s) by now apply Rdiv_lt_0_compat. replace (- mu / s) with (- (mu / s)) by (field; lra). lra. }
  pose proof (focal_distance mu r1 v1 Hm H1 HE) as F1.
  assert (HE2 : energy mu r2 v2 < 0) by (rewrite <- EE; exact HE). pose proof (focal_distance mu r2 v2 Hm H2 HE2) as F2.
  assert (EF : empty_focus mu r2 v2 = empty_focus mu r1 v1) by (unfold empty_focus; now rewrite EE, Ee).
  assert (ES : semimajor mu r2 v2 = semimajor mu r1 v1) by (unfold semimajor; now rewrite EE). rewrite EF, ES in F2.
  pose proof (vnorm_triangle (vminus (empty_focus mu r1 v1) r1) (vminus (empty_focus mu r1 v1) r2)) as T.
  replace (vminus (vminus (empty_focus mu r1 v1) r1) (vminus (empty_focus mu r1 v1) r2)) with (vminus r2 r1) in T
    by (generalize (empty_focus mu r1 v1); intros; vdes; vunf; f_equal; ring).
  rewrite F1, F2 in T. assert (L : s <= 2 * semimajor mu r1 v1) by (unfold s; lra).
  unfold semimajor in L. set (E := energy mu r1 v1) in *. replace (2 * (- mu / (2 * E))) with (- (mu / E)) in L by (field; lra).
  apply Rmult_le_reg_r with s; [exact S|]. replace (- mu / s * s) with (- mu) by (field; lra).
  assert (X : - E * s <= - E * - (mu / E)) by (apply Rmult_le_compat_l; lra). replace (- E * - (mu / E)) with mu in X by (field; lra). lra.
Qed.
Print Assumptions C68_minimum_energy.

(** The bound is attained: between any two positions there is a transfer of less
    than one revolution with exactly that energy, in either direction [p]. *)
Theorem C68_attained : forall mu r1 r2 (p : bool), 0 < mu -> non_collinear r1 r2 ->
  exists T v1 v2, lambert_solution mu r1 v1 r2 v2 T 0 /\
    (vz (vcross r1 r2) <> 0 -> moves_as_requested p r1 v1) /\
    energy mu r1 v1 = - mu / ((vnorm r1 + vnorm r2 + vnorm (vminus r2 r1)) / 2).
Proof.
  intros mu r1 r2 p Hmu Hn. destruct (semiper_pos _ _ Hn) as [Hs _].
  destruct (izzo_geometry_F r1 r2 p Hn) as (e & ll & t1 & t2 & EG & He & Hel & Hl & Et1 & Et2).
  pose proof (lambda_bounds _ _ _ _ Hn Hl) as Hb. assert (Q : 0 < 1 - ll * ll) by nra. destruct (sqrt_facts _ Q) as [Y1 Y2].
  set (y0 := sqrt (1 - ll * ll)) in *.
  assert (EY : @izzo_y XR (Fin 0) (Fin ll) = Fin y0).
  { unfold izzo_y. xunf. cbn [xmul xsub xlift2]. rewrite xsqrt_F by nra. unfold y0. do 2 f_equal. ring. }
  destruct (izzo_velocities_F mu r1 r2 ll t1 t2 0 y0 Hn Hmu) as (v1 & v2 & EV). rewrite <- EY in EV.
  destruct (izzo_velocities_fg _ _ _ _ _ _ _ _ _ _ _ Hn Hmu He Hel Hl Et1 Et2 EV) as (xr & yr & Ex & _ & Hy0 & Hy & FG).
  apply Fin_inj in Ex. subst xr.
  destruct (xy_lambert _ _ _ _ _ _ _ _ _ Hn Hmu Hl Hy0 Hy FG) as [EE S].
  destruct (S 0%Z 0) as (T & L & _); [lia|lra|now left|]. exists T, v1, v2. split; [exact L|]. split.
  - intros Hz. pose proof (lf_dir _ _ _ _ Hl Hz) as SD. pose proof (lf_nz _ _ _ _ Hl) as L0.
    unfold moves_as_requested, short_way in *. rewrite (fg_momentum _ _ _ _ _ _ _ FG).
    destruct (sqrt_facts _ Hmu) as [M1 _]. destruct (sqrt_facts _ (fg_V _ _ _ _ _ _ _ FG)) as [V1 _]. destruct (sqrt_facts 2) as [W1 _]; [lra|].
    set (A := sqrt 2 * semiper r1 r2 * ll) in *. set (k := / _).
    assert (SA : 0 < A <-> 0 < ll).
    { assert (B : 0 < sqrt 2 * semiper r1 r2) by now apply Rmult_lt_0_compat. unfold A. split; intros; [nra|now apply Rmult_lt_0_compat]. }
    assert (KA : k * A * (sqrt (semiper r1 r2 * ((yr - ll * 0) * (yr - ll * 0))) / sqrt mu) = 1).
    { unfold k. field. repeat split; try lra. intros E. apply L0. unfold A in E. apply Rmult_integral in E. destruct E as [E|E]; [|exact E].
      exfalso. apply Rmult_integral in E. lra. }
    set (q := sqrt (semiper r1 r2 * _) / sqrt mu) in KA. assert (Q0 : 0 < q) by now apply Rdiv_lt_0_compat.
    assert (KP : 0 < k * A). { destruct (Rlt_dec 0 (k * A)) as [|N]; [assumption|]. exfalso. assert (k * A * q <= 0 * q) by (apply Rmult_le_compat_r; lra). lra. }
    clearbody k. set (n := vcross r1 r2) in *. assert (EZ : vz (vmult k n) = k * vz n) by (clear; destruct n; reflexivity). rewrite EZ.
    assert (KS : 0 < ll /\ 0 < k \/ ll < 0 /\ k < 0).
    { destruct (Rlt_dec 0 ll) as [L1|L1]; [left|right]; (split; [lra|]).
      - assert (0 < A) by tauto. nra.
      - assert (A <= 0) by (destruct (Rlt_dec 0 A); [tauto|lra]). nra. }
    destruct p, KS as [[K1 K2]|[K1 K2]].
    + assert (0 < vz n) by tauto. now apply Rmult_lt_0_compat.
    + assert (vz n < 0) by (destruct (Rlt_dec 0 (vz n)); [assert (0 < ll) by tauto|]; lra). nra.
    + assert (vz n < 0) by tauto. nra.
    + assert (0 < vz n) by (destruct (Rlt_dec (vz n) 0); [assert (0 < ll) by tauto|]; lra). nra.
  - rewrite EE. fold (chord r1 r2). fold (semiper r1 r2). field. lra.
Qed.
Print Assumptions C68_attained.

Definition faultless_orbit (s : solver) (ev : @env XR) (mu : R) (p : bool) (r1 r2 : rvec) (tof : R) (M : Z) (atol rtol : R) : Prop :=
  match s with
  | Der => M = 0%Z -> ~ near_parabolic mu p r1 r2 tof atol rtol
  | Pan => brentq_evaluates ev
  | Avanzini => ~ equatorial r1 r2
  | Gauss => False
  | _ => True
  end.

(** Every answer, wherever C11 places it on one orbit, has at least that energy. *)
Theorem C68_answers : forall s ev mu r1 r2 tof M prograde low_path maxiter atol rtol full_output o v1 v2,
  0 < mu -> non_collinear r1 r2 -> faultless_orbit s ev mu prograde r1 r2 tof M atol rtol ->
  @run XR s ev (call mu r1 r2 tof M prograde low_path maxiter atol rtol full_output) = Ok o ->
  delivers o v1 v2 ->
  - mu / ((vnorm r1 + vnorm r2 + vnorm (vminus r2 r1)) / 2) <= energy mu r1 v1.
Proof.
  intros s ev mu r1 r2 tof M p l mi a r f o v1 v2 Hm Hn HF H D. destruct (norms_pos _ _ Hn) as [N1 N2].
  assert (Z : vnorm vzero = 0). { unfold vnorm. replace (vdot vzero vzero) with 0 by (unfold vdot, vzero; cbn [vx vy vz]; ring). apply sqrt_0. }
  apply (C68_minimum_energy mu r1 v1 r2 v2); [exact Hm|intros ->; lra|intros ->; lra|].
  destruct s; cbn [faultless_orbit] in HF;
    first [ contradiction | exact (C11_der _ _ _ _ _ _ _ _ _ _ _ _ _ _ _ Hn HF H D) | exact (C11_pan _ _ _ _ _ _ _ _ _ _ _ _ _ _ _ Hn HF H D)
          | exact (C11_avanzini _ _ _ _ _ _ _ _ _ _ _ _ _ _ _ Hn HF H D)
          | refine (C11_one_orbit _ _ _ _ _ _ _ _ _ _ _ _ _ _ _ _ _ Hm Hn H D); cbn [In]; tauto ].
Qed.
Print Assumptions C68_answers.

(** An elliptic answer of izzo2015, for which the bound is not trivial. *)
Example C68_answers_case : forall ev mu r1 r2 p l rtol, 0 < mu -> non_collinear r1 r2 ->
  exists tof o v1 v2, faultless_orbit Izzo ev mu p r1 r2 tof 0 (1 / 100000) rtol /\
    @run XR Izzo ev (call mu r1 r2 tof 0 p l 35 (1 / 100000) rtol false) = Ok o /\ delivers o v1 v2 /\ energy mu r1 v1 < 0.
Proof.
  intros ev mu r1 r2 p l rtol Hm Hn. destruct (C16_case ev mu r1 r2 p l rtol Hm Hn) as (tof & o & v1 & v2 & _ & H & D & E).
  exists tof, o, v1, v2. exact (conj I (conj H (conj D E))).
Qed.
