(** * The shortest time with complete revolutions computed by der2011: C48. *)
From Coq Require Import String Reals ZArith Bool Lra Lia Psatz List.
From Coquelicot Require Import Coquelicot.
From Verif Require Import Num XReal XRealLemmas MApi ApiFacts MScipy MAssertions MAngles MDer MIzzo MLinalg MInit Spec SpecLambert VecFacts VecXR CallXR Godal GodalXR GodalIzzo GodalMore GodalPan
  LambertRev LambertZ LambertUnique LambertExist KeplerUnique AnglesXR Hyp2F1 IzzoXR OrbitXR PropertiesAngles PropertiesMotion PropertiesOrbit PropertiesDerivIzzo PropertiesUnique
  ThorneRun DerXR MinTime XParam PropertiesDer PropertiesMultiRev.
Import ListNotations.
Local Open Scope R_scope.

Section Eq.
Variables (sg : R) (M : Z).
Hypothesis Hs : 0 < sg * sg < 1.
Hypothesis HM : (1 <= M)%Z.
Let Y (x : R) : R := sqrt (1 - sg * sg * (1 - x * x)).
Let Hl : -1 < sg < 1 := sg_bounds sg Hs.

Definition phi (u : R) : R := acos u - (2 + u * u) * sqrt (1 - u * u) / (3 * u).

Lemma der_phi_F e u : (e = 1 \/ e = -1) -> 0 < u < 1 -> @der_phi XR (Fin (e * u)) = Fin (e * phi u).
Proof.
  intros He H. unfold der_phi. set (y := e * u) in *. assert (y0 : y <> 0) by (unfold y; destruct He as [-> | ->]; lra).
  assert (y2 : y * y = u * u) by (unfold y; destruct He as [-> | ->]; ring).
  replace (@neqb XR (Fin y) (nofZ 0)) with false by (symmetry; apply xeqb_Ff; assumption).
  change (@nsub XR (nofZ 1) (@sq XR (Fin y))) with (Fin (1 - y * y)). rewrite y2.
  unfold pymax. change (@nltb XR (@nofZ XR 0) (Fin (1 - u * u))) with (xltb (Fin 0) (Fin (1 - u * u))). rewrite (proj2 (xltb_F _ _)) by nra.
  change (@nsqrt XR (Fin (1 - u * u))) with (xsqrt (Fin (1 - u * u))). rewrite xsqrt_F by nra.
  assert (EC : @der_acot_y XR (Fin y) = Fin (e * acos u)).
  { unfold der_acot_y. change (@nleb XR (@nofZ XR 0) (Fin y)) with (xleb (Fin 0) (Fin y)). change (@nopp XR (Fin y)) with (Fin (- y)).
    unfold y. destruct He as [-> | ->].
    - rewrite (proj2 (xleb_F _ _)) by lra. rewrite Rmult_1_l, der_clamp_id by lra. change (xacos (Fin u) = Fin (1 * acos u)). rewrite xacos_F by lra. apply (f_equal Fin). ring.
    - rewrite (proj2 (xleb_Ff _ _)) by lra. replace (- (-1 * u)) with u by ring. rewrite der_clamp_id by lra.
      change (xlift1 Ropp (xacos (Fin u)) = Fin (-1 * acos u)). rewrite xacos_F by lra. apply (f_equal Fin). ring. }
  rewrite EC. unfold sq. xunf. cbn [xmul xadd xsub xlift2]. rewrite xdiv_F by lra. cbn [xsub xlift2]. apply (f_equal Fin). rewrite y2. unfold phi.
  unfold y. destruct He as [-> | ->]; field; lra.
Qed.

(** The equation is the derivative of the time, up to a positive factor and the
    sign. *)
Lemma minimum_equation_F x : 0 < x < 1 -> @der_minimum_time_equation XR (Fin sg) M (Fin x) = Fin (mt_h sg M x).
Proof.
  intros H. unfold der_minimum_time_equation. rewrite der_y_val by assumption. destruct (Yf sg Hs x) as [P E]. fold (Y x) in *.
  destruct (Y_in sg Hs x ltac:(lra)) as [B1 B2]. fold (Y x) in B1, B2. rewrite Rabs_pos_eq in B1 by lra.
  assert (W : sgn sg = 1 \/ sgn sg = -1) by (destruct (sgn_cases sg Hs) as [[? ?]|[? ?]]; auto).
  rewrite (der_phi_F _ (Y x) W) by lra. replace (Fin x) with (Fin (1 * x)) by (f_equal; ring). rewrite (der_phi_F 1 x) by (auto; lra).
  change (@nsub XR (@nsub XR (Fin (sgn sg * phi (Y x))) (Fin (1 * phi x))) (@nmul XR (nofZ M) npi)) with (Fin (sgn sg * phi (Y x) - 1 * phi x - IZR M * PI)).
  apply (f_equal Fin). unfold mt_h, d1, T1. fold (Y x). rewrite (mt_T sg M Hl x) by lra. unfold T_ell. fold (Y x).
  pose proof (acos_difference sg Hs x ltac:(lra)) as AD. cbv beta zeta in AD. fold (Y x) in AD. rewrite <- AD. clear AD. unfold phi.
  assert (Q : 0 < 1 - x * x) by nra. destruct (sqrt_facts _ Q) as [Q1 Q2].
  assert (EY : sqrt (1 - Y x * Y x) = sgn sg * sg * sqrt (1 - x * x)).
  { replace (1 - Y x * Y x) with (sg * sg * (1 - x * x)) by lra. rewrite sqrt_mult by lra. f_equal. change (sg * sg) with (Rsqr sg). rewrite sqrt_Rsqr_abs.
    destruct (sgn_cases sg Hs) as [[-> L]|[-> L]]; [rewrite Rabs_pos_eq by lra|rewrite Rabs_left by lra]; ring. }
  rewrite EY. set (q := sqrt (1 - x * x)) in *. set (y := Y x) in *. set (a := acos x). set (b := acos y). pose proof (sgn_sq sg) as W2. set (w := sgn sg) in *.
  clearbody q y a b w. rewrite <- Q2.
  assert (Ey : y * y = 1 - sg * sg * (q * q)) by (rewrite Q2; exact E). assert (Ex : x * x = 1 - q * q) by lra.
  replace (w * (b - (2 + y * y) * (w * sg * q) / (3 * y))) with (w * b - (w * w) * ((2 + y * y) * sg * q / (3 * y))) by (field; lra). rewrite W2.
  field [Ey Ex]. repeat split; lra.
Qed.

Lemma time_at_minimum_F x : 0 < x < 1 ->
  @der_time_at_minimum XR (Fin sg) (Fin x) = Fin (2 * (/ x - sg * sg * sg / (sgn sg * Y x)) / 3).
Proof.
  intros H. unfold der_time_at_minimum. rewrite der_y_val by assumption. fold (Y x). destruct (Yf sg Hs x) as [P _]. fold (Y x) in P.
  assert (W : sgn sg * Y x <> 0) by (destruct (sgn_cases sg Hs) as [[-> ?]|[-> ?]]; lra).
  set (w := sgn sg * Y x) in *. clearbody w. unfold cube. xunf. cbn [xmul xlift2]. rewrite !xdiv_F by (assumption || lra). cbn [xsub xmul xlift2]. rewrite xdiv_F by lra. apply (f_equal Fin). field. repeat split; lra.
Qed.

Lemma stationary_time x : 0 < x < 1 -> d1 sg M x = 0 -> izzo_T sg M x = 2 * (/ x - sg * sg * sg / Y x) / 3.
Proof.
  intros H E. unfold d1, T1 in E. fold (Y x) in E. destruct (Yf sg Hs x) as [P _]. fold (Y x) in P. assert (Q : 0 < 1 - x * x) by nra.
  assert (K : 3 * izzo_T sg M x * x - 2 + 2 * (sg * sg * sg) * x / Y x = 0).
  { apply Rmult_eq_reg_r with (/ (1 - x * x)); [|apply Rinv_neq_0_compat; lra]. rewrite Rmult_0_l. exact E. }
  apply Rmult_eq_reg_l with (3 * x); [|lra].
  transitivity (2 - 2 * (sg * sg * sg) * x / Y x); [lra|]. field. lra.
Qed.

Lemma minimum_bracket : (M <= 10 ^ 14)%Z -> sg * sg <= 1 - 1 / 10 ^ 20 ->
  exists e1 e2, @der_minimum_time_equation XR (Fin sg) M der_eps = Fin e1 /\ 0 < e1 /\
    @der_minimum_time_equation XR (Fin sg) M (@nsub XR (nofZ 1) der_eps) = Fin e2 /\ e2 < 0.
Proof.
  intros HM2 HS2. assert (E1 : @der_eps XR = Fin (1 / 4503599627370496)) by reflexivity.
  assert (E2 : @nsub XR (nofZ 1) der_eps = Fin (1 - 1 / 4503599627370496)) by reflexivity. rewrite E2, E1.
  rewrite !minimum_equation_F by lra. do 2 eexists. split; [reflexivity|].
  split; [|split; [reflexivity|]].
  - set (x := 1 / 4503599627370496). assert (Hx : 0 < x < 1 / 4000000000000000) by (unfold x; lra). clearbody x.
    apply (mt_h_sign sg M); [lra|]. unfold d1, T1. fold (Y x). destruct (Yf sg Hs x) as [P E]. fold (Y x) in P, E. destruct (Y_in sg Hs x ltac:(lra)) as [B1 B2]. fold (Y x) in B1, B2.
    assert (Q : 9999 / 10000 < 1 - x * x) by nra. assert (Q' : 1 - x * x <= 1) by nra.
    assert (T_up : izzo_T sg M x <= 4 * 100000000000001 * 2).
    { rewrite (mt_T sg M Hl x) by lra. unfold T_ell. fold (Y x). destruct (sqrt_facts (1 - x * x)) as [Q1 Q2]; [lra|]. set (q := sqrt (1 - x * x)) in *.
      pose proof (acos_bound (x * Y x + sg * (1 - x * x))) as [_ A]. set (w := acos _) in *.
      assert (q0 : 9999 / 10000 < q) by nra. assert (M2 : IZR M <= 100000000000000) by (apply IZR_le; exact HM2).
      pose proof PI_4 as P4. pose proof PI_RGT_0 as P0. assert (M1 : 1 <= IZR M) by (apply IZR_le; exact HM).
      assert (W1 : (w + IZR M * PI) / q <= (4 * 100000000000001) * (10000 / 9999)).
      { apply Rmult_le_reg_r with q; [lra|]. unfold Rdiv at 1. rewrite Rmult_assoc, Rinv_l, Rmult_1_r by lra.
        assert (IZR M * PI <= 100000000000000 * 4) by (apply Rmult_le_compat; lra). nra. }
      assert (SY : - 1 <= sg * Y x) by nra. assert (XX : x <= 1) by lra.
      apply Rmult_le_reg_r with (1 - x * x); [lra|]. unfold Rdiv at 1. rewrite Rmult_assoc, Rinv_l, Rmult_1_r by lra. nra. }
    assert (T_x : 3 * izzo_T sg M x * x <= 3 * (4 * 100000000000001 * 2) * x) by nra.
    assert (R1 : sg * sg * sg * x / Y x < 1 / 10).
    { apply Rmult_lt_reg_r with (Y x); [assumption|]. unfold Rdiv at 1. rewrite Rmult_assoc, Rinv_l, Rmult_1_r by lra.
      assert (Y0 : 1 / 10 ^ 10 <= Y x). { destruct (Rle_lt_dec (1 / 10 ^ 10) (Y x)) as [L|L]; [exact L|exfalso]. assert (Y x * Y x < 1 / 10 ^ 10 * (1 / 10 ^ 10)) by nra. nra. }
      assert (S3 : sg * sg * sg < 1) by nra. assert (sg * sg * sg * x <= x) by nra. lra. }
    replace (2 * (sg * sg * sg) * x / Y x) with (2 * (sg * sg * sg * x / Y x)) by (field; lra).
    set (u := sg * sg * sg * x / Y x) in *. set (t := izzo_T sg M x) in *. clearbody u t.
    apply Rmult_lt_reg_r with (1 - x * x); [lra|]. unfold Rdiv at 1. rewrite Rmult_assoc, Rinv_l, Rmult_1_r by lra. lra.
  - pose proof (mt_h_decreasing sg M Hl (7 / 8) (1 - 1 / 4503599627370496) ltac:(lra) ltac:(lra) ltac:(lra)) as D.
    pose proof (mt_T1_last sg M Hl HM) as L. destruct (mt_h_sign sg M (7 / 8) ltac:(lra)) as [S1 S2].
    destruct (Rlt_dec 0 (mt_h sg M (7 / 8))) as [C|C]; [apply S2 in C; lra|lra].
Qed.

(** The shortest time is longer than the parabolic one. *)
Lemma minimum_over_parabola x : 0 < x < 1 -> 2 * (1 - sg * sg * sg) / 3 < 2 * (/ x - sg * sg * sg / Y x) / 3.
Proof.
  intros H. destruct (Yf sg Hs x) as [P E]. fold (Y x) in *. destruct (Y_in sg Hs x ltac:(lra)) as [B1 B2]. fold (Y x) in B1, B2. rewrite Rabs_pos_eq in B1 by lra.
  set (y := Y x) in *. clearbody y.
  assert (K : 0 < (/ x - 1) - sg * sg * sg * (/ y - 1)); [|unfold Rdiv; lra].
  assert (EY : / y - 1 = sg * sg * ((1 - x) * (1 + x)) / (y * (1 + y))).
  { replace (sg * sg * ((1 - x) * (1 + x))) with (1 - y * y) by (rewrite E; ring). field. lra. }
  rewrite EY. replace (/ x - 1 - sg * sg * sg * (sg * sg * ((1 - x) * (1 + x)) / (y * (1 + y))))
    with ((1 - x) * (y * (1 + y) - sg * sg * (sg * sg) * sg * (x * (1 + x))) / (x * (y * (1 + y)))) by (field; lra).
  apply Rdiv_lt_0_compat; [|apply Rmult_lt_0_compat; [lra|]; nra]. apply Rmult_lt_0_compat; [lra|].
  assert (S4 : sg * sg * (sg * sg) * sg < 1) by (assert (0 < sg * sg * (sg * sg) < 1) by nra; nra).
  assert (0 < x * (1 + x)) by nra. assert (x * (1 + x) < y * (1 + y)) by nra. nra.
Qed.
End Eq.

(** der2011's [sigma], explicitly. *)
Definition sigma_of (short : bool) (r1 r2 : rvec) : R :=
  let q := sqrt ((vnorm r1 + vnorm r2 - vnorm (vminus r2 r1)) / (vnorm r1 + vnorm r2 + vnorm (vminus r2 r1))) in
  if short then q else - q.

Lemma sigma_facts p r1 r2 b : non_collinear r1 r2 -> (b = true <-> short_way p r1 r2) ->
  let sg := sigma_of b r1 r2 in
  0 < sg * sg < 1 /\ lambda_facts p r1 r2 sg /\ (0 < sg <-> short_way p r1 r2) /\ (0 < sg <-> b = true) /\
  exists th, @get_transfer_angle XR (vfin r1) (vfin r2) p = Fin th /\ angle_facts p r1 r2 th /\
    @der_sigma XR (Fin (vnorm r1)) (Fin (vnorm r2)) (Fin (vnorm r1 + vnorm r2 + chord r1 r2)) (Fin th) = Fin sg.
Proof.
  intros Hn Hb sg. destruct (transfer_angle r1 r2 p Hn) as (th & ET & F).
  destruct (der_sigma_F p r1 r2 th Hn F) as (s0 & ES & S2 & Sr & Sd).
  assert (E : s0 = sg).
  { unfold sg, sigma_of. fold (chord r1 r2). rewrite <- S2. change (s0 * s0) with (Rsqr s0). rewrite sqrt_Rsqr_abs. destruct b.
    - assert (0 < s0) by (apply Sd, Hb; reflexivity). rewrite Rabs_pos_eq by lra. reflexivity.
    - assert (~ 0 < s0) by (intros L; apply Sd, Hb in L; discriminate). rewrite Rabs_left1 by lra. ring. }
  subst s0. split; [exact Sr|]. split; [now apply der_lambda|]. split; [exact Sd|]. split; [rewrite Sd; now rewrite Hb|]. now exists th.
Qed.

(** ** C48 *)

(** The equation der2011 solves to find the shortest time with [M] complete
    revolutions has the same root as the derivative of its time of flight, and
    the opposite sign; so it has exactly one root, and the interval in which it
    is searched contains it. *)
Theorem C48_der_minimum_equation : forall (sigma : R) (M : Z), 0 < sigma * sigma < 1 -> (1 <= M)%Z ->
  (exists T T' e : R -> R, forall x : R, 0 < x < 1 ->
    @der_tof_elliptic XR (Fin sigma) (Fin x) (@der_y XR (Fin sigma) (Fin x)) M = Fin (T x) /\
    is_derive T x (T' x) /\
    @der_minimum_time_equation XR (Fin sigma) M (Fin x) = Fin (e x) /\
    (e x = 0 <-> T' x = 0) /\ (0 < e x <-> T' x < 0)) /\
  (exists x, 0 < x < 1 /\ @der_minimum_time_equation XR (Fin sigma) M (Fin x) = Fin 0 /\
    forall x', 0 < x' < 1 -> @der_minimum_time_equation XR (Fin sigma) M (Fin x') = Fin 0 -> x' = x) /\
  ((M <= 10 ^ 14)%Z -> sigma * sigma <= 1 - 1 / 10 ^ 20 ->
    exists e1 e2, @der_minimum_time_equation XR (Fin sigma) M der_eps = Fin e1 /\ 0 < e1 /\
      @der_minimum_time_equation XR (Fin sigma) M (@nsub XR (nofZ 1) der_eps) = Fin e2 /\ e2 < 0).
Proof.
  intros sg M Hs HM. pose proof (sg_bounds sg Hs) as Hl. split; [|split].
  - exists (izzo_T sg M), (d1 sg M), (mt_h sg M). intros x H.
    split; [rewrite der_tof_elliptic_F by (auto; lra); apply (f_equal Fin); symmetry; apply mt_T; auto; lra|].
    split; [apply izzo_T_derive; [exact Hl|]; apply mt_dom; lra|].
    split; [now apply minimum_equation_F|]. now apply mt_h_sign.
  - destruct (mt_critical sg M Hl HM) as (x & H & E). exists x. split; [exact H|]. rewrite (minimum_equation_F sg M Hs x H).
    split; [apply (f_equal Fin), (mt_h_sign sg M x H), E|]. intros x' H' E'. rewrite (minimum_equation_F sg M Hs x' H') in E'. injection E' as E'.
    assert (E2 : mt_h sg M x = 0) by now apply (mt_h_sign sg M x H).
    destruct (Rtotal_order x' x) as [L|[L|L]]; [|exact L|].
    + pose proof (mt_h_decreasing sg M Hl x' x ltac:(lra) L ltac:(lra)). lra.
    + pose proof (mt_h_decreasing sg M Hl x x' ltac:(lra) L ltac:(lra)). lra.
  - now apply minimum_bracket.
Qed.
Print Assumptions C48_der_minimum_equation.

Lemma equation_root sg M x : 0 < sg * sg < 1 -> 0 < x < 1 -> @der_minimum_time_equation XR (Fin sg) M (Fin x) = Fin 0 -> d1 sg M x = 0.
Proof. intros Hs H E. rewrite minimum_equation_F in E by assumption. injection E as E. now apply (mt_h_sign sg M x H). Qed.

Lemma shortest mu r1 r2 p M sg x : 0 < mu -> vz (vcross r1 r2) <> 0 -> (1 <= M)%Z -> lambda_facts p r1 r2 sg -> (0 < sg <-> short_way p r1 r2) ->
  0 < x < 1 -> d1 sg M x = 0 ->
  let rate := sqrt (2 * mu / (semiper r1 r2 * semiper r1 r2 * semiper r1 r2)) in
  0 < rate /\ (exists v, requested mu r1 r2 p M (izzo_T sg M x / rate) v) /\
  (forall T, (exists v, requested mu r1 r2 p M T v) <-> izzo_T sg M x <= rate * T).
Proof.
  intros Hm Hz HM LF LS Hx E rate. pose proof (vz_non_collinear _ _ Hz) as Hn. pose proof (lambda_bounds _ _ _ _ Hn LF) as Hl.
  pose proof (rate_pos mu r1 r2 Hm Hz) as R0. fold rate in R0. split; [exact R0|].
  pose proof (x_pair_requested mu r1 r2 p M sg Hm Hz HM LF LS) as XP. fold rate in XP.
  split; [eexists; apply XP; lra|]. intros T. split.
  - intros (v & Hv). destruct (requested_x mu r1 r2 p M sg Hm Hz HM LF LS T v Hv) as (x' & Hx' & _ & ET). fold rate in ET. rewrite <- ET.
    destruct (Req_dec x' x) as [-> |N]; [lra|]. left. now apply mt_minimum.
  - intros [L|L].
    + destruct (mt_solutions sg M Hl HM x (rate * T) Hx E L) as (x1 & x2 & B1 & _ & T1 & _ & _).
      exists (x_pair mu r1 r2 sg x1). replace T with (izzo_T sg M x1 / rate) by (rewrite T1; field; lra). apply XP; lra.
    + exists (x_pair mu r1 r2 sg x). replace T with (izzo_T sg M x / rate) by (rewrite L; field; lra). apply XP; lra.
Qed.

(** The transfer asked for. *)
Definition feasible mu r1 r2 p M T : Prop :=
  exists v1 v2, lambert_solution mu r1 v1 r2 v2 T M /\ moves_as_requested p r1 v1.
Lemma feasible_requested mu r1 r2 p M T : feasible mu r1 r2 p M T <-> exists v, requested mu r1 r2 p M T v.
Proof. split; [intros (v1 & v2 & H); now exists (v1, v2)|intros ([v1 v2] & H); now exists v1, v2]. Qed.

(** On the short way the time der2011 computes at the root is the shortest time
    of flight, in its units. *)
Theorem C48_der_minimum_time : forall mu r1 r2 prograde M x,
  0 < mu -> vz (vcross r1 r2) <> 0 -> (1 <= M)%Z -> short_way prograde r1 r2 -> 0 < x < 1 ->
  let sigma := sigma_of true r1 r2 in
  let s := (vnorm r1 + vnorm r2 + vnorm (vminus r2 r1)) / 2 in
  let rate := sqrt (2 * mu / (s * s * s)) in
  @der_minimum_time_equation XR (Fin sigma) M (Fin x) = Fin 0 ->
  exists t, @der_time_at_minimum XR (Fin sigma) (Fin x) = Fin t /\
    forall T, feasible mu r1 r2 prograde M T <-> t <= rate * T.
Proof.
  intros mu r1 r2 p M x Hm Hz HM Sh Hx sg s rate E. pose proof (vz_non_collinear _ _ Hz) as Hn.
  destruct (sigma_facts p r1 r2 true Hn) as (Sr & LF & LS & Sb & _); [tauto|]. fold sg in Sr, LF, LS, Sb.
  pose proof (equation_root sg M x Sr Hx E) as D.
  destruct (shortest mu r1 r2 p M sg x Hm Hz HM LF LS Hx D) as (R0 & _ & S). change (semiper r1 r2) with s in *. fold rate in S.
  exists (izzo_T sg M x). split.
  - rewrite time_at_minimum_F by assumption. apply (f_equal Fin). rewrite (stationary_time sg M Sr x Hx D).
    destruct (sgn_cases sg Sr) as [[-> L]|[-> L]]; [|exfalso; assert (0 < sg) by tauto; lra]. now rewrite Rmult_1_l.
  - intros T. rewrite feasible_requested. apply S.
Qed.
Print Assumptions C48_der_minimum_time.

(** The message. *)
Definition no_feasible {A} : res A := Err (ValueError "No feasible solution, try lower M!").

Lemma reraise_other {A} (r : res A) : der_reraise r <> no_feasible.
Proof. unfold der_reraise, no_feasible. destruct r as [a|[]]; discriminate. Qed.

Lemma bind_not {A B} (r : res A) (k : A -> res B) : r <> no_feasible -> (forall a, k a <> no_feasible) -> bind r k <> no_feasible.
Proof. intros H1 H2. destruct r as [a|e]; [apply H2|]. cbn [bind]. intros E. apply H1. unfold no_feasible in *. injection E as ->. reflexivity. Qed.

Lemma find_other {N : Num} ev sg tau tp M l mi at_ rt : der_find_path_parameter ev sg tau tp M l mi at_ rt <> no_feasible.
Proof.
  assert (E1 : forall x0, der_solve_elliptic ev sg tau M x0 mi at_ rt <> no_feasible).
  { intros x0. unfold der_solve_elliptic.
    assert (E : der_solve_elliptic_bracketed ev sg tau M x0 mi at_ rt <> no_feasible).
    { unfold der_solve_elliptic_bracketed. destruct (if _ <? _ then _ else _)%num as [lo hi]. apply bind_not; [apply reraise_other|]. intros [x k]. discriminate. }
    destruct (for_range _ _ _ _) as [[r|]|x|e]; try exact E. discriminate. }
  assert (E2 : forall x0, der_solve_hyperbolic ev sg tau x0 mi at_ rt <> no_feasible).
  { intros x0. unfold der_solve_hyperbolic.
    assert (E : der_solve_hyperbolic_bracketed ev sg tau mi at_ rt <> no_feasible).
    { unfold der_solve_hyperbolic_bracketed.
      match goal with |- context [while_true ?b ?f ?s] => set (body := b); assert (W : forall u, while_true body f u = Raise OutOfFuel \/ exists u', while_true body f u = Break u') end.
      { induction (e_fuel ev) as [|n IH]; intros u; cbn [while_true]; [now left|].
        unfold body at 1 3. destruct (_ <? _)%num; [apply IH|right; now eexists]. }
      destruct (W (nofZ 2)) as [W'|(u & W')]; rewrite W'; [discriminate|]. apply bind_not; [apply reraise_other|]. intros [x k]. discriminate. }
    destruct (for_range _ _ _ _) as [[r|]|x|e]; try exact E. discriminate. }
  unfold der_find_path_parameter. destruct (_ && _); [discriminate|]. destruct (_ || _); [apply E1|apply E2].
Qed.

Lemma der_run ev mu r1 r2 tof p l mi at_ rt fo M x k b :
  0 < mu -> 0 < tof -> vz (vcross r1 r2) <> 0 -> (1 <= M)%Z -> (b = true <-> short_way p r1 r2) -> 0 < x < 1 ->
  let sg := sigma_of b r1 r2 in
  e_brentq ev (fun x => Ok (@der_minimum_time_equation XR (Fin sg) M x)) der_eps (@nsub XR (nofZ 1) der_eps) (Fin at_) (Fin rt) mi = Ok (Fin x, k) ->
  let tau := sqrt (2 * mu / (semiper r1 r2 * semiper r1 r2 * semiper r1 r2)) * tof in
  @run XR Der ev (call mu r1 r2 tof M p l mi at_ rt fo) = no_feasible <->
    (tau <= 2 * (1 - sg * sg * sg) / 3 \/ tau < 2 * (/ x - sg * sg * sg / (sgn sg * sqrt (1 - sg * sg * (1 - x * x)))) / 3).
Proof.
  intros Hm Ht Hz HM Hb Hx sg EB tau. pose proof (vz_non_collinear _ _ Hz) as Hn.
  destruct (sigma_facts p r1 r2 b Hn Hb) as (Sr & LF & LS & Sb & th & ET & F & ES). fold sg in Sr, LF, LS, Sb, ES.
  cbn [run]. unfold der2011. rewrite validated_call_ok.
  2:{ split; [exact Hm|]. split; [|split; [|split; [exact Ht|lia]]].
      - intros E. apply Hz. subst r1. vunf. ring.
      - intros E. apply Hz. subst r2. vunf. ring. }
  cbn [a_mu a_r1 a_r2 a_tof a_M a_is_prograde a_is_low_path a_maxiter a_atol a_rtol a_full_output call].
  rewrite !vsub_F, !norm_F, ET. fold (chord r1 r2).
  unfold assert_transfer_angle_not_zero, assert_transfer_angle_not_pi.
  destruct F as [F1 F2 F3 F4 F5 F6 F7 F8 F9].
  replace (@neqb XR (Fin th) (nofZ 0)) with false by (symmetry; apply xeqb_Ff; lra).
  replace (@neqb XR (Fin th) npi) with false by (symmetry; apply xeqb_Ff; assumption).
  cbn [bind].
  change (@nadd XR (@nadd XR (Fin (vnorm r1)) (Fin (vnorm r2))) (Fin (chord r1 r2))) with (Fin (vnorm r1 + vnorm r2 + chord r1 r2)).
  rewrite ES, tau_val by assumption. fold tau.
  assert (ETp : @der_parabolic_time XR (Fin sg) = Fin (2 * (1 - sg * sg * sg) / 3)).
  { unfold der_parabolic_time, cube. xunf. cbn [xsub xmul xlift2]. now rewrite xdiv_F by lra. }
  rewrite ETp. set (tp := 2 * (1 - sg * sg * sg) / 3). clearbody tp.
  replace (0 <? M)%Z with true by (symmetry; apply Z.ltb_lt; lia). cbn [andb].
  unfold der_minimum_time.
  match goal with |- context [@e_brentq XR ?a ?b ?c ?d ?e ?f ?g] =>
    assert (EB' : @e_brentq XR a b c d e f g = Ok (Fin x, k)) by exact EB; rewrite EB'; clear EB' end.
  rewrite time_at_minimum_F by assumption. set (tm := 2 * _ / 3). clearbody tm.
  change (@nleb XR (Fin tau) (Fin tp)) with (xleb (Fin tau) (Fin tp)). change (@nltb XR (Fin tau) (Fin tm)) with (xltb (Fin tau) (Fin tm)).
  cbn [bind]. change (@nltb XR (Fin tau) (Fin tm)) with (xltb (Fin tau) (Fin tm)).
  destruct (xleb (Fin tau) (Fin tp)) eqn:L1; cbn [raise_if bind].
  { apply xleb_F in L1. split; [intros _; now left|reflexivity]. }
  apply xleb_Ff in L1. destruct (xltb (Fin tau) (Fin tm)) eqn:L2; cbn [raise_if bind].
  { apply xltb_F in L2. split; [intros _; now right|reflexivity]. }
  apply xltb_Ff in L2. split; [|intros [?|?]; lra]. intros E. exfalso. revert E.
  apply bind_not; [apply find_other|]. intros [[x1 y1] it]. apply bind_not.
  { unfold time_per_iteration. destruct fo; [|discriminate]. destruct (_ =? _)%Z; discriminate. }
  intros tpi. destruct (der_velocities _ _ _ _ _ _ _ _ _ _); discriminate.
Qed.

(** On the short way, when the root finder returns the root of that equation,
    der2011 answers "No feasible solution" exactly when there is none. *)
Theorem C48_der_refuses_infeasible :
  forall ev mu r1 r2 tof M prograde low_path maxiter atol rtol full_output x k,
  0 < mu -> 0 < tof -> vz (vcross r1 r2) <> 0 -> (1 <= M)%Z -> short_way prograde r1 r2 -> 0 < x < 1 ->
  let equation := @der_minimum_time_equation XR (Fin (sigma_of true r1 r2)) M in
  e_brentq ev (fun x => Ok (equation x)) der_eps (@nsub XR (nofZ 1) der_eps) (Fin atol) (Fin rtol) maxiter = Ok (Fin x, k) ->
  equation (Fin x) = Fin 0 ->
  (@run XR Der ev (call mu r1 r2 tof M prograde low_path maxiter atol rtol full_output)
     = Err (ValueError "No feasible solution, try lower M!") <->
   ~ feasible mu r1 r2 prograde M tof).
Proof.
  intros ev mu r1 r2 tof M p l mi at_ rt fo x k Hm Ht Hz HM Sh Hx eqn EB E. pose proof (vz_non_collinear _ _ Hz) as Hn.
  pose proof (der_run ev mu r1 r2 tof p l mi at_ rt fo M x k true Hm Ht Hz HM ltac:(tauto) Hx EB) as R. cbv zeta in R.
  destruct (sigma_facts p r1 r2 true Hn) as (Sr & LF & LS & Sb & _); [tauto|]. unfold eqn in E. set (sg := sigma_of true r1 r2) in *.
  pose proof (equation_root sg M x Sr Hx E) as D.
  destruct (shortest mu r1 r2 p M sg x Hm Hz HM LF LS Hx D) as (R0 & _ & S). set (rate := sqrt (2 * mu / _)) in *.
  unfold no_feasible in R. rewrite R. rewrite feasible_requested, S. rewrite (stationary_time sg M Sr x Hx D).
  pose proof (minimum_over_parabola sg Sr x Hx) as L.
  destruct (sgn_cases sg Sr) as [[-> W]|[-> W]]; [|exfalso; assert (0 < sg) by tauto; lra]. rewrite Rmult_1_l. lra.
Qed.
Print Assumptions C48_der_refuses_infeasible.

(** On the long way it does not: the time computed at the root is too short
    ([y] is negative there, and the formula wants its absolute value).  For every
    geometry and number of revolutions there are times of flight for which no
    transfer exists and which der2011 does not refuse, whatever root finder
    returns the root. *)
Theorem C48_der_long_way_refuted :
  forall mu r1 r2 M prograde, 0 < mu -> vz (vcross r1 r2) <> 0 -> (1 <= M)%Z -> ~ short_way prograde r1 r2 ->
  let equation := @der_minimum_time_equation XR (Fin (sigma_of false r1 r2)) M in
  exists x tof, 0 < x < 1 /\ equation (Fin x) = Fin 0 /\ 0 < tof /\ ~ feasible mu r1 r2 prograde M tof /\
  forall ev low_path maxiter atol rtol full_output k,
  e_brentq ev (fun x => Ok (equation x)) der_eps (@nsub XR (nofZ 1) der_eps) (Fin atol) (Fin rtol) maxiter = Ok (Fin x, k) ->
  @run XR Der ev (call mu r1 r2 tof M prograde low_path maxiter atol rtol full_output)
    <> Err (ValueError "No feasible solution, try lower M!").
Proof.
  intros mu r1 r2 M p Hm Hz HM Sh eqn. pose proof (vz_non_collinear _ _ Hz) as Hn.
  destruct (sigma_facts p r1 r2 false Hn) as (Sr & LF & LS & Sb & _); [split; [discriminate|tauto]|]. unfold eqn. set (sg := sigma_of false r1 r2) in *.
  pose proof (sg_bounds sg Sr) as Hl. destruct (mt_critical sg M Hl HM) as (x & Hx & D).
  destruct (shortest mu r1 r2 p M sg x Hm Hz HM LF LS Hx D) as (R0 & _ & S). set (rate := sqrt (2 * mu / _)) in *.
  pose proof (minimum_over_parabola sg Sr x Hx) as L. rewrite (stationary_time sg M Sr x Hx D) in S.
  destruct (sgn_cases sg Sr) as [[_ W]|[ES W]]; [exfalso; apply Sh; tauto|].
  destruct (Yf sg Sr x) as [Y0 _]. set (y := sqrt (1 - sg * sg * (1 - x * x))) in *.
  set (tp := 2 * (1 - sg * sg * sg) / 3) in *. set (tm := 2 * (/ x - sg * sg * sg / y) / 3) in *.
  set (tw := 2 * (/ x - sg * sg * sg / (-1 * y)) / 3).
  assert (LW : tw < tm).
  { unfold tw, tm. replace (sg * sg * sg / (-1 * y)) with (- (sg * sg * sg / y)) by (field; lra).
    assert (sg * sg * sg / y < 0); [|lra]. assert (0 < / y) by now apply Rinv_0_lt_compat. assert (sg * sg * sg < 0) by nra. unfold Rdiv. nra. }
  assert (Tp : 0 < tp) by (unfold tp; assert (sg * sg * sg < 0) by nra; lra).
  set (tau := (Rmax tp tw + tm) / 2). assert (M1 : tp <= Rmax tp tw) by apply Rmax_l. assert (M2 : tw <= Rmax tp tw) by apply Rmax_r.
  assert (M3 : Rmax tp tw < tm) by (apply Rmax_lub_lt; assumption).
  exists x, (tau / rate). split; [exact Hx|]. split; [rewrite minimum_equation_F by assumption; apply (f_equal Fin), (mt_h_sign sg M x Hx), D|].
  assert (T0 : 0 < tau / rate) by (apply Rdiv_lt_0_compat; [unfold tau; lra|assumption]). split; [exact T0|].
  assert (ER : rate * (tau / rate) = tau) by (field; lra).
  split; [rewrite feasible_requested, S, ER; unfold tau; lra|].
  intros ev l mi at_ rt fo k EB E.
  apply (der_run ev mu r1 r2 _ p l mi at_ rt fo M x k false Hm T0 Hz HM ltac:(split; [discriminate|tauto]) Hx EB) in E.
  fold rate in E. rewrite ER in E. fold sg in E. rewrite ES in E. fold y tp tw in E. unfold tau in E. lra.
Qed.
Print Assumptions C48_der_long_way_refuted.

(** The fallback takes Newton steps on the same equation with a derivative of the
    wrong sign: its value is positive, the equation's derivative negative. *)
Theorem C48_der_newton_refuted : forall (sigma : R) (M : Z) (x : R), 0 < sigma < 1 -> (1 <= M)%Z -> 0 < x < 1 ->
  exists (e : R -> R) (e' phi dphi : R),
    (forall z, 0 < z < 1 -> @der_minimum_time_equation XR (Fin sigma) M (Fin z) = Fin (e z)) /\ is_derive e x e' /\
    e' < 0 < dphi /\ phi = e x /\
    (forall atol rtol i, atol + rtol * IZR M * PI < Rabs phi -> 1 / 4503599627370496 < x - phi / dphi < 999999 / 1000000 ->
      @der_minimum_body XR (Fin sigma) M (Fin atol) (Fin rtol) i (Fin x) = Next (Fin (x - phi / dphi))).
Proof.
  intros sg M x Sg HM Hx. assert (Hs : 0 < sg * sg < 1) by nra. pose proof (sg_bounds sg Hs) as Hl.
  destruct (mt_h_derive sg M Hl x Hx) as (d & D & D0). destruct (Yf sg Hs x) as [Y0 Y1].
  pose proof (mt_factor sg Hl x Hx) as MF.
  set (y := sqrt (1 - sg * sg * (1 - x * x))) in *. cbv beta zeta in MF. fold y in MF.
  set (dphi := 2 * (1 - x * x) * (1 - sg ^ 5 * (x * x * x) / (y * y * y)) / (3 * (x * x))).
  exists (mt_h sg M), d, (mt_h sg M x), dphi.
  split; [intros z Hz; now apply minimum_equation_F|]. split; [exact D|]. split; [split; [exact D0|]|].
  { unfold dphi. replace (sg ^ 5) with (sg * sg * sg * sg * sg) by ring. set (f := 1 - _ / _) in *. apply Rdiv_lt_0_compat; [|nra]. apply Rmult_lt_0_compat; [nra|exact MF]. }
  split; [reflexivity|]. intros at_ rt i HA HB. unfold der_minimum_body. rewrite der_y_val by assumption. fold y.
  assert (E1 : sgn sg = 1) by (destruct (sgn_cases sg Hs) as [[-> ?]|[? ?]]; [reflexivity|lra]). rewrite E1, Rmult_1_l.
  rewrite minimum_equation_F by assumption.
  assert (EL : @nleb XR (@nabs XR (Fin (mt_h sg M x))) (@nadd XR (Fin at_) (@nmul XR (@nmul XR (Fin rt) (nofZ M)) npi)) = false).
  { change (xleb (Fin (Rabs (mt_h sg M x))) (Fin (at_ + rt * IZR M * PI)) = false). apply xleb_Ff. lra. }
  rewrite EL. 
  assert (ED : @ndiv XR (@nmul XR (@nmul XR (nofZ 2) (@nsub XR (nofZ 1) (@sq XR (Fin x)))) (@nsub XR (nofZ 1) (@ndiv XR (@nmul XR (@npown XR (Fin sg) 5) (@cube XR (Fin x))) (@cube XR (Fin y)))))
    (@nmul XR (nofZ 3) (@sq XR (Fin x))) = Fin dphi).
  { unfold npown, sq, cube. cbn [Nat.iter nat_rect]. xunf. cbn [xmul xsub xlift2].
    rewrite xdiv_F by (apply Rmult_integral_contrapositive; split; [nra|lra]). cbn [xmul xsub xlift2]. rewrite xdiv_F by nra.
    apply (f_equal Fin). unfold dphi. replace (sg ^ 5) with (1 * sg * sg * sg * sg * sg) by ring. unfold Rdiv. ring. }
  rewrite ED. assert (D1 : 0 < dphi).
  { unfold dphi. replace (sg ^ 5) with (sg * sg * sg * sg * sg) by ring. set (f := 1 - _ / _) in *. apply Rdiv_lt_0_compat; [|nra]. apply Rmult_lt_0_compat; [nra|exact MF]. }
  change (@ndiv XR (Fin (mt_h sg M x)) (Fin dphi)) with (xdiv (Fin (mt_h sg M x)) (Fin dphi)). rewrite xdiv_F by lra.
  change (@nsub XR (Fin x) (Fin (mt_h sg M x / dphi))) with (Fin (x - mt_h sg M x / dphi)).
  change (@der_eps XR) with (Fin (1 / 4503599627370496)). change (@nlit XR 999999 1000000) with (Fin (999999 / 1000000)).
  unfold pymin, pymax.
  repeat match goal with
    | |- context [@nltb XR (Fin ?a) (Fin ?b)] => change (@nltb XR (Fin a) (Fin b)) with (xltb (Fin a) (Fin b));
        first [replace (xltb (Fin a) (Fin b)) with true by (symmetry; apply xltb_F; lra)
              |replace (xltb (Fin a) (Fin b)) with false by (symmetry; apply xltb_Ff; lra)]
    end. reflexivity.
Qed.
Print Assumptions C48_der_newton_refuted.

(** Cases: a quarter turn plus one revolution, and three quarters plus one. *)
Example C48_case : exists ev x k,
  0 < 1 /\ vz (vcross ex_r1 ex_r2) <> 0 /\ (1 <= 1)%Z /\ short_way true ex_r1 ex_r2 /\ ~ short_way false ex_r1 ex_r2 /\ 0 < x < 1 /\
  0 < sigma_of true ex_r1 ex_r2 < 1 /\
  @der_minimum_time_equation XR (Fin (sigma_of true ex_r1 ex_r2)) 1 (Fin x) = Fin 0 /\
  e_brentq ev (fun x => Ok (@der_minimum_time_equation XR (Fin (sigma_of true ex_r1 ex_r2)) 1 x))
    der_eps (@nsub XR (nofZ 1) der_eps) (Fin 0) (Fin 0) 35 = Ok (Fin x, k) /\
  (exists T, 0 < T /\ feasible 1 ex_r1 ex_r2 true 1 T) /\ (exists T, 0 < T /\ ~ feasible 1 ex_r1 ex_r2 true 1 T).
Proof.
  pose proof ex_non_collinear as Hn.
  assert (Sh : short_way true ex_r1 ex_r2) by (unfold short_way, vcross, ex_r1, ex_r2; cbn [vx vy vz]; lra).
  assert (Hz : vz (vcross ex_r1 ex_r2) <> 0) by (unfold vcross, ex_r1, ex_r2; cbn [vx vy vz]; lra).
  destruct (sigma_facts true ex_r1 ex_r2 true Hn ltac:(tauto)) as (Sr & LF & LS & Sb & _). set (sg := sigma_of true ex_r1 ex_r2) in *.
  pose proof (sg_bounds sg Sr) as Hl. destruct (mt_critical sg 1 Hl ltac:(lia)) as (x & Hx & D).
  exists (@Env XR (fun _ => Fin 0) 1 (fun _ _ _ _ _ _ => Ok (Fin x, 1%Z)) (fun _ _ _ _ => Err (ValueError ""))), x, 1%Z.
  split; [lra|]. split; [exact Hz|]. split; [lia|]. split; [exact Sh|].
  split; [unfold short_way, vcross, ex_r1, ex_r2; cbn [vx vy vz]; lra|]. split; [exact Hx|].
  split; [split; [tauto|lra]|].
  split; [rewrite minimum_equation_F by assumption; apply (f_equal Fin), (mt_h_sign sg 1 x Hx), D|].
  split; [reflexivity|].
  destruct (shortest 1 ex_r1 ex_r2 true 1 sg x ltac:(lra) Hz ltac:(lia) LF LS Hx D) as (R0 & _ & S).
  set (rate := sqrt (2 * 1 / _)) in *. pose proof (mt_lower sg 1 Hl ltac:(lia) x ltac:(lra)) as L.
  assert (P : 0 < / (1 - x * x)) by (apply Rinv_0_lt_compat; nra). set (T := izzo_T sg 1 x) in *.
  split; [exists (T / rate)|exists (T / 2 / rate)]; (split; [apply Rdiv_lt_0_compat; lra|]); rewrite feasible_requested, S; fold T.
  - replace (rate * (T / rate)) with T by (field; lra). lra.
  - replace (rate * (T / 2 / rate)) with (T / 2) by (field; lra). lra.
Qed.

(** A root finder that meets the contract: it returns [x] when that is a root in
    the interval and otherwise gives up. *)
Definition brentq_at (x : R) : @env XR :=
  @Env XR (fun _ => Fin 0) 1
    (fun f lo hi xtol rtol _ =>
       if @nltb XR xtol (nofZ 0) || @nltb XR rtol (nofZ 0) || @nltb XR (Fin x) lo || @nltb XR hi (Fin x) then Err (ValueError "")
       else match f (Fin x) with
            | Ok v => if @neqb XR v (nofZ 0) then Ok (Fin x, 1%Z) else Err (ValueError "")
            | Err e => Err e
            end)
    (fun _ _ _ _ => Err (ValueError "")).
Lemma brentq_at_brackets x : brentq_brackets (brentq_at x).
Proof.
  intros f g lo hi xt rt n y k Hlh HF H. cbn [e_brentq brentq_at] in H.
  destruct (@nltb XR (Fin xt) (nofZ 0)) eqn:E1; [discriminate|]. destruct (@nltb XR (Fin rt) (nofZ 0)) eqn:E2; [discriminate|].
  destruct (@nltb XR (Fin x) (Fin lo)) eqn:E3; [discriminate|]. destruct (@nltb XR (Fin hi) (Fin x)) eqn:E4; [discriminate|].
  apply xltb_Ff in E1, E2, E3, E4. cbn [orb] in H. rewrite (HF x) in H by lra.
  destruct (@neqb XR (Fin (g x)) (nofZ 0)) eqn:E; [|discriminate]. apply xeqb_F in E. apply Ok_inj in H.
  assert (y = Fin x) by congruence. subst y. exists x, x. split; [reflexivity|]. split; [lra|]. split; [lra|].
  split; [|rewrite E; lra]. rewrite Rminus_diag_eq, Rabs_R0 by reflexivity.
  assert (0 <= rt * Rabs x) by (apply Rmult_le_pos; [lra|apply Rabs_pos]). lra.
Qed.

(** The case of [C47_der_solves_lambert]: a quarter turn plus one revolution in
    the time for which the first guess is exact. *)
Example C47_case : exists ev tof o v1 v2,
  brentq_brackets ev /\ non_collinear ex_r1 ex_r2 /\
  (1%Z = 0%Z -> ~ near_parabolic 1 true ex_r1 ex_r2 tof 0 0) /\
  @run XR Der ev (call 1 ex_r1 ex_r2 tof 1 true true 35 0 0 true) = Ok o /\
  delivers o v1 v2.
Proof.
  pose proof ex_non_collinear as Hn. destruct (norms_pos _ _ Hn) as [N1 N2]. pose proof (chord_pos _ _ Hn) as Hc. destruct (triangle _ _ Hn) as (Tr & _ & _).
  assert (Sh : short_way true ex_r1 ex_r2) by (unfold short_way, vcross, ex_r1, ex_r2; cbn [vx vy vz]; lra).
  assert (Hz : vz (vcross ex_r1 ex_r2) <> 0) by (unfold vcross, ex_r1, ex_r2; cbn [vx vy vz]; lra).
  destruct (sigma_facts true ex_r1 ex_r2 true Hn ltac:(tauto)) as (Sr & LF & LS & Sb & th & ET & F & ES). set (sg := sigma_of true ex_r1 ex_r2) in *.
  pose proof (sg_bounds sg Sr) as Hl. destruct (mt_critical sg 1 Hl ltac:(lia)) as (x & Hx & D).
  pose proof (minimum_over_parabola sg Sr x Hx) as LP. pose proof (stationary_time sg 1 Sr x Hx D) as ST.
  assert (LM : izzo_T sg 1 x <= izzo_T sg 1 (1 / 2)).
  { destruct (Req_dec (1 / 2) x) as [-> |N]; [lra|]. left. apply mt_minimum; auto; try lia; lra. }
  set (t := izzo_T sg 1 (1 / 2)) in *.
  pose proof (rate_pos 1 ex_r1 ex_r2 ltac:(lra) Hz) as R0. set (rate := sqrt (2 * 1 / _)) in *.
  assert (Tp : 0 < t).
  { eapply Rlt_le_trans; [|unfold t; apply mt_lower; auto; try lia; lra]. apply Rinv_0_lt_compat. lra. }
  assert (HT : 0 < t / rate) by now apply Rdiv_lt_0_compat.
  destruct (@der_velocities XR (Fin 1) (vfin ex_r1) (vfin ex_r2) (Fin (vnorm ex_r1)) (Fin (vnorm ex_r2))
    (Fin (chord ex_r1 ex_r2)) (Fin (vnorm ex_r1 + vnorm ex_r2 + chord ex_r1 ex_r2)) (Fin (vnorm ex_r1 + vnorm ex_r2 - chord ex_r1 ex_r2)) (Fin (1 / 2)) (@der_y XR (Fin sg) (Fin (1 / 2))))
    as [w1 w2] eqn:EV.
  assert (W : exists v1 v2, w1 = vfin v1 /\ w2 = vfin v2).
  { rewrite der_y_val in EV by assumption. set (y := sgn sg * _) in EV. clearbody y. unfold der_velocities in EV.
    set (m := vnorm ex_r1 + vnorm ex_r2 + chord ex_r1 ex_r2) in *. set (n := vnorm ex_r1 + vnorm ex_r2 - chord ex_r1 ex_r2) in *.
    assert (Hm : 0 < m) by (unfold m; lra). assert (Hnn : 0 < n) by (unfold n; lra).
    pose proof (sqrt_lt_R0 _ Hm) as QM. pose proof (sqrt_lt_R0 _ Hnn) as QN.
    rewrite !vsub_F, !vdivs_F in EV by lra.
    change (@nsqrt XR (Fin m)) with (xsqrt (Fin m)) in EV. change (@nsqrt XR (Fin n)) with (xsqrt (Fin n)) in EV.
    change (@nsqrt XR (Fin 1)) with (xsqrt (Fin 1)) in EV.
    rewrite !xsqrt_F in EV by lra.
    change (@ndiv XR (Fin y) (Fin (sqrt n))) with (xdiv (Fin y) (Fin (sqrt n))) in EV.
    change (@ndiv XR (Fin (1 / 2)) (Fin (sqrt m))) with (xdiv (Fin (1 / 2)) (Fin (sqrt m))) in EV.
    rewrite !xdiv_F in EV by lra.
    change (@nmul XR (Fin (sqrt 1)) (@nadd XR (Fin (y / sqrt n)) (Fin (1 / 2 / sqrt m))))
      with (Fin (sqrt 1 * (y / sqrt n + 1 / 2 / sqrt m))) in EV.
    change (@nmul XR (Fin (sqrt 1)) (@nsub XR (Fin (y / sqrt n)) (Fin (1 / 2 / sqrt m))))
      with (Fin (sqrt 1 * (y / sqrt n - 1 / 2 / sqrt m))) in EV.
    rewrite !vscale_F, vadd_F, vsub_F in EV.
    apply pair_equal_spec in EV. destruct EV as [<- <-]. eauto. }
  destruct W as (v1 & v2 & -> & ->).
  destruct (@tpi_ok XR (e_clock (brentq_at x)) true 1 ltac:(lia)) as [tp Et].
  exists (brentq_at x), (t / rate), (@mk_out XR true (vfin v1) (vfin v2) 1 tp), v1, v2.
  split; [apply brentq_at_brackets|]. split; [exact Hn|]. split; [discriminate|]. split; [|split; reflexivity].
  cbn [run]. unfold der2011. rewrite validated_call_ok.
  2:{ split; [lra|]. split; [|split; [|split; [exact HT|lia]]].
      - intros E. apply (f_equal vx) in E. cbn [vx ex_r1 vzero] in E. lra.
      - intros E. apply (f_equal vx) in E. cbn [vx ex_r1 ex_r2] in E. lra. }
  cbn [a_mu a_r1 a_r2 a_tof a_M a_is_prograde a_is_low_path a_maxiter a_atol a_rtol a_full_output call].
  rewrite !vsub_F, !norm_F, ET. fold (chord ex_r1 ex_r2).
  destruct F as [F1 F2 F3 F4 F5 F6 F7 F8 F9].
  unfold assert_transfer_angle_not_zero, assert_transfer_angle_not_pi.
  replace (@neqb XR (Fin th) (nofZ 0)) with false by (symmetry; apply xeqb_Ff; lra).
  replace (@neqb XR (Fin th) npi) with false by (symmetry; apply xeqb_Ff; assumption).
  cbn [bind].
  change (@nadd XR (@nadd XR (Fin (vnorm ex_r1)) (Fin (vnorm ex_r2))) (Fin (chord ex_r1 ex_r2))) with (Fin (vnorm ex_r1 + vnorm ex_r2 + chord ex_r1 ex_r2)).
  change (@nsub XR (@nadd XR (Fin (vnorm ex_r1)) (Fin (vnorm ex_r2))) (Fin (chord ex_r1 ex_r2)))
    with (Fin (vnorm ex_r1 + vnorm ex_r2 - chord ex_r1 ex_r2)).
  rewrite ES, tau_val by (assumption || lra). fold rate. replace (rate * (t / rate)) with t by (field; lra).
  assert (ETp : @der_parabolic_time XR (Fin sg) = Fin (2 * (1 - sg * sg * sg) / 3)).
  { unfold der_parabolic_time, cube. xunf. cbn [xsub xmul xlift2]. now rewrite xdiv_F by lra. }
  assert (EM : @der_minimum_time XR (brentq_at x) (Fin sg) 1 35 (Fin 0) (Fin 0) = Ok (Fin (izzo_T sg 1 x))).
  { unfold der_minimum_time. cbn [e_brentq brentq_at].
    assert (E1 : (@nltb XR (Fin 0) (nofZ 0) || @nltb XR (Fin 0) (nofZ 0) || @nltb XR (Fin x) der_eps || @nltb XR (@nsub XR (nofZ 1) der_eps) (Fin x)) = false).
    { assert (E0 : @nltb XR (Fin 0) (nofZ 0) = false) by (apply xltb_Ff; lra). rewrite !E0. cbn [orb]. apply orb_false_iff.
      destruct (minimum_bracket sg 1 Sr ltac:(lia) ltac:(lia)) as (e1 & e2 & B1 & B2 & B3 & B4).
      { pose proof (lf_sq _ _ _ _ LF) as L2. assert (Sq : sg * sg <= 1 / 2).
        { unfold sg, sigma_of. rewrite sqrt_sqrt; [|apply Rlt_le, Rdiv_lt_0_compat; unfold chord in *; lra].
          assert (M1 : vnorm ex_r1 = 1) by (unfold vnorm, vdot, ex_r1; cbn [vx vy vz]; replace (1 * 1 + 0 * 0 + 0 * 0) with 1 by ring; apply sqrt_1).
          assert (M2 : vnorm ex_r2 = 1) by (unfold vnorm, vdot, ex_r2; cbn [vx vy vz]; replace (0 * 0 + 1 * 1 + 0 * 0) with 1 by ring; apply sqrt_1).
          assert (C1 : 1 <= vnorm (vminus ex_r2 ex_r1)).
          { unfold vnorm, vdot, vminus, ex_r1, ex_r2. cbn [vx vy vz]. rewrite <- sqrt_1 at 1. apply sqrt_le_1; lra. }
          rewrite M1, M2. apply Rmult_le_reg_r with (1 + 1 + vnorm (vminus ex_r2 ex_r1)); [lra|]. unfold Rdiv at 1. rewrite Rmult_assoc, Rinv_l by lra. lra. }
        lra. }
      change (@der_eps XR) with (Fin (1 / 4503599627370496)) in *. change (@nsub XR (nofZ 1) (Fin (1 / 4503599627370496))) with (Fin (1 - 1 / 4503599627370496)) in *.
      rewrite minimum_equation_F in B1, B3 by (assumption || lra). injection B1 as B1. injection B3 as B3.
      assert (E : mt_h sg 1 x = 0) by (apply (mt_h_sign sg 1 x Hx), D).
      split; apply xltb_Ff.
      - destruct (Rle_lt_dec (1 / 4503599627370496) x) as [|L]; [assumption|exfalso]. pose proof (mt_h_decreasing sg 1 Hl x (1 / 4503599627370496) ltac:(lra) L ltac:(lra)). lra.
      - destruct (Rle_lt_dec x (1 - 1 / 4503599627370496)) as [|L]; [assumption|exfalso]. pose proof (mt_h_decreasing sg 1 Hl (1 - 1 / 4503599627370496) x ltac:(lra) L ltac:(lra)). lra. }
    rewrite E1. rewrite minimum_equation_F by assumption. rewrite (proj2 (proj1 (mt_h_sign sg 1 x Hx)) D).
    assert (E2 : @neqb XR (Fin 0) (nofZ 0) = true) by (apply xeqb_F; reflexivity). rewrite E2.
    rewrite time_at_minimum_F by assumption. rewrite ST. destruct (sgn_cases sg Sr) as [[-> L]|[_ L]]; [now rewrite Rmult_1_l|exfalso; assert (0 < sg) by tauto; lra]. }
  rewrite EM, ETp. cbn [bind Z.ltb Z.compare andb].
  change (@nleb XR (Fin t) (Fin (2 * (1 - sg * sg * sg) / 3))) with (xleb (Fin t) (Fin (2 * (1 - sg * sg * sg) / 3))).
  change (@nltb XR (Fin t) (Fin (izzo_T sg 1 x))) with (xltb (Fin t) (Fin (izzo_T sg 1 x))).
  rewrite (proj2 (xleb_Ff _ _)) by lra. rewrite (proj2 (xltb_Ff _ _)) by lra. cbn [raise_if bind].
  unfold der_find_path_parameter. cbn [Z.eqb andb Z.ltb Z.compare orb].
  unfold der_solve_elliptic. change (Z.to_nat 35) with (S 34). cbn [for_range].
  unfold der_elliptic_body at 1. change (@nlit XR 1 2) with (Fin (1 / 2)).
  rewrite (der_tof_elliptic_F sg Sr) by lra. rewrite <- (mt_T sg 1 Hl (1 / 2)) by lra. fold t.
  assert (EB : @nleb XR (@nabs XR (@nsub XR (Fin t) (Fin t))) (@nadd XR (Fin 0) (@nmul XR (Fin 0) (@nabs XR (Fin t)))) = true).
  { xunf. cbn [xsub xadd xmul xabs xlift2 xlift1]. apply xleb_F. rewrite Rminus_diag_eq, Rabs_R0 by reflexivity. pose proof (Rabs_pos t). lra. }
  rewrite EB. cbn [bind]. rewrite Et. cbn [bind]. rewrite EV. reflexivity.
Qed.
