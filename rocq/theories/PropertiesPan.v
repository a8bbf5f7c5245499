(** * C55: pan2016's time of flight is the time of the transfer it returns. *)
From Coq Require Import Reals ZArith String List Bool Lra Lia Psatz.
From Coquelicot Require Import Coquelicot.
From Verif Require Import Num XReal XRealLemmas MApi ApiFacts MScipy MLinalg MAssertions MAngles MVallado MPan MInit
  Loops Spec SpecLambert VecFacts VecXR AnglesXR CallXR Godal GodalXR GodalPan OrbitXR UniversalKepler KeplerXR PropertiesKepler
  PropertiesMotion PropertiesAngles KeplerTime PanTime.
Local Open Scope R_scope.

(** The eccentricity of the conic through [r] with velocity [v]. *)
Definition orbit_ecc (mu : R) (r v : rvec) : R := vnorm (ecc_vector mu r v).

(** The band of eccentricities for which pan.py:298 uses its parabolic formula
    (wrong by a factor, see C40). *)
Definition near_parabolic (e : R) : Prop := 1 <= e <= 1 + 1 / 100000000 + 1 / 100000.

Lemma conic_ecc P Q mu q e f : vdot P P = 1 -> vdot Q Q = 1 -> vdot P Q = 0 -> 0 < mu -> 0 < q -> 0 <= e -> 0 < 1 + e * cos f ->
  orbit_ecc mu (conic_r P Q q e f) (conic_v P Q mu q e f) = e.
Proof.
  intros HP HQ HPQ Hm Hq He Hd. pose proof (sin2_cos2 f) as T. unfold Rsqr in T.
  destruct (sqrt_pos_facts (mu / q)) as [S0 S]; [now apply Rdiv_lt_0_compat|].
  assert (N : vnorm (conic_r P Q q e f) = q / (1 + e * cos f)).
  { apply (planar_norm P Q HP HQ HPQ); [left; now apply Rdiv_lt_0_compat|].
    transitivity (q / (1 + e * cos f) * (q / (1 + e * cos f)) * (sin f * sin f + cos f * cos f)); [ring|rewrite T; ring]. }
  assert (E : ecc_vector mu (conic_r P Q q e f) (conic_v P Q mu q e f) = planar P Q e 0).
  { unfold ecc_vector. rewrite N. unfold conic_r, conic_v.
    set (x := q / (1 + e * cos f) * cos f). set (y := q / (1 + e * cos f) * sin f). set (u := - (sqrt (mu / q) * sin f)). set (w := sqrt (mu / q) * (e + cos f)).
    assert (CC : vcross (planar P Q u w) (vcross (planar P Q x y) (planar P Q u w)) = planar P Q ((x * w - y * u) * w) (- ((x * w - y * u) * u))).
    { replace (vcross (planar P Q u w) (vcross (planar P Q x y) (planar P Q u w)))
        with (vminus (vmult (vdot (planar P Q u w) (planar P Q u w)) (planar P Q x y)) (vmult (vdot (planar P Q x y) (planar P Q u w)) (planar P Q u w)))
        by (apply vec_eq; vunf; ring).
      rewrite !(planar_dot P Q HP HQ HPQ). unfold planar. apply vec_eq; vunf; ring. }
    assert (H : x * w - y * u = q * sqrt (mu / q)).
    { unfold x, y, w, u. transitivity (q * sqrt (mu / q) * (sin f * sin f + cos f * cos f + e * cos f) / (1 + e * cos f)); [field; lra|]. rewrite T. field. lra. }
    assert (HW : (x * w - y * u) * w = mu * (e + cos f)) by (rewrite H; unfold w; transitivity (q * (sqrt (mu / q) * sqrt (mu / q)) * (e + cos f)); [ring|rewrite S; field; lra]).
    assert (HU : - ((x * w - y * u) * u) = mu * sin f) by (rewrite H; unfold u; transitivity (q * (sqrt (mu / q) * sqrt (mu / q)) * sin f); [ring|rewrite S; field; lra]).
    rewrite CC, HW, HU. unfold x, y, planar. apply vec_eq; vunf; field; lra. }
  unfold orbit_ecc. rewrite E. apply (planar_norm P Q HP HQ HPQ); [exact He|ring].
Qed.

Lemma pan_close_one e : 1 <= e -> ~ near_parabolic e -> @pan_isclose XR (Fin e) (Fin 1) = false.
Proof.
  intros H1 H. unfold pan_isclose, np_isclose. xunf. cbn [xsub xmul xadd xabs xlift2 xlift1]. apply xleb_Ff.
  rewrite Rabs_R1, Rabs_pos_eq by lra. unfold near_parabolic in H. destruct (Rle_dec e (1 + 1 / 100000000 + 1 / 100000)); [exfalso; apply H; lra|lra].
Qed.

(** For every argument of periapsis: the computed time of flight is exactly the
    time the returned velocities take from [r1] to [r2], without a full revolution. *)
Theorem C55_pan_time_partial : forall mu prograde r1 r2 omega th elements t v1 v2,
  non_collinear r1 r2 -> 0 < mu ->
  @get_transfer_angle XR (vfin r1) (vfin r2) prograde = Fin th ->
  let g := @pan_planar_geometry XR (vfin r1) (vfin r2) (Fin th) prograde in
  @pan_elements XR g omega = Ok elements ->
  @pan_tof_from_elements XR (Fin mu) elements = Ok t ->
  @pan_velocities XR (Fin mu) g elements = Ok (vfin v1, vfin v2) ->
  ~ near_parabolic (orbit_ecc mu r1 v1) ->
  exists T, t = Fin T /\ lambert_solution mu r1 v1 r2 v2 T 0.
Proof.
  intros mu p r1 r2 omega th el t v1 v2 Hn Hm ET g HE HT HV NP.
  destruct (transfer_angle r1 r2 p Hn) as (th' & ET' & F). rewrite ET in ET'. injection ET' as <-.
  apply (pan_time_is_transfer mu p r1 r2 th omega el t v1 v2); try assumption.
  destruct (pan_elements_facts mu p r1 r2 th omega el t v1 v2 Hn Hm F HE HT HV) as (a & e & om & f1 & f2 & q & -> & E0 & EN & Q & QP & D1 & D2 & R1 & R2 & V1 & V2).
  destruct (pan_PQ p r1 r2 om Hn) as (HP & HQ & HPQ).
  intros a' e' om' f1' f2' EQ L1. injection EQ as <- <- <- <- <-. apply pan_close_one; [exact L1|].
  rewrite R1, V1 in NP. rewrite conic_ecc in NP; assumption.
Qed.
Print Assumptions C55_pan_time_partial.

(** A completed run either is the fallback to vallado2013 or returns the exact
    solution of Lambert's problem for a time [T] whose difference from the
    requested one is the residual at the argument of periapsis found. *)
Theorem C55_pan_run_partial : forall ev mu r1 r2 tof M prograde low_path maxiter atol rtol full_output o v1 v2,
  non_collinear r1 r2 -> brentq_evaluates ev ->
  let c := call mu r1 r2 tof M prograde low_path maxiter atol rtol full_output in
  @run XR Pan ev c = Ok o -> delivers o v1 v2 ->
  ~ near_parabolic (orbit_ecc mu r1 v1) ->
  @run XR Vallado ev c = Ok o \/
  exists th omega it T,
    @get_transfer_angle XR (vfin r1) (vfin r2) prograde = Fin th /\
    let g := @pan_planar_geometry XR (vfin r1) (vfin r2) (Fin th) prograde in
    @pan_find_omega XR ev (Fin mu) g (Fin tof) maxiter (Fin atol) (Fin rtol) = Ok (omega, it) /\
    @pan_residual XR (Fin mu) g (Fin tof) omega = Ok (Fin (T - tof)) /\
    lambert_solution mu r1 v1 r2 v2 T 0.
Proof.
  intros ev mu r1 r2 tof M p low mi atol rtol full o v1 v2 Hn HB c H D NP. unfold run in *.
  unfold pan2016, c in H. skip_check H. pose proof H as H0. enter H.
  destruct (transfer_angle r1 r2 p Hn) as (th & ET & F). rewrite ET in H.
  do 2 skip_check H.
  destruct (np_isclose _ _ _ _); [left; exact H|].
  set (g := pan_planar_geometry _ _ _ _) in H.
  destruct (pan_find_omega _ _ _ _ _ _ _) as [[omega it]|e] eqn:EO.
  2:{ left. destruct e; try discriminate H; exact H. }
  destruct (pan_root_evaluates _ _ _ _ _ _ _ _ _ HB EO) as [t RT]. pose proof RT as RR.
  unfold pan_residual, pan_tof_at_omega in RT.
  apply tpi_inv in H. destruct H as (tpi & H & _).
  apply bind_ok in H. destruct H as (el & EL & H). rewrite EL in RT. cbn [bind] in RT.
  apply bind_ok in RT. destruct RT as (t' & RT & RS).
  apply bind_ok in H. destruct H as ([w1 w2] & EV & H).
  destruct (delivers_inv _ _ _ _ _ _ _ _ H D) as [-> ->].
  destruct (C55_pan_time_partial mu p r1 r2 omega th el t' v1 v2 Hn Hmu ET EL RT EV NP) as (T & -> & LS).
  right. exists th, omega, it, T. split; [exact ET|]. split; [exact EO|]. split; [|exact LS].
  fold g. rewrite RR. symmetry. exact RS.
Qed.
Print Assumptions C55_pan_run_partial.

(** The ellipse of eccentricity one half from its parameter to its apocentre. *)
Example C55_case : let r1 := V3 1 0 0 in let r2 := V3 0 2 0 in exists th elements t v1 v2,
  non_collinear r1 r2 /\ @get_transfer_angle XR (vfin r1) (vfin r2) true = Fin th /\
  let g := @pan_planar_geometry XR (vfin r1) (vfin r2) (Fin th) true in
  @pan_elements XR g (Fin (- (PI / 2))) = Ok elements /\
  @pan_tof_from_elements XR (Fin 1) elements = Ok t /\
  @pan_velocities XR (Fin 1) g elements = Ok (vfin v1, vfin v2) /\
  ~ near_parabolic (orbit_ecc 1 r1 v1) /\ vdot v1 v1 = 5 / 4.
Proof.
  intros r1 r2. assert (Hn : non_collinear r1 r2) by (intros Z; apply (f_equal vz) in Z; unfold r1, r2 in Z; vunf; lra).
  assert (N1 : vnorm r1 = 1). { unfold vnorm. replace (vdot r1 r1) with 1 by (unfold r1; vunf; ring). apply sqrt_1. }
  assert (N2 : vnorm r2 = 2). { unfold vnorm. replace (vdot r2 r2) with (2 * 2) by (unfold r2; vunf; ring). apply sqrt_square; lra. }
  assert (N3 : vnorm (vcross r1 r2) = 2). { unfold vnorm. replace (vdot (vcross r1 r2) (vcross r1 r2)) with (2 * 2) by (unfold r1, r2; vunf; ring). apply sqrt_square; lra. }
  destruct (transfer_angle r1 r2 true Hn) as (th & ET & F). pose proof (angle_sin _ _ _ _ Hn F) as S.
  assert (W : way true r1 r2 = 1) by (unfold way; destruct (short_way_dec true r1 r2) as [_|L]; [reflexivity|exfalso; apply L; unfold short_way, r1, r2; vunf; lra]).
  rewrite N1, N2, N3, W in S. assert (ST : sin th = 1) by lra. clear S.
  assert (CT : cos th = 0). { pose proof (sin2_cos2 th) as T. unfold Rsqr in T. rewrite ST in T. nra. }
  set (f1 := Ratan2 0 1 - - (PI / 2)). set (f2 := Ratan2 (2 * 1) (2 * 0) - - (PI / 2)).
  set (ix := vmult (/ 1) r1). set (iy := vcross (vmult (1 / 2) (vcross r1 r2)) ix).
  assert (G : @pan_planar_geometry XR (vfin r1) (vfin r2) (Fin th) true = @PanGeometry XR (Fin 1) (Fin 2) (Fin th) (vfin ix) (vfin iy)
     (Fin 1) (Fin 0) (Fin (2 * 0)) (Fin (2 * 1)) (Fin (2 * 0 - 1)) (Fin (2 * 1 - 0))).
  { unfold pan_planar_geometry. rewrite !norm_F, !vdivs_F by lra. rewrite orbit_normal_F by assumption. fold (way true r1 r2). rewrite cross_F.
    unfold ix, iy. rewrite <- N1, <- N2 at 1. fold ix. rewrite N1, N2, W, N3. xunf. cbn [xmul xsub xlift2 xlift1]. rewrite ST, CT. reflexivity. }
  assert (PE : @pan_elements XR (@pan_planar_geometry XR (vfin r1) (vfin r2) (Fin th) true) (Fin (- (PI / 2))) = Ok (Fin (4 / 3), Fin (1 / 2), Fin (- (PI / 2)), Fin f1, Fin f2)).
  { rewrite G. unfold pan_elements. cbn [pg_r1_norm pg_r2_norm pg_x1 pg_y1 pg_x2 pg_y2 pg_xc pg_yc].
    unfold pan_isclose, np_isclose. xunf. cbn [xmul xadd xsub xlift2 xlift1].
    rewrite cos_neg, sin_neg, cos_PI2, sin_PI2.
    replace ((2 * 0 - 1) * 0 + (2 * 1 - 0) * - (1)) with (-2) by ring.
    replace ((1 - 2) * (1 - 2) - -2 * -2) with (-3) by ring.
    assert (Z2 : xleb (Fin (Rabs (-2 - 0))) (Fin (1 / 100000000 + 1 / 100000 * Rabs 0)) = false) by (apply xleb_Ff; rewrite Rabs_R0, Rabs_left by lra; lra).
    assert (Z3 : xleb (Fin (Rabs (-3 - 0))) (Fin (1 / 100000000 + 1 / 100000 * Rabs 0)) = false) by (apply xleb_Ff; rewrite Rabs_R0, Rabs_left by lra; lra).
    cbn [xabs xlift1]. rewrite Z2, (xdiv_F (1 - 2)) by lra.
    assert (Z4 : xltb (Fin ((1 - 2) / -2)) (Fin 0) = false) by (apply xltb_Ff; lra). rewrite Z4, Z3, xdiv_F by lra.
    cbn [xisfinite negb orb].
    match goal with |- Ok (Fin ?x, Fin ?y, _, _, _) = _ => replace x with (4 / 3) by field; replace y with (1 / 2) by field end. reflexivity. }
  assert (PT : exists t, @pan_tof_from_elements XR (Fin 1) (Fin (4 / 3), Fin (1 / 2), Fin (- (PI / 2)), Fin f1, Fin f2) = Ok t).
  { unfold pan_tof_from_elements. xunf. assert (Z1 : xltb (Fin (1 / 2)) (Fin 1) = true) by (apply xltb_F; lra).
    assert (Z2 : xleb (Fin (4 / 3)) (Fin 0) = false) by (apply xleb_Ff; lra). rewrite Z1, Z2. eexists. reflexivity. }
  assert (PV : exists v1 v2, @pan_velocities XR (Fin 1) (@pan_planar_geometry XR (vfin r1) (vfin r2) (Fin th) true) (Fin (4 / 3), Fin (1 / 2), Fin (- (PI / 2)), Fin f1, Fin f2) = Ok (vfin v1, vfin v2)).
  { rewrite G. unfold pan_velocities. cbn [pg_i_x pg_i_y]. xunf. cbn [xmul xsub xadd xlift2].
    replace (4 / 3 * (1 - 1 / 2 * (1 / 2))) with 1 by field.
    assert (Z1 : xleb (Fin 1) (Fin 0) = false) by (apply xleb_Ff; lra). rewrite Z1, Z1, xdiv_F, xsqrt_F by lra.
    cbn [xmul xsub xadd xopp xlift1 xlift2]. rewrite !vscale_F, !vadd_F. eexists _, _. reflexivity. }
  destruct PT as [t PT]. destruct PV as (v1 & v2 & PV).
  exists th, (Fin (4 / 3), Fin (1 / 2), Fin (- (PI / 2)), Fin f1, Fin f2), t, v1, v2.
  split; [exact Hn|]. split; [exact ET|]. split; [exact PE|]. split; [exact PT|]. split; [exact PV|].
  destruct (pan_elements_facts 1 true r1 r2 th _ _ t v1 v2 Hn Rlt_0_1 F PE PT PV) as (a & e & om & f1' & f2' & q & EQ & E0 & EN & Q & QP & D1 & D2 & R1 & R2 & V1 & V2).
  destruct (pan_PQ true r1 r2 om Hn) as (HP & HQ & HPQ). injection EQ as <- <- <- <- <-.
  assert (q = 1) by lra. subst q. rewrite R1, V1 at 1. rewrite conic_ecc by (assumption || lra). split; [unfold near_parabolic; lra|].
  rewrite V1. unfold conic_v. rewrite (planar_dot _ _ HP HQ HPQ). replace (1 / (4 / 3 * (1 - 1 / 2 * (1 / 2)))) with 1 by field. rewrite sqrt_1.
  destruct (Ratan2_scaled 1 0 Rlt_0_1) as [A1 B1]. rewrite sin_0, cos_0, Rmult_0_r, Rmult_1_r in A1, B1.
  unfold f1. rewrite cos_minus, sin_minus, cos_neg, sin_neg, cos_PI2, sin_PI2, A1, B1. field.
Qed.

(** ** Inside the band the time is wrong *)
Lemma artanh_lower w : 0 < w < 1 -> w + w * w * w / 3 < artanh w.
Proof.
  intros Hw.
  assert (DV : forall x, 0 <= x <= w -> derivable_pt_lim (fun x => artanh x - (x + x * x * x / 3)) x (/ (1 - x * x) - (1 + x * x))).
  { intros x Hx. apply is_derive_Reals. unfold artanh. assert (0 < (1 + x) * / (1 - x)) by (apply Rmult_lt_0_compat; [lra|apply Rinv_0_lt_compat; lra]).
    auto_derive; [split; [lra|split; [exact H|exact I]]|]. field. repeat split; nra. }
  destruct (MVT_cor2 _ _ 0 w ltac:(lra) DV) as (c & E & Hc).
  rewrite artanh_0 in E. assert (P0 : 0 < / (1 - c * c) - (1 + c * c)).
  { assert (0 < 1 - c * c) by nra. replace (/ (1 - c * c) - (1 + c * c)) with (c * c * (c * c) / (1 - c * c)) by (field; lra).
    apply Rdiv_lt_0_compat; [|assumption]. assert (0 < c * c) by nra. nra. }
  assert (0 < (/ (1 - c * c) - (1 + c * c)) * (w - 0)) by (apply Rmult_lt_0_compat; lra). lra.
Qed.

(** From pericentre a quarter turn on, on the hyperbola of eccentricity [250001/249999]. *)
Theorem C55_pan_band_refuted : let r1 := V3 (249999 / 500000) 0 0 in let r2 := V3 0 1 0 in exists th elements t v1 v2 T,
  non_collinear r1 r2 /\ @get_transfer_angle XR (vfin r1) (vfin r2) true = Fin th /\
  let g := @pan_planar_geometry XR (vfin r1) (vfin r2) (Fin th) true in
  @pan_elements XR g (Fin 0) = Ok elements /\
  @pan_tof_from_elements XR (Fin 1) elements = Ok (Fin t) /\
  @pan_velocities XR (Fin 1) g elements = Ok (vfin v1, vfin v2) /\
  lambert_solution 1 r1 v1 r2 v2 T 0 /\ 0 < T < 5 / 7 * t.
Proof.
  intros r1 r2. assert (Hn : non_collinear r1 r2) by (intros Z; apply (f_equal vz) in Z; unfold r1, r2 in Z; vunf; lra).
  set (n := 249999 / 500000). assert (Hn0 : 0 < n) by (unfold n; lra).
  assert (N1 : vnorm r1 = n). { unfold vnorm. replace (vdot r1 r1) with (n * n) by (unfold r1, n; vunf; ring). apply sqrt_square. lra. }
  assert (N2 : vnorm r2 = 1). { unfold vnorm. replace (vdot r2 r2) with (1 * 1) by (unfold r2; vunf; ring). apply sqrt_square; lra. }
  assert (N3 : vnorm (vcross r1 r2) = n). { unfold vnorm. replace (vdot (vcross r1 r2) (vcross r1 r2)) with (n * n) by (unfold r1, r2, n; vunf; field). apply sqrt_square; lra. }
  destruct (transfer_angle r1 r2 true Hn) as (th & ET & F). pose proof (angle_sin _ _ _ _ Hn F) as S.
  assert (W : way true r1 r2 = 1) by (unfold way; destruct (short_way_dec true r1 r2) as [_|L]; [reflexivity|exfalso; apply L; unfold short_way, r1, r2; vunf; lra]).
  rewrite N1, N2, N3, W in S. assert (ST : sin th = 1) by nra. clear S.
  assert (CT : cos th = 0). { pose proof (sin2_cos2 th) as T. unfold Rsqr in T. rewrite ST in T. nra. }
  set (e := 250001 / 249999). set (a := 1 / (1 - e * e)).
  set (ix := vmult (/ n) r1). set (iy := vcross (vmult (1 / n) (vcross r1 r2)) ix).
  assert (G : @pan_planar_geometry XR (vfin r1) (vfin r2) (Fin th) true = @PanGeometry XR (Fin n) (Fin 1) (Fin th) (vfin ix) (vfin iy)
     (Fin n) (Fin 0) (Fin (1 * 0)) (Fin (1 * 1)) (Fin (1 * 0 - n)) (Fin (1 * 1 - 0))).
  { unfold pan_planar_geometry. rewrite !norm_F, !vdivs_F by lra. rewrite orbit_normal_F by assumption. fold (way true r1 r2). rewrite cross_F.
    unfold iy, ix. rewrite N1, N2, W, N3. xunf. cbn [xmul xsub xlift2 xlift1]. rewrite ST, CT. reflexivity. }
  assert (A1 : Ratan2 0 n - 0 = 0) by (unfold Ratan2; destruct (Rlt_dec 0 n); [|lra]; replace (0 / n) with 0 by (field; lra); rewrite atan_0; ring).
  assert (A2 : Ratan2 (1 * 1) (1 * 0) - 0 = PI / 2).
  { unfold Ratan2. destruct (Rlt_dec 0 (1 * 0)); [lra|]. destruct (Rlt_dec (1 * 0) 0); [lra|]. destruct (Rlt_dec 0 (1 * 1)); [ring|lra]. }
  set (el := (Fin a, Fin e, Fin 0, Fin 0, Fin (PI / 2))).
  assert (PE : @pan_elements XR (@pan_planar_geometry XR (vfin r1) (vfin r2) (Fin th) true) (Fin 0) = Ok el).
  { rewrite G. unfold pan_elements. cbn [pg_r1_norm pg_r2_norm pg_x1 pg_y1 pg_x2 pg_y2 pg_xc pg_yc].
    unfold pan_isclose, np_isclose. xunf. cbn [xmul xadd xsub xlift2 xlift1].
    rewrite cos_0, sin_0.
    replace ((1 * 0 - n) * 1 + (1 * 1 - 0) * 0) with (- n) by ring.
    assert (Z2 : xleb (Fin (Rabs (- n - 0))) (Fin (1 / 100000000 + 1 / 100000 * Rabs 0)) = false) by (apply xleb_Ff; rewrite Rabs_R0, Rabs_left by lra; unfold n; lra).
    set (den := (n - 1) * (n - 1) - - n * - n). assert (DE : den = 1 / 250000) by (unfold den, n; field).
    assert (Z3 : xleb (Fin (Rabs (den - 0))) (Fin (1 / 100000000 + 1 / 100000 * Rabs 0)) = false) by (apply xleb_Ff; rewrite DE, Rabs_R0, Rabs_pos_eq by lra; lra).
    cbn [xabs xlift1]. rewrite Z2, (xdiv_F (n - 1)) by lra.
    assert (EE : (n - 1) / - n = e) by (unfold n, e; field). rewrite EE.
    assert (Z4 : xltb (Fin e) (Fin 0) = false) by (apply xltb_Ff; unfold e; lra). rewrite Z4, Z3, xdiv_F by lra.
    cbn [xisfinite negb orb]. rewrite A1, A2. unfold el.
    match goal with |- Ok (Fin ?x, _, _, _, _) = _ => replace x with a by (rewrite DE; unfold a, n, e; field) end. reflexivity. }
  assert (Q1 : a * (1 - e * e) = 1) by (unfold a, e; field).
  set (t := sqrt (1 * 1 * 1 / (2 * 1)) * (1 + 1 * 1 * 1 / 3 - 0 - 0 * 0 * 0 / 3)).
  assert (PT : @pan_tof_from_elements XR (Fin 1) el = Ok (Fin t)).
  { unfold el, pan_tof_from_elements. unfold pan_isclose, np_isclose. xunf. cbn [xmul xadd xsub xabs xlift2 xlift1].
    assert (Z1 : xltb (Fin e) (Fin 1) = false) by (apply xltb_Ff; unfold e; lra).
    assert (Z2 : xleb (Fin (Rabs (e - 1))) (Fin (1 / 100000000 + 1 / 100000 * Rabs 1)) = true) by (apply xleb_F; rewrite Rabs_R1, Rabs_pos_eq by (unfold e; lra); unfold e; lra).
    rewrite Z1, Z2, Q1. unfold pan_parabolic_tof. xunf. assert (Z3 : xleb (Fin 1) (Fin 0) = false) by (apply xleb_Ff; lra). rewrite Z3.
    rewrite !(xdiv_F _ 2) by lra. replace (0 / 2) with 0 by field. replace (PI / 2 / 2) with (PI / 4) by field.
    pose proof PI_RGT_0. rewrite (xtan_F 0) by (rewrite cos_0; lra). rewrite (xtan_F (PI / 4)) by (apply Rgt_not_eq, cos_gt_0; lra). rewrite tan_0, tan_PI4.
    cbn [xmul xadd xsub xlift2 xlift1]. rewrite !(xdiv_F _ 3) by lra. rewrite xdiv_F by lra. rewrite xsqrt_F by lra. reflexivity. }
  assert (PV : exists v1 v2, @pan_velocities XR (Fin 1) (@pan_planar_geometry XR (vfin r1) (vfin r2) (Fin th) true) el = Ok (vfin v1, vfin v2)).
  { rewrite G. unfold el, pan_velocities. cbn [pg_i_x pg_i_y]. xunf. cbn [xmul xsub xadd xlift2]. rewrite Q1.
    assert (Z1 : xleb (Fin 1) (Fin 0) = false) by (apply xleb_Ff; lra). rewrite Z1, Z1, xdiv_F, xsqrt_F by lra.
    cbn [xmul xsub xadd xopp xlift1 xlift2]. rewrite !vscale_F, !vadd_F. eexists _, _. reflexivity. }
  destruct PV as (v1 & v2 & PV).
  destruct (pan_elements_facts 1 true r1 r2 th _ _ (Fin t) v1 v2 Hn Rlt_0_1 F PE PT PV) as (a' & e' & om & f1' & f2' & q & EQ & E0 & EN & Q & QP & D1 & D2 & R1 & R2 & V1 & V2).
  destruct (pan_PQ true r1 r2 om Hn) as (HP & HQ & HPQ). unfold el in EQ. injection EQ as <- <- <- <- <-.
  rewrite Q1 in Q. subst q. set (w := 1 / 500).
  assert (SQ : sqrt (e * e - 1) = 1000 / 249999) by (apply sqrt_lem_1; unfold e; lra).
  assert (E1 : 1 < e) by (unfold e; lra). assert (Hw : 0 < w < 1) by (unfold w; lra).
  assert (K1 : hyperbolic e 0 0) by (unfold hyperbolic; rewrite cos_0, sin_0, cosh_0, sinh_0; repeat split; [lra|field; lra|field; lra]).
  destruct (cosh_sinh_artanh w ltac:(lra)) as [CH SH].
  assert (K2 : hyperbolic e (PI / 2) (2 * artanh w)) by (unfold hyperbolic; rewrite cos_PI2, sin_PI2, CH, SH, SQ; repeat split; [lra|unfold w, e; field|unfold w; field]).
  pose proof (artanh_lower w Hw) as AL.
  assert (L : 0 < 2 * artanh w) by (unfold w in *; lra).
  pose proof (hyperbola_true _ _ HP HQ HPQ 1 1 e Rlt_0_1 Rlt_0_1 0 (PI / 2) 0 (2 * artanh w) E1 K1 K2 L) as LS.
  rewrite <- R1, <- R2, <- V1, <- V2 in LS. rewrite SH, sinh_0 in LS.
  exists th, el, t, v1, v2. eexists. split; [exact Hn|]. split; [exact ET|]. split; [exact PE|]. split; [exact PT|]. split; [exact PV|]. split; [exact LS|].
  replace ((1 / (e * e - 1)) ^ 3 / 1) with ((249999 / 1000 * (249999 / 1000) * (249999 / 1000)) * (249999 / 1000 * (249999 / 1000) * (249999 / 1000))) by (unfold e; field).
  rewrite sqrt_square by lra.
  pose proof (hyp_incr e _ _ E1 L) as HI. rewrite SH, sinh_0 in HI.
  split; [apply Rmult_lt_0_compat; lra|].
  assert (TS : 7 / 10 < sqrt (1 * 1 * 1 / (2 * 1))) by (replace (7 / 10) with (sqrt (7 / 10 * (7 / 10))) by (apply sqrt_square; lra); apply sqrt_lt_1; lra).
  unfold t. unfold w, e in *.
  match goal with |- ?A * (?B - ?C) < _ => assert (A * (B - C) < A * (B - (2 * (1 / 500 + 1 / 500 * (1 / 500) * (1 / 500) / 3)))) by (apply Rmult_lt_compat_l; lra) end.
  lra.
Qed.
Print Assumptions C55_pan_band_refuted.
