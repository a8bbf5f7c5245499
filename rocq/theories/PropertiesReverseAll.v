(** * C59: a problem posed backwards is answered with the motion traversed backwards. *)
From Coq Require Import Reals ZArith String List Bool Lra Lia Psatz.
Import ListNotations.
From Verif Require Import Num XReal XRealLemmas MApi ApiFacts MAssertions MLinalg MAngles MScipy MGauss MInit Loops
  Spec VecFacts VecXR AnglesXR CallXR RotXR MirrorXR ReverseXR Godal GodalXR GodalPan OrbitXR PropertiesAngles PropertiesMotion PropertiesOrbit PropertiesGauss
  PropertiesReverse.
Local Open Scope R_scope.

(** Exchanging the positions and toggling [is_prograde] asks for the same path
    traversed backwards.  Ten solvers answer with the velocities exchanged and
    reversed, the same number of iterations and the same exceptions. *)
Theorem C59_reversal : forall s ev mu r1 r2 tof M prograde low_path maxiter atol rtol full_output,
  ~ In s [Gauss; Pan; Arora; Avanzini] -> r1 <> vzero -> r2 <> vzero ->
  (s = Izzo \/ s = Thorne -> vz (vcross r1 r2) <> 0) ->
  @run XR s ev (call mu r2 r1 tof M (negb prograde) low_path maxiter atol rtol full_output)
  = res_rev (@run XR s ev (call mu r1 r2 tof M prograde low_path maxiter atol rtol full_output)).
Proof.
  intros s ev mu r1 r2 tof M p l mi a r f Hs H1 H2 Hz.
  destruct s; cbn [run];
    first [exfalso; apply Hs; cbn [In]; tauto
          | now apply battin_rev | now apply jiang_rev | now apply gooding_rev | now apply der_rev | now apply vallado_rev
          | now apply negrete_rev | now apply mcelreath_rev | now apply delatorre_rev
          | apply thorne_rev; now apply Hz; auto | apply izzo_rev; now apply Hz; auto].
Qed.
Print Assumptions C59_reversal.

Corollary C59_finite : forall s ev mu r1 r2 tof M prograde low_path maxiter atol rtol full_output o v1 v2,
  ~ In s [Gauss; Pan; Arora; Avanzini] -> r1 <> vzero -> r2 <> vzero ->
  (s = Izzo \/ s = Thorne -> vz (vcross r1 r2) <> 0) ->
  @run XR s ev (call mu r1 r2 tof M prograde low_path maxiter atol rtol full_output) = Ok o -> delivers o v1 v2 ->
  exists o', @run XR s ev (call mu r2 r1 tof M (negb prograde) low_path maxiter atol rtol full_output) = Ok o' /\
    delivers o' (vmult (-1) v2) (vmult (-1) v1).
Proof.
  intros s ev mu r1 r2 tof M p l mi a r f o v1 v2 Hs H1 H2 Hz H D.
  exists (out_rev o). rewrite C59_reversal, H by assumption. split; [reflexivity|].
  destruct o; cbn [out_rev]; unfold delivers in *; cbn in *; destruct D as [-> ->]; now rewrite !vopp_F.
Qed.
Print Assumptions C59_finite.

(** ** gauss1809 *)

(** gauss1809 finds the same orbital parameter for both problems. *)
Lemma gauss_both clock mu r1 r2 tof M p l mi a r f o v1 v2 :
  non_collinear r1 r2 ->
  @gauss1809 XR clock (call mu r1 r2 tof M p l mi a r f) = Ok o -> delivers o v1 v2 ->
  exists th k o' w1 w2, 0 < mu /\ angle_facts p r1 r2 th /\ 0 < k /\
    @gauss1809 XR clock (call mu r2 r1 tof M (negb p) l mi a r f) = Ok o' /\ delivers o' w1 w2 /\
    let n1 := vnorm r1 in let n2 := vnorm r2 in let D := 1 - cos th in
    let g := n1 * n2 * sin th / sqrt (mu * k) in
    (v1 = vmult (/ g) (vminus r2 (vmult (1 - n2 * D / k) r1)) /\
     v2 = vplus (vmult (sqrt (mu / k) * (D / sin th) * (D / k - 1 / n1 - 1 / n1)) r1) (vmult (1 - n1 * D / k) v1)) /\
    (w1 = vmult (/ g) (vminus r1 (vmult (1 - n1 * D / k) r2)) /\
     w2 = vplus (vmult (sqrt (mu / k) * (D / sin th) * (D / k - 1 / n2 - 1 / n2)) r2) (vmult (1 - n2 * D / k) w1)).
Proof.
  intros Hn H D. unfold gauss1809 in H. enter H.
  assert (Hn' : non_collinear r2 r1) by (intros E; apply Hn; now apply rev_zero).
  assert (H2 : r2 <> vzero).
  { intros E. apply Hn. rewrite E. apply vec_eq; unfold vcross, vzero; cbn [vx vy vz]; ring. }
  assert (V : valid_input mu r2 r1 tof M).
  { unfold valid_input. repeat split; auto. }
  assert (R : @gauss1809 XR clock (call mu r2 r1 tof M (negb p) l mi a r f) = @gauss1809 XR clock (call mu r2 r1 tof M (negb p) l mi a r f)) by reflexivity.
  unfold gauss1809 at 2 in R. rewrite validated_call_ok in R by exact V.
  cbn [a_mu a_r1 a_r2 a_tof a_M a_is_prograde a_is_low_path a_maxiter a_atol a_rtol a_full_output call] in R.
  rewrite rev_angle, !norm_F in R by assumption.
  destruct (transfer_angle r1 r2 p Hn) as (th & ET & F). rewrite ET in H, R.
  destruct (assert_transfer_angle_not_zero _) as [u1|]; [|discriminate]. cbn [bind] in H, R.
  destruct (assert_transfer_angle_not_pi _) as [u2|]; [|discriminate]. cbn [bind] in H, R.
  assert (ES : @gau_get_s XR (Fin (vnorm r2)) (Fin (vnorm r1)) (Fin th) = @gau_get_s XR (Fin (vnorm r1)) (Fin (vnorm r2)) (Fin th)).
  { unfold gau_get_s. rewrite (nadd_sym (Fin (vnorm r2))), (nmul_sym (Fin (vnorm r2))). reflexivity. }
  assert (EW : @gau_get_w XR (Fin mu) (Fin tof) (Fin (vnorm r2)) (Fin (vnorm r1)) (Fin th) = @gau_get_w XR (Fin mu) (Fin tof) (Fin (vnorm r1)) (Fin (vnorm r2)) (Fin th)).
  { unfold gau_get_w. rewrite (nmul_sym (Fin (vnorm r2))). reflexivity. }
  cbv zeta in H, R. rewrite ES, EW in R. clear ES EW.
  destruct (for_range _ _ _ _) as [[[ni x] y]| |]; try discriminate.
  destruct (time_per_iteration _ _ _) as [tpi|]; [|discriminate]. cbn [bind] in H, R.
  destruct (gau_delta_anomaly x) as [da|]; [|discriminate]. cbn [bind] in H, R.
  assert (EP : @gau_p XR (Fin (vnorm r2)) (Fin (vnorm r1)) (Fin th) da = @gau_p XR (Fin (vnorm r1)) (Fin (vnorm r2)) (Fin th) da).
  { unfold gau_p. rewrite (nadd_sym (Fin (vnorm r2))), (nmul_sym (Fin (vnorm r2))). reflexivity. }
  rewrite EP in R. clear EP. set (q := @gau_p XR _ _ _ da) in *. clearbody q.
  match type of H with (let (_, _) := ?m in _) = _ => destruct m as [z1 z2] eqn:EV end.
  destruct (delivers_inv _ _ _ _ _ _ _ _ H D) as [-> ->].
  destruct (gau_velocities_inv _ _ _ _ _ _ _ _ Hn Hmu F EV) as (k & -> & Hk & E).
  destruct (transfer_angle r2 r1 (negb p) Hn') as (th' & ET' & F'). rewrite rev_angle, ET in ET' by assumption.
  assert (th' = th) by (injection ET'; auto). subst th'.
  destruct (gau_velocities_finite mu (negb p) r2 r1 th k Hn' Hmu Hk F') as (w1 & w2 & EV').
  rewrite EV' in R.
  destruct (gau_velocities_inv _ _ _ _ _ _ _ _ Hn' Hmu F' EV') as (k' & Ek & _ & E').
  assert (k' = k) by (injection Ek; auto). subst k'.
  exists th, k, (@mk_out XR f (vfin w1) (vfin w2) ni tpi), w1, w2.
  split; [assumption|]. split; [assumption|]. split; [assumption|]. split; [exact R|].
  split; [destruct f; split; reflexivity|]. cbv zeta in E, E' |- *. split; [exact E|].
  rewrite (Rmult_comm (vnorm r1) (vnorm r2)). exact E'.
Qed.

(** Because of gauss.py:156, gauss1809 is reversible exactly between positions at
    the same distance. *)
Theorem C59_gauss_refuted : forall ev mu r1 r2 tof M prograde low_path maxiter atol rtol full_output o v1 v2,
  non_collinear r1 r2 ->
  @run XR Gauss ev (call mu r1 r2 tof M prograde low_path maxiter atol rtol full_output) = Ok o -> delivers o v1 v2 ->
  exists o' w1 w2,
    @run XR Gauss ev (call mu r2 r1 tof M (negb prograde) low_path maxiter atol rtol full_output) = Ok o' /\ delivers o' w1 w2 /\
    (w1 = vmult (-1) v2 <-> vnorm r1 = vnorm r2) /\ (w2 = vmult (-1) v1 <-> vnorm r1 = vnorm r2).
Proof.
  intros ev mu r1 r2 tof M p l mi a r f o v1 v2 Hn H D. cbn [run] in *.
  destruct (gauss_both _ _ _ _ _ _ _ _ _ _ _ _ _ _ _ Hn H D) as (th & k & o' & w1 & w2 & Hmu & F & Hk & H' & D' & (E1 & E2) & (E3 & E4)).
  exists o', w1, w2. split; [exact H'|]. split; [exact D'|].
  destruct (gauss_nz mu p r1 r2 th k Hn Hmu F Hk) as (N1 & N2 & HD & Hg & Hs & Qk & Eg).
  set (n1 := vnorm r1) in *. set (n2 := vnorm r2) in *. set (Dc := 1 - cos th) in *. set (g := n1 * n2 * sin th / sqrt (mu * k)) in *.
  set (fa := sqrt (mu / k) * (Dc / sin th) * (Dc / k - 1 / n1 - 1 / n1)) in *.
  set (fb := sqrt (mu / k) * (Dc / sin th) * (Dc / k - 1 / n2 - 1 / n2)) in *.
  assert (Za : g * fa = n1 * n2 * Dc / k * (Dc / k - 2 / n1)).
  { unfold fa. transitivity (g * sqrt (mu / k) * (Dc / sin th) * (Dc / k - 1 / n1 - 1 / n1)); [ring|].
    rewrite Eg. field. repeat split; lra. }
  assert (Zb : g * fb = n1 * n2 * Dc / k * (Dc / k - 2 / n2)).
  { unfold fb. transitivity (g * sqrt (mu / k) * (Dc / sin th) * (Dc / k - 1 / n2 - 1 / n2)); [ring|].
    rewrite Eg. field. repeat split; lra. }
  assert (DK : 0 < Dc / k) by now apply Rdiv_lt_0_compat.
  assert (Ia : g * fa = (1 - n2 * Dc / k) * (1 - n1 * Dc / k) - 1 - Dc / k * (n2 - n1)) by (rewrite Za; field; lra).
  assert (Ib : g * fb = (1 - n1 * Dc / k) * (1 - n2 * Dc / k) - 1 - Dc / k * (n1 - n2)) by (rewrite Zb; field; lra).
  assert (Ea : vplus w1 v2 = vmult (- (Dc / k * (n2 - n1)) / g) r1).
  { rewrite E2, E3, E1. replace fa with ((g * fa) / g) by (field; assumption). rewrite Ia.
    apply vec_eq; unfold vplus, vminus, vmult; cbn [vx vy vz]; field; split; lra. }
  assert (Eb : vplus w2 v1 = vmult (- (Dc / k * (n1 - n2)) / g) r2).
  { rewrite E4, E3, E1. replace fb with ((g * fb) / g) by (field; assumption). rewrite Ib.
    apply vec_eq; unfold vplus, vminus, vmult; cbn [vx vy vz]; field; split; lra. }
  assert (OPP : forall u v, u = vmult (-1) v <-> vplus u v = vzero).
  { intros [x y z] [x' y' z']. unfold vmult, vplus, vzero. cbn [vx vy vz]. split; intros E; injection E; intros; f_equal; lra. }
  assert (NZ : forall c (v : rvec), 0 < vnorm v -> (vmult c v = vzero <-> c = 0)).
  { intros c v Hv. split.
    - intros E. assert (X : vnorm (vmult c v) = 0) by (rewrite E; unfold vnorm, vdot, vzero; cbn [vx vy vz]; replace (0 * 0 + 0 * 0 + 0 * 0) with 0 by ring; apply sqrt_0).
      rewrite vnorm_mult in X. apply Rmult_integral in X. destruct X as [X|X]; [|lra]. destruct (Req_dec c 0) as [|N]; [assumption|]. now apply Rabs_no_R0 in N.
    - intros ->. apply vec_eq; unfold vmult, vzero; cbn [vx vy vz]; ring. }
  rewrite !OPP, Ea, Eb, !NZ by assumption.
  assert (Q : forall m, m / g = 0 <-> m = 0).
  { intros m. split; [|intros ->; unfold Rdiv; ring]. intros E. replace m with (m / g * g) by (field; assumption). rewrite E. ring. }
  rewrite !Q. split; split; intros E; try nra; rewrite E; ring.
Qed.
Print Assumptions C59_gauss_refuted.

(** ** Cases *)
Example C59_case : exists tof o v1 v2 o',
  @run XR Vallado no_scipy (call 1 ex_r1 ex_r2 tof 0 true true 35 (1 / 100000) (1 / 10000000) true) = Ok o /\ delivers o v1 v2 /\
  @run XR Vallado no_scipy (call 1 ex_r2 ex_r1 tof 0 false true 35 (1 / 100000) (1 / 10000000) true) = Ok o' /\
  delivers o' (vmult (-1) v2) (vmult (-1) v1).
Proof.
  destruct C11_C12_case as (tof & o & w1 & w2 & Hn & Hz & _ & R & _ & D).
  assert (H1 : ex_r1 <> vzero) by (intros E; apply (f_equal vx) in E; unfold ex_r1, vzero in E; cbn [vx] in E; lra).
  assert (H2 : ex_r2 <> vzero) by (intros E; apply (f_equal vy) in E; unfold ex_r2, vzero in E; cbn [vy] in E; lra).
  assert (HS : ~ In Vallado [Gauss; Pan; Arora; Avanzini]) by (cbn [In]; intuition discriminate).
  assert (HZ : Vallado = Izzo \/ Vallado = Thorne -> vz (vcross ex_r1 ex_r2) <> 0) by (intros [E|E]; discriminate E).
  destruct (C59_finite Vallado _ _ _ _ _ _ _ _ _ _ _ _ _ _ _ HS H1 H2 HZ R D) as (o' & R' & D').
  exists tof, o, w1, w2, o'. split; [exact R|]. split; [exact D|]. split; [exact R'|exact D'].
Qed.

(** Between different distances gauss1809 is not reversible, whatever the tolerances. *)
Example C59_gauss_case : exists tof o v1 v2 o' w1 w2,
  @run XR Gauss no_scipy (call 1 (V3 1 0 0) (V3 0 2 0) tof 0 true true 35 (1 / 100000) (1 / 10000000) true) = Ok o /\ delivers o v1 v2 /\
  @run XR Gauss no_scipy (call 1 (V3 0 2 0) (V3 1 0 0) tof 0 false true 35 (1 / 100000) (1 / 10000000) true) = Ok o' /\ delivers o' w1 w2 /\
  w1 <> vmult (-1) v2 /\ w2 <> vmult (-1) v1.
Proof.
  assert (N1 : vnorm (V3 1 0 0) = 1) by (unfold vnorm, vdot; cbn [vx vy vz]; replace (1 * 1 + 0 * 0 + 0 * 0) with 1 by ring; apply sqrt_1).
  assert (N2 : vnorm (V3 0 2 0) = 2).
  { unfold vnorm, vdot; cbn [vx vy vz]. replace (0 * 0 + 2 * 2 + 0 * 0) with (2 * 2) by ring. rewrite sqrt_square; lra. }
  assert (Q : vnorm (V3 1 0 0) <> vnorm (V3 0 2 0)) by (rewrite N1, N2; lra).
  assert (HW : short_way true (V3 1 0 0) (V3 0 2 0)) by (unfold short_way, vcross; cbn [vx vy vz]; lra).
  destruct (C37_gauss_same_orbit_refuted 1 (V3 1 0 0) (V3 0 2 0) 0 true true 35 (1 / 100000) (1 / 10000000) true
    ltac:(lra) HW Q ltac:(lia) ltac:(lia) ltac:(lra)) as (t0 & Ht & K).
  assert (HN : non_collinear (V3 1 0 0) (V3 0 2 0)) by (apply vz_non_collinear; unfold vcross; cbn [vx vy vz]; lra).
  destruct (K no_scipy (t0 / 2) ltac:(lra)) as (o & v1 & v2 & R & D & _).
  destruct (C59_gauss_refuted no_scipy _ _ _ _ _ _ _ _ _ _ _ _ _ _ HN R D) as (o' & w1 & w2 & R' & D' & A & B).
  exists (t0 / 2), o, v1, v2, o', w1, w2.
  split; [exact R|]. split; [exact D|]. split; [exact R'|]. split; [exact D'|].
  split; intros E; apply Q; [now apply A|now apply B].
Qed.
