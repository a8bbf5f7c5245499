(** * With less than one revolution the time decreases with the path parameter. *)
From Coq Require Import ZArith List Bool Lia Reals Lra Psatz.
From Coquelicot Require Import Coquelicot.
From Verif Require Import Num XReal XRealLemmas MApi MIzzo RDerive UniversalKepler LambertUV LambertRev LambertZ DelatorreXR ZMono Hyp2F1 IzzoXR PropertiesDerivIzzo.
Local Open Scope R_scope.

Section Mono.
Variables (ll : R).
Hypothesis Hl : -1 < ll < 1.
Let Y (x : R) : R := sqrt (1 - ll * ll * (1 - x * x)).
Definition mx_c (x : R) : R := x * Y x + ll * (1 - x * x).

Lemma mx_c_increasing x y : x < y -> mx_c x < mx_c y.
Proof.
  intros H.
  destruct (MVT_gen mx_c x y (fun t => (Y t - ll * t) * (Y t - ll * t) / Y t)) as (t & Ht & E).
  - intros t _. destruct (Y_facts ll Hl t) as [P E]. fold (Y t) in P, E. unfold mx_c.
    pose proof (Y_derive ll Hl t) as D. fold Y in D.
    eapply rd_eq; [apply rd_plus; [apply rd_mult; [apply rd_id|exact D]|auto_derive; [exact I|reflexivity]]|].
    apply Rmult_eq_reg_r with (Y t); [|lra].
    transitivity ((Y t - ll * t) * (Y t - ll * t)); [|field; lra].
    transitivity (Y t * Y t + ll * ll * (t * t) - 2 * ll * t * Y t); [field; lra|ring].
  - intros t _. unfold mx_c. pose proof (Y_derive ll Hl t) as D. fold Y in D.
    eapply rd_continuous. apply rd_plus; [apply rd_mult; [apply rd_id|exact D]|auto_derive; [exact I|reflexivity]].
  - destruct (Y_facts ll Hl t) as [P E']. fold (Y t) in P, E'.
    pose proof (xy_eta ll t (Y t) Hl (Rlt_le _ _ P) E') as He.
    assert (0 < (Y t - ll * t) * (Y t - ll * t) / Y t) by (apply Rdiv_lt_0_compat; [nra|exact P]). nra.
Qed.

Lemma mx_T x z : -1 < x -> z < PI * PI -> C0 z = mx_c x ->
  @izzo_tof XR (Fin x) (Fin 0) (Fin ll) (Fin 0) = Fin (izzo_T ll 0 x) /\
  izzo_T ll 0 x = sqrt 2 * (sqrt 2 * Gz (1 + ll * ll) (2 * ll) z) /\ 0 < 1 + ll * ll - 2 * ll * C0 z.
Proof.
  intros Hx Hz EC. destruct (Y_facts ll Hl x) as [P E]. fold (Y x) in P, E.
  pose proof (xy_eta ll x (Y x) Hl (Rlt_le _ _ P) E) as He. pose proof (xy_V ll x (Y x) E) as EV. fold (mx_c x) in EV. rewrite <- EC in EV.
  destruct (sqrt_facts 2) as [W1 W2]; [lra|].
  assert (EP : 1 + ll * ll - 2 * ll * C0 z = (Y x - ll * x) * (Y x - ll * x)) by lra.
  assert (F : @izzo_tof XR (Fin x) (Fin 0) (Fin ll) (Fin 0) = Fin (sqrt 2 * (sqrt 2 * Gz (1 + ll * ll) (2 * ll) z))).
  { unfold izzo_tof. rewrite (izzo_y_F ll Hl). fold (Y x). change (Fin 0) with (Fin (IZR 0)) at 2.
    rewrite (izzo_tof_y_F 1 1 ll x (Y x) z 0 0) by (auto; lra). apply (f_equal Fin). rewrite Rminus_0_r.
    replace (2 * 1 / (1 * 1 * 1)) with 2 by field. apply (f_equal (Rmult (sqrt 2))).
    replace (sqrt 2 * 1 * ll) with (sqrt 2 * ll) by ring.
    replace (1 * ((Y x - ll * x) * (Y x - ll * x))) with (1 + ll * ll - sqrt 2 * (sqrt 2 * ll) * C0 z)
      by (transitivity (1 + ll * ll - (sqrt 2 * sqrt 2) * ll * C0 z); [ring|]; rewrite W2, EP; ring).
    rewrite tz_Gz; [|lra|].
    - rewrite sqrt_1. replace (sqrt 2 * (sqrt 2 * ll)) with (2 * ll) by (rewrite <- Rmult_assoc, W2; ring). field.
    - replace (sqrt 2 * (sqrt 2 * ll)) with (2 * ll) by (rewrite <- Rmult_assoc, W2; ring). rewrite EP. nra. }
  unfold izzo_T. change (IZR 0) with 0. rewrite F. cbn [xget]. split; [reflexivity|]. split; [reflexivity|]. rewrite EP. nra.
Qed.
Lemma mx_z x : -1 < x -> exists z, z < PI * PI /\ C0 z = mx_c x.
Proof.
  intros Hx. destruct (Y_facts ll Hl x) as [P E]. fold (Y x) in P, E.
  destruct (C0_inverse (mx_c x)) as (z & Hz & EC & _); [apply xy_c_gt; auto; lra|]. exists z. auto.
Qed.

Lemma izzo_T_F0 x : -1 < x -> @izzo_tof XR (Fin x) (Fin 0) (Fin ll) (Fin 0) = Fin (izzo_T ll 0 x).
Proof. intros Hx. destruct (mx_z x Hx) as (z & Hz & EC). now apply (mx_T x z). Qed.

Lemma izzo_T_decreasing x y : -1 < x -> x < y -> izzo_T ll 0 y < izzo_T ll 0 x.
Proof.
  intros Hx Hxy. destruct (mx_z x Hx) as (z & Hz & EC). destruct (mx_z y ltac:(lra)) as (w & Hw & EC').
  destruct (mx_T x z Hx Hz EC) as (_ & -> & Vx). destruct (mx_T y w ltac:(lra) Hw EC') as (_ & -> & Vy).
  pose proof (mx_c_increasing x y Hxy) as Hc. destruct (sqrt_facts 2) as [W1 W2]; [lra|].
  assert (w < z).
  { destruct (Rlt_dec w z) as [|N]; [assumption|exfalso]. destruct (Req_dec w z) as [->|]; [lra|].
    pose proof (C0_decreasing z w ltac:(lra) Hw). lra. }
  apply Rmult_lt_compat_l; [exact W1|]. apply Rmult_lt_compat_l; [exact W1|].
  apply Gz_increasing; auto. destruct (Rabs_def2 ll 1) as [A1 A2]; [apply Rabs_def1; lra|].
  rewrite Rabs_mult, (Rabs_right 2) by lra. assert (Rabs ll < 1) by (apply Rabs_def1; lra). pose proof (Rabs_pos ll).
  assert (Rabs ll * Rabs ll = ll * ll) by (rewrite <- Rabs_mult; apply Rabs_right; nra). nra.
Qed.

(** The time orders the parameters. *)
Lemma izzo_T_order x y : -1 < x -> -1 < y -> (izzo_T ll 0 x < izzo_T ll 0 y <-> y < x) /\ (izzo_T ll 0 x = izzo_T ll 0 y <-> x = y).
Proof.
  intros Hx Hy. destruct (Rtotal_order x y) as [L|[-> |L]].
  - pose proof (izzo_T_decreasing x y Hx L). split; split; intros; lra.
  - split; split; intros; lra.
  - pose proof (izzo_T_decreasing y x Hy L). split; split; intros; lra.
Qed.

Lemma izzo_T_at_0 : izzo_T ll 0 0 = acos ll + ll * sqrt (1 - ll * ll).
Proof.
  destruct (izzo_T_F ll 0 Hl 0) as [_ ->]; [split; [lra|split; [lra|left; reflexivity]]|].
  destruct (Rlt_dec 0 1) as [_|N]; [|lra]. unfold T_ell. replace (1 - 0 * 0) with 1 by ring. rewrite sqrt_1, !Rmult_1_r, !Rmult_0_l, Rplus_0_l. field.
Qed.
Lemma izzo_T_at_1 : izzo_T ll 0 1 = 2 * (1 - ll * ll * ll) / 3.
Proof.
  destruct (mx_z 1 ltac:(lra)) as (z & Hz & EC). destruct (Y_facts ll Hl 1) as [P E]. fold (Y 1) in P, E.
  assert (EY : Y 1 = 1) by nra.
  assert (EC1 : C0 z = 1) by (rewrite EC; unfold mx_c; rewrite EY; ring).
  unfold izzo_T, izzo_tof. rewrite (izzo_y_F ll Hl). fold (Y 1).
  rewrite (izzo_tof_y_F 1 1 ll 1 (Y 1) z 0 0) by (auto; lra). cbn [xget].
  rewrite (izzo_time_hyp2f1 1 1 ll 1 (Y 1) z 0) by (auto; lra). cbv zeta.
  rewrite EY. replace ((1 - ll - 1 * (1 - ll * 1)) * (1 / 2)) with 0 by field. rewrite hyp_f_0. field.
Qed.
Lemma izzo_T_knots : 0 < izzo_T ll 0 1 /\ izzo_T ll 0 1 < izzo_T ll 0 0.
Proof.
  split; [|apply izzo_T_decreasing; lra]. rewrite izzo_T_at_1. assert (0 < (1 - ll) * (1 + ll + ll * ll)) by (apply Rmult_lt_0_compat; nra). lra.
Qed.
End Mono.
