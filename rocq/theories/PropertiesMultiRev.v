(** * How many transfers with complete revolutions exist: C49. *)
From Coq Require Import Reals ZArith Bool Lra Lia Psatz List.
From Verif Require Import Num XReal XRealLemmas MApi MIzzo MLinalg MInit Spec SpecLambert VecFacts VecXR CallXR Godal GodalXR GodalIzzo GodalMore GodalPan
  LambertRev LambertZ LambertUnique LambertExist KeplerUnique AnglesXR Hyp2F1 IzzoXR PropertiesAngles PropertiesMotion PropertiesOrbit PropertiesDerivIzzo PropertiesUnique
  ThorneRun DerXR MinTime XParam PropertiesDer.
Import ListNotations.
Local Open Scope R_scope.

Lemma fg_moves mu r1 r2 A V v1 v2 p :
  0 < mu -> vz (vcross r1 r2) <> 0 -> fg_pair mu r1 r2 A V v1 v2 -> (0 < A <-> short_way p r1 r2) -> moves_as_requested p r1 v1.
Proof.
  intros Hm Hz F SA. pose proof (vz_non_collinear _ _ Hz) as Hn. destruct (fg_sense _ _ _ _ _ _ _ Hm Hn F) as [A0 _].
  destruct (sqrt_facts _ (fg_V _ _ _ _ _ _ _ F)) as [V1 _]. destruct (sqrt_facts _ Hm) as [M1 _].
  unfold moves_as_requested. unfold short_way in SA. rewrite (fg_momentum _ _ _ _ _ _ _ F).
  replace (vz (vmult (/ (A * sqrt V / sqrt mu)) (vcross r1 r2))) with (/ (A * sqrt V / sqrt mu) * vz (vcross r1 r2)) by (vunf; ring).
  replace (/ (A * sqrt V / sqrt mu)) with (/ A * (sqrt mu / sqrt V)) by (field; lra).
  assert (Pe : 0 < sqrt mu / sqrt V) by now apply Rdiv_lt_0_compat.
  set (e := sqrt mu / sqrt V) in *. set (w := vz _) in *. clearbody e w. clear - SA A0 Pe Hz.
  assert (I : (0 < A -> 0 < / A * e) /\ (A < 0 -> / A * e < 0)).
  { split; intros L; [apply Rinv_0_lt_compat in L|apply Rinv_lt_0_compat in L]; nra. }
  destruct I as [I1 I2]. set (i := / A * e) in *. clearbody i.
  assert (Cs : 0 < A \/ A < 0) by lra. destruct p; destruct Cs as [Cs|Cs].
  - specialize (I1 Cs). apply SA in Cs. nra.
  - specialize (I2 Cs). assert (~ 0 < w) by (intros X; apply SA in X; lra). nra.
  - specialize (I1 Cs). apply SA in Cs. nra.
  - specialize (I2 Cs). assert (~ w < 0) by (intros X; apply SA in X; lra). nra.
Qed.

(** The parameter of the geometry and direction. *)
Lemma lambda_exists p r1 r2 : non_collinear r1 r2 ->
  exists ll, lambda_facts p r1 r2 ll /\ (0 < ll <-> short_way p r1 r2).
Proof.
  intros Hn. destruct (transfer_angle r1 r2 p Hn) as (th & _ & F).
  destruct (der_sigma_F p r1 r2 th Hn F) as (sg & _ & S2 & Sr & Sd). exists sg. split; [|exact Sd]. now apply der_lambda.
Qed.

Section Count.
Variables (mu : R) (r1 r2 : rvec) (p : bool) (M : Z) (ll : R).
Hypothesis Hm : 0 < mu.
Hypothesis Hz : vz (vcross r1 r2) <> 0.
Hypothesis HM : (1 <= M)%Z.
Hypothesis LF : lambda_facts p r1 r2 ll.
Hypothesis LS : 0 < ll <-> short_way p r1 r2.
Let Hn : non_collinear r1 r2 := vz_non_collinear _ _ Hz.
Let s := semiper r1 r2.
Let rate := sqrt (2 * mu / (s * s * s)).

(** The requested transfers. *)
Definition requested (T : R) (v : rvec * rvec) : Prop :=
  lambert_solution mu r1 (fst v) r2 (snd v) T M /\ moves_as_requested p r1 (fst v).

Lemma rate_pos : 0 < rate.
Proof. destruct (semiper_pos _ _ Hn) as [S0 _]. apply sqrt_lt_R0, Rdiv_lt_0_compat; [lra|]. fold s in S0. apply Rmult_lt_0_compat; nra. Qed.

(** The velocities with path parameter [x]. *)
Definition xA : R := sqrt 2 * s * ll.
Definition xV (x : R) : R := let y := sqrt (1 - ll * ll * (1 - x * x)) in s * ((y - ll * x) * (y - ll * x)).
Definition x_pair (x : R) : rvec * rvec :=
  (vmult (/ (xA * sqrt (xV x) / sqrt mu)) (vminus r2 (vmult (1 - xV x / vnorm r1) r1)),
   vmult (/ (xA * sqrt (xV x) / sqrt mu)) (vminus (vmult (1 - xV x / vnorm r2) r2) r1)).

Lemma x_pair_fg x : fg_pair mu r1 r2 xA (xV x) (fst (x_pair x)) (snd (x_pair x)).
Proof.
  pose proof (lambda_bounds _ _ _ _ Hn LF) as Hl. destruct (Y_facts ll Hl x) as [Y0 Y1]. destruct (semiper_pos _ _ Hn) as [S0 _].
  split; try reflexivity; [apply (lambda_A p); assumption|].
  pose proof (xy_eta ll x _ Hl (Rlt_le _ _ Y0) Y1) as He. unfold xV. apply Rmult_lt_0_compat; [exact S0|]. now apply Rmult_lt_0_compat.
Qed.

Lemma x_pair_requested x : -1 < x < 1 -> requested (izzo_T ll M x / rate) (x_pair x).
Proof.
  intros Hx. pose proof (x_pair_fg x) as FG. pose proof rate_pos as R0.
  assert (HD : izzo_domain M x) by (split; [lra|split; [lra|right; lra]]).
  destruct (der_motion mu p r1 r2 ll x _ _ M Hn Hm LF ltac:(lia) HD FG) as (_ & T & L & ET).
  fold s rate in ET. split.
  - replace (izzo_T ll M x / rate) with T by (rewrite ET; field; lra). exact L.
  - apply (fg_moves mu r1 r2 xA (xV x) _ (snd (x_pair x))); try assumption. rewrite <- LS. unfold xA.
    destruct (semiper_pos _ _ Hn) as [S0 _]. destruct (sqrt_facts 2) as [W1 _]; [lra|].
    assert (0 < sqrt 2 * s) by now apply Rmult_lt_0_compat. split; intros; nra.
Qed.

Lemma requested_x T v : requested T v -> exists x, -1 < x < 1 /\ v = x_pair x /\ izzo_T ll M x = rate * T.
Proof.
  intros [L D]. destruct v as [v1 v2]. cbn [fst snd] in *.
  pose proof (sense_of_request _ _ _ _ _ _ _ _ Hm Hz L D) as S. rewrite <- LS in S.
  destruct (solution_x mu p r1 r2 v1 v2 T M ll Hm Hn LF L S) as (x & X1 & X2 & FG & ET).
  destruct X2 as [X2|X2]; [lia|]. exists x. split; [lra|]. split.
  - destruct FG as [_ _ -> ->]. reflexivity.
  - unfold izzo_T. rewrite ET. reflexivity.
Qed.

(** Different parameters, different energies. *)
Lemma x_pair_energy x : energy mu r1 (fst (x_pair x)) = - mu * (1 - x * x) / s.
Proof.
  pose proof (lambda_bounds _ _ _ _ Hn LF) as Hl. destruct (Y_facts ll Hl x) as [Y0 Y1].
  exact (proj1 (xy_lambert mu p r1 r2 ll x _ _ _ Hn Hm LF (Rlt_le _ _ Y0) Y1 (x_pair_fg x))).
Qed.
Lemma x_pair_inj x x' : x_pair x = x_pair x' -> x = x'.
Proof.
  intros E. pose proof (x_pair_fg x) as F. pose proof (x_pair_fg x') as F'. rewrite <- E in F'.
  pose proof (lambda_bounds _ _ _ _ Hn LF) as Hl. destruct (Y_facts ll Hl x) as [Y0 Y1]. destruct (Y_facts ll Hl x') as [Y0' Y1'].
  destruct (semiper_pos _ _ Hn) as [S0 _]. destruct (sqrt_facts _ Hm) as [M1 _].
  pose proof (fg_momentum _ _ _ _ _ _ _ F) as K. rewrite (fg_momentum _ _ _ _ _ _ _ F') in K.
  apply (f_equal vz) in K.
  assert (KE : / (xA * sqrt (xV x') / sqrt mu) = / (xA * sqrt (xV x) / sqrt mu)).
  { apply Rmult_eq_reg_r with (vz (vcross r1 r2)); [|exact Hz].
    transitivity (vz (vmult (/ (xA * sqrt (xV x') / sqrt mu)) (vcross r1 r2))); [vunf; ring|]. rewrite K. vunf; ring. }
  destruct (sqrt_facts _ (fg_V _ _ _ _ _ _ _ F)) as [P1 P2]. destruct (sqrt_facts _ (fg_V _ _ _ _ _ _ _ F')) as [P3 P4].
  destruct (fg_sense _ _ _ _ _ _ _ Hm Hn F) as [A0 _].
  assert (KE2 : sqrt (xV x) = sqrt (xV x')).
  { apply Rmult_eq_reg_l with (xA / sqrt mu); [|apply Rmult_integral_contrapositive; split; [assumption|apply Rinv_neq_0_compat; lra]].
    transitivity (/ / (xA * sqrt (xV x) / sqrt mu)); [rewrite Rinv_inv; field; lra|]. rewrite <- KE, Rinv_inv. field. lra. }
  assert (EV : xV x = xV x') by (rewrite <- P2, <- P4, KE2; reflexivity).
  pose proof (xy_eta ll x _ Hl (Rlt_le _ _ Y0) Y1) as He. pose proof (xy_eta ll x' _ Hl (Rlt_le _ _ Y0') Y1') as He'.
  unfold xV in EV. apply Rmult_eq_reg_l in EV; [|unfold s; lra].
  set (y := sqrt (1 - ll * ll * (1 - x * x))) in *. set (y' := sqrt (1 - ll * ll * (1 - x' * x'))) in *.
  assert (EE : y - ll * x = y' - ll * x') by nra. pose proof (lf_nz _ _ _ _ LF) as L0.
  (* y + ll x = (1 - ll^2) / (y - ll x) *)
  assert (P : (y - ll * x) * (y + ll * x) = (y' - ll * x') * (y' + ll * x')) by lra.
  rewrite <- EE in P. apply Rmult_eq_reg_l in P; [|lra]. apply Rmult_eq_reg_l with ll; [lra|assumption].
Qed.

Theorem count_solutions : exists x0, 0 < x0 < 1 /\
  (forall T v, requested T v -> izzo_T ll M x0 / rate <= T) /\
  (forall v, requested (izzo_T ll M x0 / rate) v <-> v = x_pair x0) /\
  (forall T, izzo_T ll M x0 / rate < T -> exists x1 x2, -1 < x1 < x0 /\ x0 < x2 < 1 /\
     forall v, requested T v <-> v = x_pair x1 \/ v = x_pair x2).
Proof.
  pose proof (lambda_bounds _ _ _ _ Hn LF) as Hl. pose proof rate_pos as R0.
  destruct (mt_critical ll M Hl HM) as (x0 & H0 & E0). exists x0. split; [exact H0|]. split; [|split].
  - intros T v Hv. destruct (requested_x T v Hv) as (x & Hx & _ & ET). destruct (Req_dec x x0) as [-> |N].
    + rewrite ET. right. field. lra.
    + pose proof (mt_minimum ll M Hl HM x0 x H0 E0 Hx N) as L. rewrite ET in L. left. apply Rmult_lt_reg_l with rate; [assumption|]. replace (rate * (izzo_T ll M x0 / rate)) with (izzo_T ll M x0) by (field; lra). exact L.
  - intros v. split.
    + intros Hv. destruct (requested_x _ v Hv) as (x & Hx & -> & ET). destruct (Req_dec x x0) as [-> |N]; [reflexivity|exfalso].
      pose proof (mt_minimum ll M Hl HM x0 x H0 E0 Hx N) as L. rewrite ET in L. replace (rate * (izzo_T ll M x0 / rate)) with (izzo_T ll M x0) in L by (field; lra). lra.
    + intros ->. apply x_pair_requested. lra.
  - intros T HT. assert (HT' : izzo_T ll M x0 < rate * T).
    { apply Rmult_lt_compat_l with (r := rate) in HT; [|assumption]. replace (rate * (izzo_T ll M x0 / rate)) with (izzo_T ll M x0) in HT by (field; lra). exact HT. }
    destruct (mt_solutions ll M Hl HM x0 (rate * T) H0 E0 HT') as (x1 & x2 & B1 & B2 & T1 & T2 & U).
    exists x1, x2. split; [exact B1|]. split; [exact B2|]. intros v. split.
    + intros Hv. destruct (requested_x _ v Hv) as (x & Hx & -> & ET). destruct (U x Hx ET) as [-> | ->]; auto.
    + assert (ER : T = rate * T / rate) by (field; lra). intros [-> | ->]; rewrite ER; [rewrite <- T1|rewrite <- T2]; apply x_pair_requested; lra.
Qed.
End Count.

(** ** C49 *)

(** For every geometry, direction and number [M >= 1] of complete revolutions
    there is a shortest time of flight.  Below it Lambert's problem has no
    solution, at it exactly one and above it exactly two. *)
Theorem C49_multi_rev_count : forall mu r1 r2 M prograde,
  0 < mu -> vz (vcross r1 r2) <> 0 -> (1 <= M)%Z ->
  exists Tmin, 0 < Tmin /\ forall T,
    let solution (v : rvec * rvec) := lambert_solution mu r1 (fst v) r2 (snd v) T M /\ moves_as_requested prograde r1 (fst v) in
    (T < Tmin -> forall v, ~ solution v) /\
    (T = Tmin -> exists v, forall w, solution w <-> w = v) /\
    (Tmin < T -> exists v v', v <> v' /\ forall w, solution w <-> w = v \/ w = v').
Proof.
  intros mu r1 r2 M p Hm Hz HM. pose proof (vz_non_collinear _ _ Hz) as Hn.
  destruct (lambda_exists p r1 r2 Hn) as (ll & LF & LS). pose proof (lambda_bounds _ _ _ _ Hn LF) as Hl.
  destruct (count_solutions mu r1 r2 p M ll Hm Hz HM LF LS) as (x0 & H0 & C1 & C2 & C3).
  pose proof (rate_pos mu r1 r2 Hm Hz) as R0. set (rate := sqrt _) in *.
  exists (izzo_T ll M x0 / rate). split.
  - apply Rdiv_lt_0_compat; [|exact R0]. eapply Rlt_le_trans; [|apply mt_lower; auto; lra]. apply Rinv_0_lt_compat. nra.
  - intros T solution. split; [|split].
    + intros L v Hv. pose proof (C1 T v Hv). lra.
    + intros ->. exists (x_pair mu r1 r2 ll x0). exact C2.
    + intros L. destruct (C3 T L) as (x1 & x2 & B1 & B2 & U). exists (x_pair mu r1 r2 ll x1), (x_pair mu r1 r2 ll x2). split; [|exact U].
      intros E. apply (x_pair_inj mu r1 r2 p ll Hm Hz LF) in E. lra.
Qed.
Print Assumptions C49_multi_rev_count.

(** A case: one revolution and a quarter turn. *)
Example C49_case : 0 < 1 /\ vz (vcross ex_r1 ex_r2) <> 0 /\ (1 <= 1)%Z.
Proof. split; [lra|]. split; [unfold vcross, ex_r1, ex_r2; cbn [vx vy vz]; lra|lia]. Qed.
