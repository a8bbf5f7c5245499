(** * Two-body motions are determined by their initial state.

    Every motion in the sense of [Spec] with non-zero angular momentum is the
    universal-variable motion of [UniversalKepler]; a motion with zero angular
    momentum stays on a line through the centre. *)
From Coq Require Import Reals Lra Psatz.
From Coquelicot Require Import Coquelicot.
From Verif Require Import Num Spec VecFacts UniversalKepler RDerive.
Local Open Scope R_scope.

Lemma derive_0_const (f : R -> R) T :
  0 < T -> (forall t, 0 <= t <= T -> is_derive f t 0) -> forall t, 0 <= t <= T -> f t = f 0.
Proof.
  intros HT H t Ht. destruct (Req_dec t 0) as [->|N]; [reflexivity|].
  destruct (MVT_gen f 0 t (fun _ => 0)) as (c & _ & E).
  - intros z Hz. rewrite Rmin_left, Rmax_right in Hz by lra. apply H. lra.
  - intros z Hz. rewrite Rmin_left, Rmax_right in Hz by lra. eapply rd_continuous, H. lra.
  - lra.
Qed.

Section Motion.
Variables (mu T : R) (pos vel : R -> rvec).
Hypothesis Hmu : 0 < mu.
Hypothesis HT : 0 < T.
Hypothesis Hm : two_body_motion mu pos vel 0 T.

Let px t := vx (pos t).
Let py t := vy (pos t).
Let pz t := vz (pos t).
Let wx t := vx (vel t).
Let wy t := vy (vel t).
Let wz t := vz (vel t).
Let rho t := sqrt (px t * px t + py t * py t + pz t * pz t).
Let dt t := px t * wx t + py t * wy t + pz t * wz t.
Let ww t := wx t * wx t + wy t * wy t + wz t * wz t.

Lemma km_rho t : vnorm (pos t) = rho t.
Proof. reflexivity. Qed.

Lemma km_sq t : 0 <= t <= T -> 0 < px t * px t + py t * py t + pz t * pz t.
Proof. intros Ht. destruct (Hm t Ht) as (N & _). apply vdot_nonzero in N. exact N. Qed.
Lemma km_rho_pos t : 0 <= t <= T -> 0 < rho t /\ rho t * rho t = px t * px t + py t * py t + pz t * pz t.
Proof. intros Ht. apply sqrt_pos_facts. now apply km_sq. Qed.

Lemma km_dp t : 0 <= t <= T ->
  is_derive px t (wx t) /\ is_derive py t (wy t) /\ is_derive pz t (wz t) /\
  is_derive wx t (- mu / rho t ^ 3 * px t) /\ is_derive wy t (- mu / rho t ^ 3 * py t) /\
  is_derive wz t (- mu / rho t ^ 3 * pz t).
Proof. intros Ht. destruct (Hm t Ht) as (_ & (A & B & C) & (D & E & F)). exact (conj A (conj B (conj C (conj D (conj E F))))). Qed.

Ltac leaf := eassumption.

Lemma km_drho t : 0 <= t <= T -> is_derive rho t (dt t / rho t).
Proof.
  intros Ht. destruct (km_dp t Ht) as (A & B & C & _). pose proof (km_sq t Ht) as P.
  destruct (km_rho_pos t Ht) as [Q _]. unfold rho at 1.
  rd leaf; [exact P|]. fold (rho t). unfold dt. field. lra.
Qed.
Lemma km_ddt t : 0 <= t <= T -> is_derive dt t (ww t - mu / rho t).
Proof.
  intros Ht. destruct (km_dp t Ht) as (A & B & C & D & E & F). destruct (km_rho_pos t Ht) as [Q1 Q2].
  unfold dt. rd leaf. unfold ww.
  replace (mu / rho t) with (mu / rho t ^ 3 * (rho t * rho t)) by (field; lra). rewrite Q2. field. lra.
Qed.
Lemma km_dww t : 0 <= t <= T -> is_derive ww t (- 2 * mu / rho t ^ 3 * dt t).
Proof.
  intros Ht. destruct (km_dp t Ht) as (A & B & C & D & E & F). destruct (km_rho_pos t Ht) as [Q1 Q2].
  unfold ww. rd leaf. unfold dt. field. lra.
Qed.

(** Angular momentum. *)
Lemma km_momentum t : 0 <= t <= T -> vcross (pos t) (vel t) = vcross (pos 0) (vel 0).
Proof.
  intros Ht. unfold vcross. fold (px t) (py t) (pz t) (wx t) (wy t) (wz t) (px 0) (py 0) (pz 0) (wx 0) (wy 0) (wz 0).
  f_equal.
  - apply (derive_0_const (fun t => py t * wz t - pz t * wy t) T); auto. intros s Hs.
    destruct (km_dp s Hs) as (A & B & C & D & E & F). rd leaf. ring.
  - apply (derive_0_const (fun t => pz t * wx t - px t * wz t) T); auto. intros s Hs.
    destruct (km_dp s Hs) as (A & B & C & D & E & F). rd leaf. ring.
  - apply (derive_0_const (fun t => px t * wy t - py t * wx t) T); auto. intros s Hs.
    destruct (km_dp s Hs) as (A & B & C & D & E & F). rd leaf. ring.
Qed.

(** Energy. *)
Let al t := 2 / rho t - ww t / mu.
Lemma km_al t : 0 <= t <= T -> al t = al 0.
Proof.
  apply (derive_0_const al T); auto. intros s Hs. destruct (km_rho_pos s Hs) as [Q1 Q2].
  pose proof (km_drho s Hs). pose proof (km_dww s Hs). unfold al. rd leaf; try lra.
  field. lra.
Qed.

(** One component [p] of the position, [w] of the velocity. *)
Section Component.
Variables p w : R -> R.
Hypothesis Hp : forall t, 0 <= t <= T -> is_derive p t (w t).
Hypothesis Hw : forall t, 0 <= t <= T -> is_derive w t (- mu / rho t ^ 3 * p t).
Let ec t := (ww t / mu - 1 / rho t) * p t - dt t / mu * w t.
Lemma km_ec t : 0 <= t <= T -> ec t = ec 0.
Proof.
  apply (derive_0_const ec T); auto. intros s Hs. destruct (km_rho_pos s Hs) as [Q1 Q2].
  pose proof (km_drho s Hs). pose proof (km_dww s Hs). pose proof (km_ddt s Hs). pose proof (Hp s Hs). pose proof (Hw s Hs).
  unfold ec. rd leaf; try lra. field. lra.
Qed.
End Component.

(** The universal anomaly. *)
Let sm := sqrt mu.
Let a0 := al 0.
Let chi t := (dt t - dt 0) / sm + a0 * sm * t.
Lemma km_sm : 0 < sm /\ sm * sm = mu.
Proof. apply sqrt_pos_facts; assumption. Qed.
Lemma km_chi0 : chi 0 = 0.
Proof. unfold chi. destruct km_sm. field. lra. Qed.
Lemma km_dchi t : 0 <= t <= T -> is_derive chi t (sm / rho t).
Proof.
  intros Ht. destruct (km_rho_pos t Ht) as [Q1 Q2]. destruct km_sm as [S1 S2].
  pose proof (km_ddt t Ht). unfold chi. rd leaf; try lra.
  unfold a0. rewrite <- (km_al t Ht). unfold al. rewrite <- S2. field. lra.
Qed.

(** A linear equation in the anomaly with zero initial data has the zero
    solution. *)
Lemma km_linear (d e : R -> R) :
  (forall t, 0 <= t <= T -> is_derive d t (e t * (sm / rho t))) ->
  (forall t, 0 <= t <= T -> is_derive e t (- a0 * d t * (sm / rho t))) ->
  d 0 = 0 -> e 0 = 0 -> forall t, 0 <= t <= T -> d t = 0 /\ e t = 0.
Proof.
  intros Hd He D0 E0 t Ht.
  assert (DU : forall s, 0 <= s <= T -> is_derive (fun s => U0 a0 (chi s)) s (sm / rho s * (- a0 * U1 a0 (chi s)))).
  { intros s Hs. apply (rd_comp (U0 a0) chi); [apply U0_derive|now apply km_dchi]. }
  assert (DV : forall s, 0 <= s <= T -> is_derive (fun s => U1 a0 (chi s)) s (sm / rho s * U0 a0 (chi s))).
  { intros s Hs. apply (rd_comp (U1 a0) chi); [apply U1_derive|now apply km_dchi]. }
  set (u := fun s => U0 a0 (chi s)) in *. set (v := fun s => U1 a0 (chi s)) in *.
  assert (K1 : u t * d t - v t * e t = u 0 * d 0 - v 0 * e 0).
  { apply (derive_0_const (fun t => u t * d t - v t * e t) T); auto. intros s Hs.
    pose proof (DU s Hs). pose proof (DV s Hs). pose proof (Hd s Hs). pose proof (He s Hs).
    rd leaf. fold (u s) (v s). ring. }
  assert (K2 : a0 * v t * d t + u t * e t = a0 * v 0 * d 0 + u 0 * e 0).
  { apply (derive_0_const (fun t => a0 * v t * d t + u t * e t) T); auto. intros s Hs.
    pose proof (DU s Hs). pose proof (DV s Hs). pose proof (Hd s Hs). pose proof (He s Hs).
    rd leaf. fold (u s) (v s). ring. }
  rewrite D0, E0 in K1, K2.
  assert (I : u t * u t + a0 * (v t * v t) = 1).
  { unfold u, v. rewrite U1_sq, U0_U2. ring. }
  split.
  - transitivity ((u t * u t + a0 * (v t * v t)) * d t); [rewrite I; ring|].
    transitivity (u t * (u t * d t - v t * e t) + v t * (a0 * v t * d t + u t * e t)); [ring|].
    rewrite K1, K2. ring.
  - transitivity ((u t * u t + a0 * (v t * v t)) * e t); [rewrite I; ring|].
    transitivity (- a0 * v t * (u t * d t - v t * e t) + u t * (a0 * v t * d t + u t * e t)); [ring|].
    rewrite K1, K2. ring.
Qed.

Let r0v := pos 0.
Let v0v := vel 0.
Hypothesis Hh : vcross r0v v0v <> vzero.
Let us x := - a0 * rho 0 * U1 a0 x + dt 0 / sm * U0 a0 x + U1 a0 x.

Lemma km_ends : 0 <= 0 <= T.
Proof. lra. Qed.

Lemma km_radius t : 0 <= t <= T -> rho t = ur mu r0v v0v (chi t) /\ dt t / sm = us (chi t).
Proof.
  intros Ht. destruct km_sm as [S1 S2].
  destruct (km_linear (fun t => rho t - ur mu r0v v0v (chi t)) (fun t => dt t / sm - us (chi t))) with (t := t) as [A B]; auto.
  - intros s Hs. destruct (km_rho_pos s Hs) as [Q1 Q2]. eapply rd_eq.
    + apply (rd_minus rho (fun t => ur mu r0v v0v (chi t))); [now apply km_drho|].
      apply (rd_comp (ur mu r0v v0v) chi); [apply ur_derive|now apply km_dchi].
    + req. cbv beta. unfold us. change (2 / vnorm r0v - vdot v0v v0v / mu) with a0. change (vnorm r0v) with (rho 0).
      change (vdot r0v v0v) with (dt 0). change (sqrt mu) with sm. field. lra.
  - intros s Hs. destruct (km_rho_pos s Hs) as [Q1 Q2]. eapply rd_eq.
    + apply (rd_minus (fun t => dt t / sm) (fun t => us (chi t))).
      * pose proof (km_ddt s Hs). rd leaf; [lra|]. reflexivity.
      * unfold us. apply (rd_comp us chi); [|now apply km_dchi]. unfold us.
        pose proof (U0_derive a0 (chi s)). pose proof (U1_derive a0 (chi s)). rd leaf. reflexivity.
    + req. cbv beta. unfold ur. change (2 / vnorm r0v - vdot v0v v0v / mu) with a0. change (vnorm r0v) with (rho 0).
      change (vdot r0v v0v) with (dt 0). change (sqrt mu) with sm.
      replace (ww s) with (mu * (2 / rho s - a0)) by (unfold a0; rewrite <- (km_al s Hs); unfold al; field; lra).
      rewrite <- S2. rewrite (U0_U2 a0 (chi s)). field. lra.
  - rewrite km_chi0. unfold ur. change (2 / vnorm r0v - vdot v0v v0v / mu) with a0.
    destruct (U_at_0 a0) as (-> & -> & -> & _). change (vnorm r0v) with (rho 0). ring.
  - rewrite km_chi0. unfold us. destruct (U_at_0 a0) as (-> & -> & _ & _). ring.
  - split; lra.
Qed.

(** The components. *)
Lemma km_component (p w : R -> R) :
  (forall t, 0 <= t <= T -> is_derive p t (w t)) ->
  (forall t, 0 <= t <= T -> is_derive w t (- mu / rho t ^ 3 * p t)) ->
  forall t, 0 <= t <= T ->
    p t = uf mu r0v v0v (chi t) * p 0 + ug mu r0v v0v (chi t) * w 0 /\
    w t = ufd mu r0v v0v (chi t) * p 0 + ugd mu r0v v0v (chi t) * w 0.
Proof.
  intros Hp Hw t Ht. destruct km_sm as [S1 S2].
  destruct (km_rho_pos 0 km_ends) as [R1 R2].
  set (up := fun x => uf mu r0v v0v x * p 0 + ug mu r0v v0v x * w 0).
  set (uw := fun x => - U1 a0 x / rho 0 * p 0 + (rho 0 * U0 a0 x + dt 0 / sm * U1 a0 x) / sm * w 0).
  assert (Duw : forall x, ur mu r0v v0v x / sm * (ufd mu r0v v0v x * p 0 + ugd mu r0v v0v x * w 0) = uw x).
  { intros x. unfold uw, ufd, ugd. pose proof (ur_pos mu r0v v0v Hmu Hh x) as P.
    change (2 / vnorm r0v - vdot v0v v0v / mu) with a0. change (vnorm r0v) with (rho 0). change (sqrt mu) with sm.
    replace (rho 0 * U0 a0 x + dt 0 / sm * U1 a0 x) with (ur mu r0v v0v x - U2 a0 x)
      by (unfold ur; change (2 / vnorm r0v - vdot v0v v0v / mu) with a0; change (vnorm r0v) with (rho 0);
          change (vdot r0v v0v) with (dt 0); change (sqrt mu) with sm; ring).
    field. repeat split; lra. }
  destruct (km_linear (fun t => p t - up (chi t)) (fun t => rho t / sm * w t - uw (chi t))) with (t := t) as [A B]; auto.
  - intros s Hs. destruct (km_rho_pos s Hs) as [Q1 Q2]. eapply rd_eq.
    + apply (rd_minus p (fun t => up (chi t))); [now apply Hp|].
      apply (rd_comp up chi); [|now apply km_dchi]. unfold up.
      apply (lin_derive (uf mu r0v v0v) (ug mu r0v v0v)); [now apply uf_derive|now apply ug_derive].
    + req. cbv beta. rewrite <- Duw. change (sqrt mu) with sm. field. lra.
  - intros s Hs. destruct (km_rho_pos s Hs) as [Q1 Q2]. eapply rd_eq.
    + apply (rd_minus (fun t => rho t / sm * w t) (fun t => uw (chi t))).
      * pose proof (km_drho s Hs). pose proof (Hw s Hs). rd leaf; [lra|]. reflexivity.
      * apply (rd_comp uw chi); [|now apply km_dchi]. unfold uw.
        pose proof (U0_derive a0 (chi s)). pose proof (U1_derive a0 (chi s)). rd leaf; try lra. reflexivity.
    + req. cbv beta. pose proof (km_ec p w Hp Hw s Hs) as EC. cbv beta in EC.
      unfold up, uf, ug. change (2 / vnorm r0v - vdot v0v v0v / mu) with a0. change (vnorm r0v) with (rho 0).
      change (vdot r0v v0v) with (dt 0). change (sqrt mu) with sm.
      assert (Es : ww s = mu * (2 / rho s - a0)) by (unfold a0; rewrite <- (km_al s Hs); unfold al; field; lra).
      assert (E0 : ww 0 = mu * (2 / rho 0 - a0)) by (unfold a0, al; field; lra).
      rewrite Es, E0 in EC.
      replace ((mu * (2 / rho s - a0) / mu - 1 / rho s) * p s) with ((1 / rho s - a0) * p s) in EC by (field; lra).
      replace ((mu * (2 / rho 0 - a0) / mu - 1 / rho 0) * p 0) with ((1 / rho 0 - a0) * p 0) in EC by (field; lra).
      rewrite <- S2 in EC |- *.
      assert (EC' : dt s * w s = sm * sm * ((1 / rho s - a0) * p s - (1 / rho 0 - a0) * p 0) + dt 0 * w 0).
      { apply Rmult_eq_reg_r with (/ (sm * sm)); [|apply Rinv_neq_0_compat; nra].
        transitivity (dt s / (sm * sm) * w s); [field; lra|].
        replace (dt s / (sm * sm) * w s) with ((1 / rho s - a0) * p s - ((1 / rho 0 - a0) * p 0 - dt 0 / (sm * sm) * w 0)) by (rewrite <- EC; ring).
        field. lra. }
      rewrite (U0_U2 a0 (chi s)).
      transitivity (dt s * w s / (rho s * sm) - sm * p s / (rho s * rho s)
        - sm / rho s * (- (1 - a0 * U2 a0 (chi s)) / rho 0 * p 0 + (- a0 * rho 0 * U1 a0 (chi s) + dt 0 / sm * (1 - a0 * U2 a0 (chi s))) / sm * w 0)).
      { field. repeat split; lra. }
      rewrite EC'. field. repeat split; lra.
  - rewrite km_chi0. unfold up. unfold uf, ug. change (2 / vnorm r0v - vdot v0v v0v / mu) with a0.
    destruct (U_at_0 a0) as (_ & -> & -> & _). change (vnorm r0v) with (rho 0). change (sqrt mu) with sm. field. lra.
  - rewrite km_chi0. unfold uw. destruct (U_at_0 a0) as (-> & -> & _ & _). field. lra.
  - split; [unfold up in A; lra|]. rewrite <- Duw in B.
    destruct (km_radius t Ht) as [R _]. destruct (km_rho_pos t Ht) as [Q1 Q2]. rewrite <- R in B.
    change (sqrt mu) with sm in B.
    apply Rmult_eq_reg_l with (rho t / sm); [lra|]. apply Rgt_not_eq, Rdiv_lt_0_compat; assumption.
Qed.

Theorem motion_universal : exists x, 0 < x /\
  ut mu r0v v0v x = T /\ pos T = upos mu r0v v0v x /\ vel T = uvel mu r0v v0v x.
Proof.
  destruct km_sm as [S1 S2]. assert (HTT : 0 <= T <= T) by lra.
  assert (ET : ut mu r0v v0v (chi T) = T).
  { assert (E : ut mu r0v v0v (chi T) - T = ut mu r0v v0v (chi 0) - 0).
    { apply (derive_0_const (fun t => ut mu r0v v0v (chi t) - t) T); auto. intros s Hs.
      destruct (km_rho_pos s Hs) as [Q1 Q2]. destruct (km_radius s Hs) as [R _]. eapply rd_eq.
      - apply (rd_minus (fun t => ut mu r0v v0v (chi t)) (fun t => t)); [|apply rd_id].
        apply (rd_comp (ut mu r0v v0v) chi); [now apply ut_derive|now apply km_dchi].
      - req. cbv beta. rewrite <- R. change (sqrt mu) with sm. field. lra. }
    rewrite km_chi0, (ut_0 mu r0v v0v Hmu) in E. lra. }
  exists (chi T). split; [|split; [exact ET|]].
  - destruct (Rlt_dec 0 (chi T)) as [|N]; [assumption|]. exfalso.
    pose proof (ut_0 mu r0v v0v Hmu) as Z. destruct (Req_dec (chi T) 0) as [E|E]; [rewrite E in ET; lra|].
    assert (L : chi T < 0) by lra. apply (ut_increasing mu r0v v0v Hmu Hh) in L. lra.
  - assert (DP : forall t, 0 <= t <= T -> _) by exact km_dp.
    destruct (km_component px wx) with (t := T) as [X1 X2]; [intros s Hs; apply (DP s Hs)..|exact HTT|].
    destruct (km_component py wy) with (t := T) as [Y1 Y2]; [intros s Hs; apply (DP s Hs)..|exact HTT|].
    destruct (km_component pz wz) with (t := T) as [Z1 Z2]; [intros s Hs; apply (DP s Hs)..|exact HTT|].
    split; apply vec_eq; assumption.
Qed.
End Motion.

(** A motion between two positions that are not collinear has angular momentum. *)
Lemma transfer_momentum mu r1 v1 r2 v2 T :
  0 < mu -> non_collinear r1 r2 -> transfer mu r1 v1 r2 v2 T -> vcross r1 v1 <> vzero.
Proof.
  intros Hmu Hn (HT & pos & vel & Hm & E1 & E2 & E3 & E4) Z. apply Hn. subst r1 v1 r2 v2.
  assert (K : forall t, 0 <= t <= T -> vcross (pos t) (vel t) = vzero).
  { intros t Ht. rewrite <- Z. now apply (km_momentum mu T). }
  (* the direction of the position is constant *)
  set (rho := fun t => vnorm (pos t)).
  assert (D : forall (q : rvec -> R) (dq : R -> R), (forall t, 0 <= t <= T -> is_derive (fun t => q (pos t)) t (dq t)) ->
    (forall t, 0 <= t <= T -> dq t * vdot (pos t) (pos t) = q (pos t) * vdot (pos t) (vel t)) ->
    q (pos T) / rho T = q (pos 0) / rho 0).
  { intros q dq Hq Hc. apply (derive_0_const (fun t => q (pos t) / rho t) T); try lra. intros s Hs.
    destruct (km_rho_pos mu T pos vel Hm s Hs) as [Q1 Q2].
    pose proof (km_drho mu T pos vel Hm s Hs) as DR. eapply rd_eq.
    - apply (rd_div (fun t => q (pos t)) rho); [now apply Hq|exact DR|unfold rho; change (vnorm (pos s)) with (sqrt (vx (pos s) * vx (pos s) + vy (pos s) * vy (pos s) + vz (pos s) * vz (pos s))); lra].
    - req. cbv beta. pose proof (Hc s Hs) as C. unfold rho, vnorm, vdot in *.
      set (r := sqrt (vx (pos s) * vx (pos s) + vy (pos s) * vy (pos s) + vz (pos s) * vz (pos s))) in *.
      rewrite <- Q2 in C. set (d := _ + vz (pos s) * vz (vel s)) in *.
      replace ((dq s * r - q (pos s) * (d / r)) / (r * r)) with ((dq s * (r * r) - q (pos s) * d) / (r * r * r)) by (field; lra).
      rewrite C. unfold Rdiv. ring. }
  assert (HK : forall t, 0 <= t <= T -> let p := pos t in let w := vel t in
    vy p * vz w - vz p * vy w = 0 /\ vz p * vx w - vx p * vz w = 0 /\ vx p * vy w - vy p * vx w = 0).
  { intros t Ht p w. pose proof (K t Ht) as E. unfold vcross, vzero in E. injection E as A B C. auto. }
  assert (P0 : 0 < rho 0). { destruct (km_rho_pos mu T pos vel Hm 0) as [Q _]; [lra|exact Q]. }
  assert (PT : 0 < rho T). { destruct (km_rho_pos mu T pos vel Hm T) as [Q _]; [lra|exact Q]. }
  assert (X : vx (pos T) / rho T = vx (pos 0) / rho 0).
  { apply (D (@vx R) (fun t => vx (vel t))); intros t Ht.
    - apply (Hm t Ht).
    - destruct (HK t Ht) as (A & B & C). cbv zeta in *. unfold vdot. set (a := pos t) in *. set (b := vel t) in *. 
      transitivity (vx a * (vx a * vx b + vy a * vy b + vz a * vz b) - vy a * (vx a * vy b - vy a * vx b) + vz a * (vz a * vx b - vx a * vz b)); [ring|rewrite B, C; ring]. }
  assert (Y : vy (pos T) / rho T = vy (pos 0) / rho 0).
  { apply (D (@vy R) (fun t => vy (vel t))); intros t Ht.
    - apply (Hm t Ht).
    - destruct (HK t Ht) as (A & B & C). cbv zeta in *. unfold vdot. set (a := pos t) in *. set (b := vel t) in *.
      transitivity (vy a * (vx a * vx b + vy a * vy b + vz a * vz b) + vx a * (vx a * vy b - vy a * vx b) - vz a * (vy a * vz b - vz a * vy b)); [ring|rewrite A, C; ring]. }
  assert (Zc : vz (pos T) / rho T = vz (pos 0) / rho 0).
  { apply (D (@vz R) (fun t => vz (vel t))); intros t Ht.
    - apply (Hm t Ht).
    - destruct (HK t Ht) as (A & B & C). cbv zeta in *. unfold vdot. set (a := pos t) in *. set (b := vel t) in *.
      transitivity (vz a * (vx a * vx b + vy a * vy b + vz a * vz b) - vx a * (vz a * vx b - vx a * vz b) + vy a * (vy a * vz b - vz a * vy b)); [ring|rewrite A, B; ring]. }
  assert (EX : vx (pos T) = vx (pos 0) / rho 0 * rho T) by (rewrite <- X; field; lra).
  assert (EY : vy (pos T) = vy (pos 0) / rho 0 * rho T) by (rewrite <- Y; field; lra).
  assert (EZ : vz (pos T) = vz (pos 0) / rho 0 * rho T) by (rewrite <- Zc; field; lra).
  unfold vcross, vzero. rewrite EX, EY, EZ. f_equal; field; lra.
Qed.

Theorem transfer_universal mu r1 v1 r2 v2 T :
  0 < mu -> non_collinear r1 r2 -> transfer mu r1 v1 r2 v2 T ->
  vcross r1 v1 <> vzero /\
  exists x, 0 < x /\ ut mu r1 v1 x = T /\ r2 = upos mu r1 v1 x /\ v2 = uvel mu r1 v1 x.
Proof.
  intros Hmu Hn H. pose proof (transfer_momentum mu r1 v1 r2 v2 T Hmu Hn H) as Hh. split; [exact Hh|].
  destruct H as (HT & pos & vel & Hm & <- & <- & <- & <-). now apply motion_universal.
Qed.
