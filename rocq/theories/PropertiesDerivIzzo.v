(** * The derivatives used by izzo2015 are those of its time equation: C27. *)
From Coq Require Import ZArith List Bool Lia Reals Lra Psatz.
From Coquelicot Require Import Coquelicot.
From Verif Require Import Num XReal XRealLemmas MApi MIzzo RDerive UniversalKepler LambertUV LambertRev LambertZ DelatorreXR Hyp2F1 IzzoXR.
Local Open Scope R_scope.

Section Izzo.
Variables (ll : R) (M : Z).
Hypothesis Hl : -1 < ll < 1.

(** Where the time equation is defined and differentiated: every [x > -1] but
    the parabola, and only ellipses with revolutions. *)
Definition izzo_domain (x : R) : Prop := -1 < x /\ x <> 1 /\ (M = 0%Z \/ x < 1).

(** Time of flight as a function of [x]. *)
Definition izzo_T (x : R) : R := xget (@izzo_tof XR (Fin x) (Fin 0) (Fin ll) (Fin (IZR M))).

Let Y (x : R) : R := sqrt (1 - ll * ll * (1 - x * x)).

Lemma Y_facts x : 0 < Y x /\ Y x * Y x = 1 - ll * ll * (1 - x * x).
Proof. apply sqrt_facts. assert (0 <= x * x) by nra. assert (0 <= ll * ll < 1) by nra. nra. Qed.
Lemma izzo_y_F x : @izzo_y XR (Fin x) (Fin ll) = Fin (Y x).
Proof.
  unfold izzo_y. xunf. cbn [xmul xsub xlift2]. rewrite xsqrt_F; [reflexivity|].
  destruct (Y_facts x) as [P E]. nra.
Qed.

Definition T_ell (x : R) : R := ((acos (x * Y x + ll * (1 - x * x)) + IZR M * PI) / sqrt (1 - x * x) - x + ll * Y x) / (1 - x * x).
Definition T_hyp (x : R) : R := (arcsinh (sqrt (x * x - 1) * (Y x - ll * x)) / sqrt (x * x - 1) - x + ll * Y x) / (1 - x * x).

Lemma izzo_T_F x : izzo_domain x ->
  @izzo_tof XR (Fin x) (Fin 0) (Fin ll) (Fin (IZR M)) = Fin (izzo_T x) /\
  izzo_T x = if Rlt_dec x 1 then T_ell x else T_hyp x.
Proof.
  intros (Hx & Hx1 & HM). destruct (Y_facts x) as [P E]. assert (P0 : 0 <= Y x) by lra.
  destruct (C0_inverse (x * Y x + ll * (1 - x * x))) as (z & Hz & EC & Hz0); [now apply xy_c_gt|].
  unfold izzo_T, izzo_tof. rewrite izzo_y_F.
  rewrite (izzo_tof_y_F 1 1 ll x (Y x) z M 0) by (auto; lra). cbn [xget]. split; [reflexivity|].
  rewrite Rminus_0_r. destruct (Rlt_dec x 1) as [L|L].
  - assert (Hc : -1 < x * Y x + ll * (1 - x * x) < 1) by (apply xy_c_ell; auto; lra).
    specialize (Hz0 (proj2 Hc)). destruct (sqrt_below_PI z Hz0 Hz) as [W1 W1']. pose proof (sqrt_sqrt z (Rlt_le _ _ Hz0)) as W2.
    rewrite (izzo_time_ell 1 1 ll x (Y x) z M) with (w := sqrt z) by (auto; lra).
    unfold T_ell. rewrite <- EC. rewrite <- W2 at 2. rewrite C0_ell, acos_cos by lra. reflexivity.
  - destruct HM as [HM|HM]; [|contradiction]. assert (L1 : 1 < x) by lra.
    assert (Hc : 1 < x * Y x + ll * (1 - x * x)) by (apply xy_c_hyp; auto; lra).
    assert (Hzn : z < 0).
    { destruct (Rlt_dec z 0) as [|N]; [assumption|exfalso]. unfold C0, U0 in EC.
      destruct (Rlt_dec 0 z) as [Pz|Pz]; [|destruct (Rlt_dec z 0) as [|_]; [contradiction|lra]].
      destruct (COS_bound (sqrt z * 1)). lra. }
    destruct (sqrt_facts (- z)) as [W1 W2]; [lra|]. set (w := sqrt (- z)) in *.
    destruct (izzo_time_hyp 1 1 ll x (Y x) z M ltac:(lra) ltac:(lra) Hl P0 E Hz EC w L1 ltac:(lra) W1 HM) as [-> ES].
    unfold T_hyp. rewrite <- ES, arcsinh_sinh. reflexivity.
Qed.

Lemma Y_derive x : is_derive Y x (ll * ll * x / Y x).
Proof.
  unfold Y. destruct (Y_facts x) as [P E]. unfold Y in P, E.
  eapply rd_eq; [rd_step idtac; rewrite <- E; nra|]. req. field. fold (Y x) in *. lra.
Qed.

Lemma acos_derive c : -1 < c < 1 -> is_derive acos c (- / sqrt (1 - c * c)).
Proof.
  intros H. assert (S : 0 < sqrt (1 - c * c)) by (apply sqrt_lt_R0; nra).
  eapply rd_eq; [apply is_derive_Reals, (derive_pt_eq_1 acos c _ (derivable_pt_acos c H)), derive_pt_acos|].
  req. unfold Rsqr. field. lra.
Qed.

Definition T1 (T x : R) : R := (3 * T * x - 2 + 2 * (ll * ll * ll) * x / Y x) / (1 - x * x).
Definition T2 (T x : R) : R := (3 * T + 5 * x * T1 T x + 2 * (1 - ll * ll) * (ll * ll * ll) / (Y x * Y x * Y x)) / (1 - x * x).
Definition T3 (T x : R) : R :=
  (7 * x * T2 T x + 8 * T1 T x - 6 * (1 - ll * ll) * (ll * ll * ll * ll * ll) * x / (Y x * Y x * Y x * Y x * Y x)) / (1 - x * x).

Lemma T_ell_derive x : -1 < x < 1 -> is_derive T_ell x (T1 (T_ell x) x).
Proof.
  intros Hx. destruct (Y_facts x) as [P E]. assert (P0 : 0 <= Y x) by lra.
  assert (Q : 0 < 1 - x * x) by nra. destruct (sqrt_facts _ Q) as [Q1 Q2].
  pose proof (xy_c_ell ll x (Y x) Hl P0 E Hx) as Hc. pose proof (xy_c2 ll x (Y x) E) as C2. pose proof (xy_eta ll x (Y x) Hl P0 E) as He.
  assert (SC : sqrt (1 - (x * Y x + ll * (1 - x * x)) * (x * Y x + ll * (1 - x * x))) = sqrt (1 - x * x) * (Y x - ll * x)).
  { rewrite C2. replace (1 - (1 - (1 - x * x) * ((Y x - ll * x) * (Y x - ll * x)))) with ((1 - x * x) * ((Y x - ll * x) * (Y x - ll * x))) by ring.
    rewrite sqrt_mult by nra. now rewrite (sqrt_square (Y x - ll * x)) by lra. }
  assert (Dc : is_derive (fun x => x * Y x + ll * (1 - x * x)) x ((Y x - ll * x) * (Y x - ll * x) / Y x)).
  { eapply rd_eq; [rd_step ltac:(idtac; apply Y_derive)|]. req.
    transitivity ((Y x * Y x - 2 * ll * x * Y x + ll * ll * (x * x)) / Y x); [field; lra|field; lra]. }
  assert (Da : is_derive (fun x => acos (x * Y x + ll * (1 - x * x))) x (- (Y x - ll * x) / (Y x * sqrt (1 - x * x)))).
  { eapply rd_eq; [apply (rd_comp acos (fun x => x * Y x + ll * (1 - x * x))); [apply acos_derive; exact Hc|exact Dc]|].
    req. rewrite SC. field. repeat split; lra. }
  unfold T_ell at 1.
  eapply rd_eq; [rd_step ltac:(idtac; lazymatch goal with |- is_derive (fun _ => Y _) _ _ => apply Y_derive | _ => exact Da end); lra|].
  req. unfold T1, T_ell. set (a := acos _). set (q := sqrt (1 - x * x)) in *. clearbody a q. set (y := Y x) in *. clearbody y.
  clear SC C2 Hc Da Dc. rewrite <- Q2.
  assert (Hx2 : x * x = 1 - q * q) by lra.
  assert (Hy2 : y * y = 1 - ll * ll * (q * q)) by (rewrite E, <- Q2; ring).
  set (m := IZR M * PI). clearbody m.
  field [Hx2 Hy2]; repeat split; lra.
Qed.

Lemma arcsinh_derive s : is_derive arcsinh s (/ sqrt (1 + s * s)).
Proof.
  eapply rd_eq; [apply is_derive_Reals, derivable_pt_lim_arcsinh|]. req. do 2 f_equal. ring.
Qed.

Lemma T_hyp_derive x : 1 < x -> is_derive T_hyp x (T1 (T_hyp x) x).
Proof.
  intros Hx. destruct (Y_facts x) as [P E]. assert (P0 : 0 <= Y x) by lra.
  assert (Q : 0 < x * x - 1) by nra. destruct (sqrt_facts _ Q) as [Q1 Q2].
  pose proof (xy_c_hyp ll x (Y x) Hl P0 E Hx) as Hc. pose proof (xy_c2 ll x (Y x) E) as C2. pose proof (xy_eta ll x (Y x) Hl P0 E) as He.
  set (c := x * Y x + ll * (1 - x * x)) in *.
  assert (SC : sqrt (1 + (sqrt (x * x - 1) * (Y x - ll * x)) * (sqrt (x * x - 1) * (Y x - ll * x))) = c).
  { replace (1 + _) with (c * c); [apply sqrt_square; lra|].
    rewrite C2. set (q := sqrt (x * x - 1)) in *. replace (1 - x * x) with (- (q * q)) by lra. ring. }
  assert (Ds : is_derive (fun x => sqrt (x * x - 1) * (Y x - ll * x)) x (c * (Y x - ll * x) / (Y x * sqrt (x * x - 1)))).
  { eapply rd_eq; [rd_step ltac:(idtac; apply Y_derive); lra|]. req. unfold c. clear C2 Hc SC. set (q := sqrt (x * x - 1)) in *. clearbody q.
    set (y := Y x) in *. clearbody y.
    assert (Hx2 : x * x = 1 + q * q) by lra.
    assert (Hy2 : y * y = 1 + ll * ll * (q * q)) by (rewrite E, Q2; ring).
    field [Hx2 Hy2]; repeat split; lra. }
  assert (Da : is_derive (fun x => arcsinh (sqrt (x * x - 1) * (Y x - ll * x))) x ((Y x - ll * x) / (Y x * sqrt (x * x - 1)))).
  { eapply rd_eq; [apply (rd_comp arcsinh (fun x => sqrt (x * x - 1) * (Y x - ll * x))); [apply arcsinh_derive|exact Ds]|].
    req. rewrite SC. field. repeat split; lra. }
  unfold T_hyp at 1.
  eapply rd_eq; [rd_step ltac:(idtac; lazymatch goal with |- is_derive (fun _ => Y _) _ _ => apply Y_derive | _ => exact Da end); lra|].
  req. unfold T1, T_hyp. set (a := arcsinh _). set (q := sqrt (x * x - 1)) in *. clearbody a q. set (y := Y x) in *. clearbody y.
  clear SC C2 Hc Da Ds. 
  assert (Hx2 : x * x = 1 + q * q) by lra.
  assert (Hy2 : y * y = 1 + ll * ll * (q * q)) by (rewrite E, Q2; ring).
  field [Hx2 Hy2]; repeat split; nra.
Qed.

Lemma izzo_T_derive x : izzo_domain x -> is_derive izzo_T x (T1 (izzo_T x) x).
Proof.
  intros D. pose proof D as (Hx & Hx1 & HM). destruct (izzo_T_F x D) as [_ ->].
  destruct (Rlt_dec x 1) as [L|L].
  - eapply is_derive_ext_loc; [|apply T_ell_derive; lra].
    exists (mkposreal (Rmin (x + 1) (1 - x)) ltac:(apply Rmin_pos; lra)). intros t Ht.
    unfold ball in Ht; simpl in Ht. unfold AbsRing_ball, abs, minus, plus, opp in Ht; simpl in Ht.
    pose proof (Rmin_l (x + 1) (1 - x)); pose proof (Rmin_r (x + 1) (1 - x)). apply Rabs_def2 in Ht.
    destruct (izzo_T_F t) as [_ ->]; [split; [lra|split; [lra|right; lra]]|]. destruct (Rlt_dec t 1); [reflexivity|lra].
  - eapply is_derive_ext_loc; [|apply T_hyp_derive; lra].
    exists (mkposreal (x - 1) ltac:(lra)). intros t Ht.
    unfold ball in Ht; simpl in Ht. unfold AbsRing_ball, abs, minus, plus, opp in Ht; simpl in Ht.
    apply Rabs_def2 in Ht.
    destruct (izzo_T_F t) as [_ ->]; [split; [lra|split; [lra|left; destruct HM; [assumption|lra]]]|]. destruct (Rlt_dec t 1); [lra|reflexivity].
Qed.

Definition d1 (x : R) := T1 (izzo_T x) x.
Definition d2 (x : R) := T2 (izzo_T x) x.
Definition d3 (x : R) := T3 (izzo_T x) x.

Lemma d1_derive x : izzo_domain x -> is_derive d1 x (d2 x).
Proof.
  intros D. pose proof D as (Hx & Hx1 & HM). destruct (Y_facts x) as [P E].
  assert (NZ : 1 - x * x <> 0) by (intros H; apply Hx1; nra).
  unfold d1, T1.
  eapply rd_eq; [rd_step ltac:(idtac; lazymatch goal with |- is_derive (fun _ => Y _) _ _ => apply Y_derive | _ => apply izzo_T_derive, D end); lra|].
  req. unfold d2, T2, T1. set (T := izzo_T x). set (y := Y x) in *. clearbody y T.
  assert (Hy2 : y * y = 1 - ll * ll * (1 - x * x)) by lra.
  field [Hy2]; repeat split; lra.
Qed.

Lemma d2_derive x : izzo_domain x -> is_derive d2 x (d3 x).
Proof.
  intros D. pose proof D as (Hx & Hx1 & HM). destruct (Y_facts x) as [P E].
  assert (NZ : 1 - x * x <> 0) by (intros H; apply Hx1; nra).
  unfold d2, T2.
  eapply rd_eq; [rd_step ltac:(idtac; lazymatch goal with |- is_derive (fun _ => Y _) _ _ => apply Y_derive | |- is_derive (fun _ => T1 _ _) _ _ => apply d1_derive, D | _ => apply izzo_T_derive, D end); first [lra|apply Rgt_not_eq; nra|idtac]|].
  { apply Rgt_not_eq. apply Rmult_lt_0_compat; [apply Rmult_lt_0_compat|]; lra. }
  req. unfold d3, T3. change (d2 x) with (T2 (izzo_T x) x). unfold T2. change (T1 (izzo_T x) x) with (d1 x).
  set (T := izzo_T x) in *. set (D1 := d1 x) in *. set (y := Y x) in *. clearbody y T D1.
  field; repeat split; lra.
Qed.

(** The formulas of the source are the ones above. *)
Lemma izzo_tof_p_F x T : izzo_domain x ->
  @izzo_tof_p XR (Fin x) (@izzo_y XR (Fin x) (Fin ll)) (Fin T) (Fin ll) = Fin (T1 T x).
Proof.
  intros (Hx & Hx1 & HM). destruct (Y_facts x) as [P E].
  assert (NZ : 1 - x * x <> 0) by (intros H; apply Hx1; nra). rewrite izzo_y_F.
  unfold izzo_tof_p, cube, sq. xunf. cbn [xmul xsub xadd xlift2]. rewrite ?xdiv_F by lra. cbn [xmul xsub xadd xlift2].
  rewrite ?xdiv_F by lra. apply f_equal. unfold T1. field; repeat split; lra.
Qed.
Lemma izzo_tof_p2_F x T : izzo_domain x ->
  @izzo_tof_p2 XR (Fin x) (@izzo_y XR (Fin x) (Fin ll)) (Fin T) (Fin (T1 T x)) (Fin ll) = Fin (T2 T x).
Proof.
  intros (Hx & Hx1 & HM). destruct (Y_facts x) as [P E].
  assert (NZ : 1 - x * x <> 0) by (intros H; apply Hx1; nra). rewrite izzo_y_F.
  assert (P3 : Y x * Y x * Y x <> 0) by (apply Rgt_not_eq; repeat apply Rmult_lt_0_compat; lra).
  unfold izzo_tof_p2, cube, sq. xunf. cbn [xmul xsub xadd xlift2]. rewrite ?xdiv_F by lra. cbn [xmul xsub xadd xlift2].
  rewrite ?xdiv_F by lra. apply f_equal. unfold T2. field; repeat split; lra.
Qed.
Lemma izzo_tof_p3_F x T : izzo_domain x ->
  @izzo_tof_p3 XR (Fin x) (@izzo_y XR (Fin x) (Fin ll)) (Fin (T1 T x)) (Fin (T2 T x)) (Fin ll) = Fin (T3 T x).
Proof.
  intros (Hx & Hx1 & HM). destruct (Y_facts x) as [P E].
  assert (NZ : 1 - x * x <> 0) by (intros H; apply Hx1; nra). rewrite izzo_y_F.
  assert (P5 : Y x * (Y x * (Y x * (Y x * Y x))) <> 0) by (apply Rgt_not_eq; repeat apply Rmult_lt_0_compat; lra).
  unfold izzo_tof_p3, sq. cbn [npown]. xunf. cbn [xmul xsub xadd xlift2]. rewrite ?xdiv_F by lra. cbn [xmul xsub xadd xlift2].
  rewrite ?xdiv_F by lra. apply f_equal. unfold T3. field; repeat split; lra.
Qed.
End Izzo.

(** ** C27 for izzo2015: the three formulas of the Householder step are the
    first three derivatives of the time equation, for every [lambda] and every
    number of revolutions. *)
Theorem C27_izzo_derivatives : forall (ll : R) (M : Z), -1 < ll < 1 ->
  exists T' T'' T''' : R -> R, forall x : R,
    -1 < x -> x <> 1 -> (M = 0%Z \/ x < 1) ->
    let T := fun x => xget (@izzo_tof XR (Fin x) (Fin 0) (Fin ll) (Fin (IZR M))) in
    let y := @izzo_y XR (Fin x) (Fin ll) in
    @izzo_tof XR (Fin x) (Fin 0) (Fin ll) (Fin (IZR M)) = Fin (T x) /\
    is_derive T x (T' x) /\ is_derive T' x (T'' x) /\ is_derive T'' x (T''' x) /\
    @izzo_tof_p XR (Fin x) y (Fin (T x)) (Fin ll) = Fin (T' x) /\
    @izzo_tof_p2 XR (Fin x) y (Fin (T x)) (Fin (T' x)) (Fin ll) = Fin (T'' x) /\
    @izzo_tof_p3 XR (Fin x) y (Fin (T' x)) (Fin (T'' x)) (Fin ll) = Fin (T''' x).
Proof.
  intros ll M Hl. exists (d1 ll M), (d2 ll M), (d3 ll M). intros x H1 H2 H3.
  assert (D : izzo_domain M x) by (repeat split; auto). cbv zeta.
  split; [apply (izzo_T_F ll M Hl x D)|]. split; [apply izzo_T_derive; auto|]. split; [apply d1_derive; auto|].
  split; [apply d2_derive; auto|]. split; [apply izzo_tof_p_F with (M := M); auto|].
  split; [apply izzo_tof_p2_F with (M := M); auto|apply izzo_tof_p3_F with (M := M); auto].
Qed.
Print Assumptions C27_izzo_derivatives.

(** [_compute_T_min] looks for the minimum of the time equation with Halley's
    method but keeps the time of the first guess in the derivative formulas
    (izzo.py:307-320).  A point where the loop is at rest is then not a
    stationary point of the time, unless it takes exactly the time of the guess:
    the value used as shortest time of [M] revolutions is not the minimum. *)
Theorem C27_izzo_halley_refuted : forall (ll : R) (M : Z) (T0 p : R), -1 < ll < 1 ->
  -1 < p < 1 -> p <> 0 ->
  @izzo_tof_p XR (Fin p) (@izzo_y XR (Fin p) (Fin ll)) (Fin T0) (Fin ll) = Fin 0 ->
  let T := fun x => xget (@izzo_tof XR (Fin x) (Fin 0) (Fin ll) (Fin (IZR M))) in
  T p <> T0 -> exists d, is_derive T p d /\ d <> 0.
Proof.
  intros ll M T0 p Hl Hp Hp0 HP T HT.
  assert (D : izzo_domain M p) by (repeat split; try right; lra).
  rewrite (izzo_tof_p_F ll M Hl p T0 D) in HP. apply Fin_inj in HP.
  exists (T1 ll (izzo_T ll M p) p). split; [apply izzo_T_derive; auto|].
  assert (Q : 0 < 1 - p * p) by nra.
  intros H. change (T p) with (izzo_T ll M p) in HT. apply HT.
  assert (E : T1 ll (izzo_T ll M p) p - T1 ll T0 p = 3 * p * (izzo_T ll M p - T0) / (1 - p * p)).
  { unfold T1, Rdiv. ring. }
  rewrite H, HP in E. unfold Rdiv in E.
  assert (3 * p * (izzo_T ll M p - T0) = 0).
  { apply (Rmult_eq_reg_r (/ (1 - p * p))); [lra|]. apply Rinv_neq_0_compat; lra. }
  nra.
Qed.
Print Assumptions C27_izzo_halley_refuted.

(** A case: [lambda = 0], one revolution, time constant [4/3]: the loop rests at
    [x = 1/2], where the time of flight is decidedly not stationary. *)
Example C27_izzo_halley_case :
  let T := fun x => xget (@izzo_tof XR (Fin x) (Fin 0) (Fin 0) (Fin (IZR 1))) in
  exists d, is_derive T (1 / 2) d /\ d <> 0.
Proof.
  assert (Hl : -1 < 0 < 1) by lra.
  assert (D : izzo_domain 1 (1 / 2)) by (repeat split; try right; lra).
  assert (EY : sqrt (1 - 0 * 0 * (1 - 1 / 2 * (1 / 2))) = 1) by (rewrite Rmult_0_l, Rmult_0_l, Rminus_0_r; apply sqrt_1).
  apply (C27_izzo_halley_refuted 0 1 (4 / 3) (1 / 2)); try lra.
  - rewrite (izzo_tof_p_F 0 1 Hl (1 / 2) (4 / 3) D). apply f_equal. unfold T1. rewrite EY. field.
  - destruct (izzo_T_F 0 1 Hl (1 / 2) D) as [_ E]. unfold izzo_T in E. rewrite E.
    destruct (Rlt_dec (1 / 2) 1) as [_|]; [|lra]. unfold T_ell. rewrite EY.
    pose proof (acos_bound (1 / 2 * 1 + 0 * (1 - 1 / 2 * (1 / 2)))) as A. pose proof PI2_3_2 as P.
    set (a := acos _) in *. clearbody a.
    assert (S : 0 < sqrt (1 - 1 / 2 * (1 / 2)) <= 1).
    { split; [apply sqrt_lt_R0; lra|]. apply Rle_trans with (sqrt 1); [apply sqrt_le_1; lra|rewrite sqrt_1; lra]. }
    set (q := sqrt (1 - 1 / 2 * (1 / 2))) in *. clearbody q. assert (3 < PI) by (unfold PI2 in P; lra).
    assert (3 <= (a + 1 * PI) / q).
    { apply Rmult_le_reg_r with q; [lra|]. unfold Rdiv. rewrite Rmult_assoc, Rinv_l by lra. lra. }
    lra.
Qed.
