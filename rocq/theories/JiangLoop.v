(** * The bracketing phase of jiang2016 in exact arithmetic. *)
From Coq Require Import Reals ZArith Bool Lra Lia Psatz String List.
From Verif Require Import Num XReal XRealLemmas MApi ApiFacts Loops MScipy MLinalg MAssertions MAngles MJiang
  Spec SpecLambert VecFacts VecXR UniversalKepler LambertUV LambertRev AnglesXR StumpffXR CallXR Godal GodalIzzo GodalXR
  DelatorreXR LambertZ StumpffSmooth ZMono KeplerUnique LambertExist OrbitXR GodalPan JiangXR BracketXR JiangRun JiangMono.
Local Open Scope R_scope.

Lemma non_collinear_valid mu r1 r2 tof : 0 < mu -> 0 < tof -> non_collinear r1 r2 -> valid_input mu r1 r2 tof 0.
Proof.
  intros Hm Ht Hn. repeat split; try assumption; try lia; intros E; apply Hn; subst; unfold vcross, vzero; cbn [vx vy vz]; f_equal; ring.
Qed.

Section Loop.
Variables (mu : R) (r1 r2 : rvec) (p : bool) (th : R).
Hypothesis Hm : 0 < mu.
Hypothesis Hn : non_collinear r1 r2.
Hypothesis F : angle_facts p r1 r2 th.
Hypothesis ET : @get_transfer_angle XR (vfin r1) (vfin r2) p = Fin th.
Let c := chord r1 r2.
Let s := semiper r1 r2.
Let Tp := p_time mu r1 r2 th.
Let Te := e_time mu r1 r2 th.
Let Th := h_time mu r1 r2 th.
Definition l_axis : R := s / 2 * (1 + 1 / 67108864).

Lemma Hc : 0 < c < s.
Proof. destruct (geo r1 r2 Hn) as (G1 & G2 & _). unfold c, s. lra. Qed.
Lemma l_axis_gt : s < 2 * l_axis.
Proof. unfold l_axis. pose proof Hc. lra. Qed.

Section Call.
Variables (ev : @env XR) (tof : R) (low : bool) (mi : Z) (at_ rt : R) (fo : bool).
Hypothesis Ht : 0 < tof.
Let a := call mu r1 r2 tof 0 p low mi at_ rt fo.

Lemma jiang_enter :
  (forall e, @jia_solve_p XR (e_fuel ev) a (Fin (vnorm r1)) (Fin (vnorm r2)) (Fin c) (Fin s) (Fin th) = Err e ->
     @jiang2016 XR ev a = Err e) /\
  (@jiang2016 XR ev a = Err OutOfFuel ->
   @jia_solve_p XR (e_fuel ev) a (Fin (vnorm r1)) (Fin (vnorm r2)) (Fin c) (Fin s) (Fin th) = Err OutOfFuel).
Proof.
  assert (EV : forall A k, @validated XR A a k = k (vfin r1) (vfin r2)).
  { intros A k. apply (validated_call_ok mu r1 r2 tof 0 p low mi at_ rt fo). now apply non_collinear_valid. }
  unfold jiang2016. change (a_M a) with 0%Z. cbn [Z.ltb Z.compare raise_if bind]. rewrite EV.
  change (a_is_prograde a) with p. rewrite ET, !norm_F, vsub_F, norm_F, semiper_F. fold s.
  change (vnorm (vminus r2 r1)) with c.
  destruct F as [F1 F2 F3 F4 F5 F6 F7 F8 F9].
  unfold assert_transfer_angle_not_zero, assert_transfer_angle_not_pi.
  replace (@neqb XR (Fin th) (nofZ 0)) with false by (symmetry; apply xeqb_Ff; lra).
  replace (@neqb XR (Fin th) npi) with false by (symmetry; apply xeqb_Ff; assumption).
  cbn [bind]. split.
  - intros e ->. reflexivity.
  - destruct (jia_solve_p _ _ _ _ _ _ _) as [[q it]|e]; cbn [bind].
    + destruct (Z.eqb it 0); cbn [bind].
      * destruct (jia_velocities _ _ _ _ _ _ _). discriminate.
      * unfold time_per_iteration. destruct (a_full_output a); [destruct (Z.eqb it 0)|]; cbn [bind]; try discriminate;
        destruct (jia_velocities _ _ _ _ _ _ _); discriminate.
    + intros E; injection E as ->; reflexivity.
Qed.

Lemma parabolic_test : @np_isclose XR (Fin tof) (Fin Tp) (Fin rt) (Fin at_) = if Rle_dec (Rabs (tof - Tp)) (at_ + rt * Tp) then true else false.
Proof.
  pose proof (p_time_pos p mu r1 r2 th Hm Hn F) as Hp. fold Tp in Hp. unfold np_isclose.
  change (@nabs XR (@nsub XR (Fin tof) (Fin Tp))) with (Fin (Rabs (tof - Tp))).
  change (@nadd XR (Fin at_) (@nmul XR (Fin rt) (@nabs XR (Fin Tp)))) with (Fin (at_ + rt * Rabs Tp)).
  rewrite (Rabs_right Tp) by lra.
  destruct (Rle_dec _ _) as [L|L]; [now apply xleb_F|]. apply xleb_Ff. lra.
Qed.

Lemma elliptic_residual x long : s <= 2 * x ->
  @nsub XR (@jia_tof_elliptic XR (Fin mu) (Fin x) (Fin s) (Fin c) (Fin th) long) (Fin tof) = Fin (Te x long - tof).
Proof. intros Hx. rewrite jia_tof_elliptic_F by (assumption || apply Hc). reflexivity. Qed.
Lemma hyperbolic_residual x : x < 0 ->
  @nsub XR (@jia_tof_hyperbolic XR (Fin mu) (Fin x) (Fin s) (Fin c) (Fin th)) (Fin tof) = Fin (Th (- x) - tof).
Proof. intros Hx. rewrite jia_tof_hyperbolic_F by (assumption || apply Hc). reflexivity. Qed.

(** *** Doubling *)
Lemma elliptic_diverges long :
  (forall x, l_axis <= x -> 0 < (Te l_axis long - tof) * (Te x long - tof)) ->
  @jia_elliptic_bracket XR (e_fuel ev) (Fin mu) (Fin tof) (Fin (s / 2)) (Fin s) (Fin c) (Fin th) long = Err OutOfFuel.
Proof.
  intros H. unfold jia_elliptic_bracket.
  change (@nmul XR (Fin (s / 2)) (@nadd XR (nofZ 1) jia_eps)) with (Fin l_axis).
  pose proof l_axis_gt as HL. pose proof Hc.
  change (@nmul XR (nofZ 2) (Fin l_axis)) with (Fin (2 * l_axis)). change (@nofZ XR 1) with (Fin 1). rewrite pymax_F.
  unfold jia_expand_elliptic.
  rewrite (while_true_diverges _ (fun u => exists x, u = Fin x /\ l_axis <= x)); [reflexivity| |].
  - exists (Rmax (2 * l_axis) 1). split; [reflexivity|]. pose proof (Rmax_l (2 * l_axis) 1). lra.
  - intros u (x & -> & Hx). rewrite !elliptic_residual by lra.
    change (@nmul XR (Fin (Te l_axis long - tof)) (Fin (Te x long - tof))) with (Fin ((Te l_axis long - tof) * (Te x long - tof))).
    replace (@nltb XR (nofZ 0) (Fin ((Te l_axis long - tof) * (Te x long - tof)))) with true by (symmetry; apply xltb_F, H; assumption).
    exists (@nmul XR (Fin x) (nofZ 2)). split; [reflexivity|]. exists (x * 2). split; [reflexivity|]. lra.
Qed.

Lemma doubling x0 x : 0 < x -> exists k : nat, x0 <= x * 2 ^ k.
Proof.
  intros Hx. destruct (Pow_x_infinity 2) with (b := Rmax (x0 / x) 1) as (n & Hn').
  - rewrite Rabs_right; lra.
  - exists n. specialize (Hn' n (Nat.le_refl n)). rewrite Rabs_right in Hn' by (apply Rle_ge, pow_le; lra).
    pose proof (Rmax_l (x0 / x) 1). assert (x0 / x * x = x0) by (field; lra). nra.
Qed.

Lemma elliptic_terminates long x0 :
  (forall x, x0 <= x -> l_axis <= x -> (Te l_axis long - tof) * (Te x long - tof) <= 0) ->
  exists n, forall fuel, (n <= fuel)%nat ->
  @jia_elliptic_bracket XR fuel (Fin mu) (Fin tof) (Fin (s / 2)) (Fin s) (Fin c) (Fin th) long <> Err OutOfFuel.
Proof.
  intros H. pose proof l_axis_gt as HL. pose proof Hc.
  set (u0 := Rmax (2 * l_axis) 1). assert (U0 : l_axis <= u0) by (unfold u0; pose proof (Rmax_l (2 * l_axis) 1); lra).
  destruct (doubling x0 u0 ltac:(lra)) as (k & Hk).
  set (res := fun axis => @nsub XR (@jia_tof_elliptic XR (Fin mu) axis (Fin s) (Fin c) (Fin th) long) (Fin tof)).
  assert (G : forall k u, l_axis <= u -> x0 <= u * 2 ^ k -> jia_expand_elliptic res (Fin l_axis) (S k) (Fin u) <> Raise OutOfFuel).
  { clear k Hk. intros k. induction k as [|k IH]; intros u Hu Hk.
    - unfold jia_expand_elliptic. cbn [while_true]. unfold res. rewrite !elliptic_residual by lra.
      change (@nmul XR (Fin (Te l_axis long - tof)) (Fin (Te u long - tof))) with (Fin ((Te l_axis long - tof) * (Te u long - tof))).
      replace (@nltb XR (nofZ 0) (Fin ((Te l_axis long - tof) * (Te u long - tof)))) with false; [discriminate|].
      symmetry. apply xltb_Ff. apply H; [|assumption]. rewrite pow_O in Hk. lra.
    - unfold jia_expand_elliptic. cbn [while_true].
      destruct (@nltb XR (nofZ 0) _); [|discriminate].
      change (@nmul XR (Fin u) (nofZ 2)) with (Fin (u * 2)). apply IH; [lra|].
      replace (u * 2 * 2 ^ k) with (u * 2 ^ S k) by (cbn [pow]; ring). assumption. }
  exists (S k). intros fuel Hf. unfold jia_elliptic_bracket.
  change (@nmul XR (Fin (s / 2)) (@nadd XR (nofZ 1) jia_eps)) with (Fin l_axis).
  change (@nmul XR (nofZ 2) (Fin l_axis)) with (Fin (2 * l_axis)). change (@nofZ XR 1) with (Fin 1). rewrite pymax_F. fold u0.
  change (@jia_expand_elliptic XR _ (Fin l_axis) fuel (Fin u0)) with (jia_expand_elliptic res (Fin l_axis) fuel (Fin u0)).
  specialize (G k u0 U0 Hk).
  destruct (jia_expand_elliptic res (Fin l_axis) (S k) (Fin u0)) as [r|r|e] eqn:E.
  - unfold jia_expand_elliptic in *. rewrite (while_true_mono _ _ fuel _ _ E); [discriminate|discriminate|assumption].
  - exfalso. exact (while_true_not_next _ _ _ _ E).
  - unfold jia_expand_elliptic in *. rewrite (while_true_mono _ _ fuel _ _ E); [|assumption|assumption]. congruence.
Qed.

Lemma hyperbolic_terminates x0 :
  (forall x, x0 <= x -> 0 < x -> 0 <= Th x - tof) ->
  exists n, forall fuel, (n <= fuel)%nat ->
  @jia_hyperbolic_bracket XR fuel (Fin mu) (Fin tof) (Fin s) (Fin c) (Fin th) <> Err OutOfFuel.
Proof.
  intros H. set (u0 := Rmax (Rmax s c) 1). assert (U0 : 0 < u0) by (unfold u0; pose proof (Rmax_r (Rmax s c) 1); lra).
  destruct (doubling x0 u0 ltac:(lra)) as (k & Hk).
  set (res := fun axis => @nsub XR (@jia_tof_hyperbolic XR (Fin mu) axis (Fin s) (Fin c) (Fin th)) (Fin tof)).
  assert (G : forall k u, 0 < u -> x0 <= u * 2 ^ k -> jia_expand_hyperbolic res (S k) (Fin (- u)) <> Raise OutOfFuel).
  { clear k Hk. intros k. induction k as [|k IH]; intros u Hu Hk.
    - unfold jia_expand_hyperbolic. cbn [while_true]. unfold res. rewrite !hyperbolic_residual by lra.
      rewrite Ropp_involutive.
      replace (@nltb XR (Fin (Th u - tof)) (nofZ 0)) with false; [discriminate|].
      symmetry. apply xltb_Ff. apply H; [|assumption]. rewrite pow_O in Hk. lra.
    - unfold jia_expand_hyperbolic. cbn [while_true].
      destruct (@nltb XR _ (nofZ 0)); [|discriminate].
      change (@nmul XR (Fin (- u)) (nofZ 2)) with (Fin (- u * 2)). replace (- u * 2) with (- (u * 2)) by ring. apply IH; [lra|].
      replace (u * 2 * 2 ^ k) with (u * 2 ^ S k) by (cbn [pow]; ring). assumption. }
  exists (S k). intros fuel Hf. unfold jia_hyperbolic_bracket.
  change (@nofZ XR 1) with (Fin 1). rewrite !pymax_F. fold u0. change (@nopp XR (Fin u0)) with (Fin (- u0)).
  change (@jia_expand_hyperbolic XR _ fuel (Fin (- u0))) with (jia_expand_hyperbolic res fuel (Fin (- u0))).
  specialize (G k u0 U0 Hk).
  destruct (jia_expand_hyperbolic res (S k) (Fin (- u0))) as [r|r|e] eqn:E.
  - unfold jia_expand_hyperbolic in *. rewrite (while_true_mono _ _ fuel _ _ E); [discriminate|discriminate|assumption].
  - exfalso. exact (while_true_not_next _ _ _ _ E).
  - unfold jia_expand_hyperbolic in *. rewrite (while_true_mono _ _ fuel _ _ E); [|assumption|assumption]. congruence.
Qed.
End Call.
End Loop.
