(** * Lagrange's equations in the variables of thorne2004. *)
From Coq Require Import Reals ZArith Bool Lra Lia Psatz.
From Verif Require Import Num XReal XRealLemmas MApi ApiFacts MLinalg MAngles MIzzo MThorne MScipy
  Spec SpecLambert VecFacts VecXR AnglesXR UniversalKepler LambertUV LambertRev StumpffXR Loops CallXR Godal GodalXR GodalIzzo
  DelatorreXR LambertZ IzzoXR StumpffSmooth ZMono KeplerUnique LambertExist OrbitXR GodalPan JiangXR BracketXR JiangRun JiangMono JiangLoop.
Local Open Scope R_scope.

Lemma cosh_gt_0 t : 0 < cosh t.
Proof. unfold cosh. pose proof (exp_pos t). pose proof (exp_pos (- t)). lra. Qed.

Section Lagrange.
Variables (mu : R) (r1 r2 : rvec) (w : R).
Hypothesis Hm : 0 < mu.
Hypothesis Hn : non_collinear r1 r2.
Hypothesis Hw : w = 1 \/ w = -1.
Let n1 := vnorm r1.
Let n2 := vnorm r2.
Let c := chord r1 r2.
Let s := semiper r1 r2.
Let l0 := sqrt (1 - c / s).
Let ll := w * l0.
Let h := sqrt 2 * s * ll.

(** The sign [w] of the transfer: [1] for less than half a turn. *)
Definition et a long := lag_time mu a (lag_A s a long) (lag_B w (s - c) a).
Definition ht b := lagh_time mu b (lagh_A s b) (lagh_B w (s - c) b).
Definition pt := par_time mu (sqrt s) (w * sqrt (s - c)).

Lemma w2 : w * w = 1. Proof. destruct Hw as [-> | ->]; ring. Qed.
Lemma l0_facts : 0 < l0 /\ s * (l0 * l0) = s - c /\ s * (ll * ll) = s - c /\ 0 < c /\ c < s.
Proof.
  destruct (Hc r1 r2 Hn) as [C1 C2]. fold c s in C1, C2. destruct (lambda0_facts r1 r2 Hn) as [B P]. fold c s in B, P. fold l0 in P.
  assert (E : l0 * l0 = 1 - c / s) by (apply sqrt_sqrt; lra).
  assert (E' : s * (l0 * l0) = s - c) by (rewrite E; field; lra).
  repeat split; try assumption. unfold ll. transitivity ((w * w) * (s * (l0 * l0))); [ring|]. rewrite w2, E'. ring.
Qed.
Lemma root_l0 x : 0 < x -> sqrt ((s - c) / x) = l0 * sqrt (s / x).
Proof.
  intros Hx. destruct l0_facts as (L & E & _ & C1 & C2). unfold l0. 
  destruct (lambda0_facts r1 r2 Hn) as [B _]. fold c s in B.
  rewrite <- sqrt_mult_alt by lra. f_equal. field. lra.
Qed.
Lemma h_sq : h * h = vnorm r1 * vnorm r2 + vdot r1 r2.
Proof.
  destruct l0_facts as (L & _ & E & C1 & C2). destruct (sqrt_facts 2) as [_ W2]; [lra|].
  pose proof (semiper_K r1 r2) as SK. fold s c in SK. unfold Kgeo in SK.
  unfold h. transitivity ((sqrt 2 * sqrt 2) * s * (s * (ll * ll))); [ring|]. rewrite W2, E.
  replace (2 * s * (s - c)) with (2 * (s * (s - c))) by ring. rewrite SK. field.
Qed.
Lemma w_fg_exists V : 0 < V -> exists v1 v2, fg_pair mu r1 r2 h V v1 v2.
Proof. intros HV. eexists _, _. constructor; [exact h_sq|exact HV|reflexivity|reflexivity]. Qed.

Lemma geo' : 0 < s - c /\ s - c < s.
Proof. destruct l0_facts as (_ & _ & _ & C1 & C2). lra. Qed.

(** ** Ellipses *)
Section Ellipse.
Variables (a : R) (long : bool).
Hypothesis Ha : s <= 2 * a.
Let A := lag_A s a long.
Let B := lag_B w (s - c) a.

Lemma ell_ll : sin A * ll = sin B.
Proof.
  destruct geo' as [G1 G2]. unfold A, B. rewrite (lag_sinA s (s - c) a long G1 G2 Ha), (lag_sinB w s (s - c) a Hw G1 G2 Ha).
  rewrite root_l0 by lra. unfold ll. ring.
Qed.
Lemma ell_hQ : sqrt 2 * h = 4 * a * sin A * sin B.
Proof.
  destruct geo' as [G1 G2]. destruct (sqrt_facts 2) as [_ W2]; [lra|].
  pose proof (lag_sA2 s (s - c) a long G1 G2 Ha) as E. fold A in E.
  unfold h. rewrite <- ell_ll. transitivity ((sqrt 2 * sqrt 2) * s * ll); [ring|]. rewrite W2. rewrite <- E at 1. ring.
Qed.
Lemma w_ell_solution v1 v2 : fg_pair mu r1 r2 h (2 * a * (sin (A - B) * sin (A - B))) v1 v2 ->
  lambert_solution mu r1 v1 r2 v2 (et a long) 0 /\ semimajor mu r1 v1 = a.
Proof.
  intros FG. destruct geo' as [Dp Ds].
  pose proof (lag_V w s (s - c) a long Hw Dp Ds Ha) as EV.
  pose proof (lag_psi w s (s - c) a long Hw Dp Ds Ha) as Hp. fold A B in EV, Hp.
  assert (Ha0 : 0 < a) by lra. pose proof ell_hQ as HQ. pose proof PI_RGT_0 as Pi.
  assert (EC : n1 + n2 - 2 * a * (sin (A - B) * sin (A - B)) = sqrt 2 * h * C0 ((A - B) * (A - B))).
  { rewrite C0_ell by lra. rewrite HQ, <- EV. change (n1 + n2) with (vnorm r1 + vnorm r2). rewrite (geo_P r1 r2). fold s c. ring. }
  split.
  - unfold et. rewrite <- (lag_tz w s (s - c) a long Hw Dp Ds Ha mu h Hm HQ). fold A B.
    apply fg_lambert; try assumption; try lia. nra.
  - unfold semimajor. rewrite (fg_energy mu r1 r2 h _ v1 v2 (cos (A - B)) Hn Hm FG) by (rewrite C0_ell in EC by lra; exact EC).
    pose proof (sin2_cos2 (A - B)) as SC. unfold Rsqr in SC. pose proof (sin_gt_0 _ (proj1 Hp) (proj2 Hp)) as S0.
    replace (1 - cos (A - B) * cos (A - B)) with (sin (A - B) * sin (A - B)) by lra.
    set (y := sin (A - B)) in *. clearbody y. field. repeat split; lra.
Qed.
Lemma w_ell_exists : exists v1 v2, lambert_solution mu r1 v1 r2 v2 (et a long) 0 /\ semimajor mu r1 v1 = a.
Proof.
  destruct geo' as [Dp Ds]. pose proof (lag_psi w s (s - c) a long Hw Dp Ds Ha) as Hp. fold A B in Hp.
  pose proof (sin_gt_0 _ (proj1 Hp) (proj2 Hp)) as S0.
  destruct (w_fg_exists (2 * a * (sin (A - B) * sin (A - B)))) as (v1 & v2 & FG). { apply Rmult_lt_0_compat; nra. }
  exists v1, v2. now apply w_ell_solution.
Qed.
(** Lancaster and Blanchard's variables are the cosines of Lagrange's angles. *)
Lemma ell_x : cos A = if long then - sqrt (1 - s / (2 * a)) else sqrt (1 - s / (2 * a)).
Proof.
  destruct geo' as [Dp Ds]. destruct (lag_bounds s (s - c) a Dp Ds Ha) as [B1 B2]. destruct (lag_sqrts s (s - c) a Dp Ds Ha) as [S1 S2].
  assert (E : cos (asin (sqrt (s / (2 * a)))) = sqrt (1 - s / (2 * a))).
  { rewrite cos_asin by lra. unfold Rsqr. rewrite sqrt_sqrt by lra. reflexivity. }
  unfold A, lag_A. destruct long; [|exact E]. rewrite Rtrigo_facts.cos_pi_minus, E. reflexivity.
Qed.
Lemma ell_V y : 0 <= y -> y * y = 1 - ll * ll * (1 - cos A * cos A) ->
  s * ((y - ll * cos A) * (y - ll * cos A)) = 2 * a * (sin (A - B) * sin (A - B)).
Proof.
  intros Hy E. destruct geo' as [Dp Ds]. pose proof ell_ll as EL.
  pose proof (sin2_cos2 A) as SA. pose proof (sin2_cos2 B) as SB. unfold Rsqr in SA, SB.
  assert (CB : 0 <= cos B).
  { destruct (lag_angles s (s - c) a Dp Ds Ha) as [[L1 L2] L3]. unfold B, lag_B.
    apply cos_ge_0; destruct Hw as [-> | ->]; lra. }
  assert (Ey : y = cos B).
  { apply Rsqr_inj; try assumption. unfold Rsqr. rewrite E. replace (1 - cos A * cos A) with (sin A * sin A) by lra.
    replace (ll * ll * (sin A * sin A)) with ((sin A * ll) * (sin A * ll)) by ring. rewrite EL. lra. }
  pose proof (lag_sA2 s (s - c) a long Dp Ds Ha) as ES. fold A in ES.
  rewrite <- ES at 1. rewrite sin_minus, Ey.
  transitivity (2 * a * ((sin A * cos B - cos A * (sin A * ll)) * (sin A * cos B - cos A * (sin A * ll)))); [ring|]. rewrite EL. ring.
Qed.
End Ellipse.

(** ** Hyperbolas *)
Section Hyperbola.
Variables (b : R).
Hypothesis Hb : 0 < b.
Let A := lagh_A s b.
Let B := lagh_B w (s - c) b.

Lemma hyp_ll : sinh A * ll = sinh B.
Proof.
  unfold A, B. rewrite (lagh_sinhB w (s - c) b Hw). unfold lagh_A. rewrite sinh_arcsinh.
  rewrite root_l0 by lra. unfold ll. ring.
Qed.
Lemma hyp_hQ : sqrt 2 * h = 4 * b * sinh A * sinh B.
Proof.
  destruct geo' as [G1 G2]. destruct (sqrt_facts 2) as [_ W2]; [lra|].
  pose proof (lagh_sA2 s (s - c) b G1 G2 Hb) as E. fold A in E.
  unfold h. rewrite <- hyp_ll. transitivity ((sqrt 2 * sqrt 2) * s * ll); [ring|]. rewrite W2. rewrite <- E at 1. ring.
Qed.
Lemma w_hyp_solution v1 v2 : fg_pair mu r1 r2 h (2 * b * (sinh (A - B) * sinh (A - B))) v1 v2 ->
  lambert_solution mu r1 v1 r2 v2 (ht b) 0 /\ semimajor mu r1 v1 = - b.
Proof.
  intros FG. destruct geo' as [Dp Ds].
  pose proof (lagh_V w s (s - c) b Hw Dp Ds Hb) as EV.
  pose proof (lagh_psi w s (s - c) b Hw Dp Ds Hb) as Hp. fold A B in EV, Hp.
  pose proof hyp_hQ as HQ. pose proof PI_RGT_0 as Pi.
  assert (EC : n1 + n2 - 2 * b * (sinh (A - B) * sinh (A - B)) = sqrt 2 * h * C0 (- ((A - B) * (A - B)))).
  { rewrite C0_hyp by lra. rewrite HQ, <- EV. change (n1 + n2) with (vnorm r1 + vnorm r2). rewrite (geo_P r1 r2). fold s c. ring. }
  split.
  - unfold ht. rewrite <- (lagh_tz w s (s - c) b Hw Dp Ds Hb mu h Hm HQ). fold A B.
    apply fg_lambert; try assumption; try lia. nra.
  - unfold semimajor. rewrite (fg_energy mu r1 r2 h _ v1 v2 (cosh (A - B)) Hn Hm FG) by (rewrite C0_hyp in EC by lra; exact EC).
    destruct (hyp_add (A - B) 0) as (_ & _ & _ & _ & SC). pose proof (sinh_pos _ Hp) as S0.
    replace (1 - cosh (A - B) * cosh (A - B)) with (- (sinh (A - B) * sinh (A - B))) by lra.
    set (y := sinh (A - B)) in *. clearbody y. field. repeat split; lra.
Qed.
Lemma w_hyp_exists : exists v1 v2, lambert_solution mu r1 v1 r2 v2 (ht b) 0 /\ semimajor mu r1 v1 = - b.
Proof.
  destruct geo' as [Dp Ds]. pose proof (lagh_psi w s (s - c) b Hw Dp Ds Hb) as Hp. fold A B in Hp.
  pose proof (sinh_pos _ Hp) as S0.
  destruct (w_fg_exists (2 * b * (sinh (A - B) * sinh (A - B)))) as (v1 & v2 & FG). { apply Rmult_lt_0_compat; nra. }
  exists v1, v2. now apply w_hyp_solution.
Qed.
Lemma hyp_x : cosh A = sqrt (1 + s / (2 * b)).
Proof.
  destruct geo' as [Dp Ds]. destruct (hyp_add A 0) as (_ & _ & _ & _ & SC). pose proof (cosh_gt_0 A) as CA.
  rewrite <- (sqrt_square (cosh A)) by lra. f_equal.
  replace (cosh A * cosh A) with (1 + sinh A * sinh A) by lra. unfold A, lagh_A. rewrite sinh_arcsinh.
  rewrite sqrt_sqrt; [reflexivity|]. left. apply Rdiv_lt_0_compat; lra.
Qed.
Lemma hyp_V y : 0 <= y -> y * y = 1 - ll * ll * (1 - cosh A * cosh A) ->
  s * ((y - ll * cosh A) * (y - ll * cosh A)) = 2 * b * (sinh (A - B) * sinh (A - B)).
Proof.
  intros Hy E. destruct geo' as [Dp Ds]. pose proof hyp_ll as EL.
  destruct (hyp_add A 0) as (_ & _ & _ & _ & SA). destruct (hyp_add B 0) as (_ & _ & _ & _ & SB).
  pose proof (cosh_gt_0 B) as CB.
  assert (Ey : y = cosh B).
  { apply Rsqr_inj; try lra. unfold Rsqr. rewrite E. replace (1 - cosh A * cosh A) with (- (sinh A * sinh A)) by lra.
    replace (ll * ll * - (sinh A * sinh A)) with (- ((sinh A * ll) * (sinh A * ll))) by ring. rewrite EL. lra. }
  pose proof (lagh_sA2 s (s - c) b Dp Ds Hb) as ES. fold A in ES.
  destruct (hyp_add A B) as (_ & D & _). rewrite <- ES at 1. rewrite D, Ey.
  transitivity (2 * b * ((sinh A * cosh B - cosh A * (sinh A * ll)) * (sinh A * cosh B - cosh A * (sinh A * ll)))); [ring|]. rewrite EL. ring.
Qed.
End Hyperbola.

(** ** Parabolas *)
Lemma w_par_facts : let x := sqrt s in let y := w * sqrt (s - c) in
  x * x = s /\ y * y = s - c /\ 0 < x - y /\ 0 < x + y /\ sqrt 2 * h = 2 * (x * y) /\ y = x * ll.
Proof.
  intros x y. destruct geo' as [Dp Ds].
  assert (X : x * x = s) by (apply sqrt_sqrt; lra).
  assert (Y' : sqrt (s - c) * sqrt (s - c) = s - c) by (apply sqrt_sqrt; lra).
  assert (Y : y * y = s - c).
  { unfold y. transitivity ((w * w) * (sqrt (s - c) * sqrt (s - c))); [ring|]. rewrite w2, Y'. ring. }
  assert (L : sqrt (s - c) < sqrt s) by (apply sqrt_lt_1; lra). pose proof (sqrt_pos (s - c)).
  assert (EY : y = x * ll).
  { unfold y, ll. pose proof (root_l0 1 ltac:(lra)) as E. unfold Rdiv in E. rewrite Rinv_1, !Rmult_1_r in E. rewrite E. unfold x. ring. }
  repeat split; try assumption.
  - unfold x, y. destruct Hw as [-> | ->]; lra.
  - unfold x, y. destruct Hw as [-> | ->]; lra.
  - destruct (sqrt_facts 2) as [_ W2]; [lra|]. unfold h. rewrite EY. transitivity ((sqrt 2 * sqrt 2) * (s * ll)); [ring|].
    rewrite W2. rewrite <- X at 1. ring.
Qed.
Lemma w_par_solution v1 v2 : let x := sqrt s in let y := w * sqrt (s - c) in
  fg_pair mu r1 r2 h ((x - y) * (x - y)) v1 v2 -> lambert_solution mu r1 v1 r2 v2 pt 0 /\ energy mu r1 v1 = 0.
Proof.
  intros x y FG. destruct geo' as [Dp Ds].
  destruct w_par_facts as (X & Y & D & P & HQ & _). fold x y in X, Y, D, P, HQ.
  destruct (sqrt_facts _ Hm) as [M1 M2]. destruct (sqrt_facts 2) as [W1 W2]; [lra|].
  pose proof PI_RGT_0 as Pi. destruct at_0 as (E0 & _).
  assert (EC : n1 + n2 - (x - y) * (x - y) = sqrt 2 * h * 1).
  { change (n1 + n2) with (vnorm r1 + vnorm r2). rewrite HQ, (geo_P r1 r2). fold s c. rewrite <- X, <- Y at 1. replace (s - c) with (y * y) by assumption. ring. }
  split.
  - replace pt with (tz mu h ((x - y) * (x - y)) 0 0).
    + apply fg_lambert; try assumption; try lia; try nra. now rewrite E0.
    + rewrite tz_par by (assumption || nra). rewrite sqrt_square by lra. unfold pt, par_time. fold x y.
      assert (EH : h = sqrt 2 * (x * y)).
      { apply Rmult_eq_reg_l with (sqrt 2); [|lra]. rewrite HQ. transitivity ((sqrt 2 * sqrt 2) * (x * y)); [rewrite W2; ring|ring]. }
      rewrite EH. field. lra.
  - rewrite (fg_energy mu r1 r2 h _ v1 v2 1 Hn Hm FG EC). field. nra.
Qed.
Lemma par_V y : 0 <= y -> y * y = 1 - ll * ll * (1 - 1 * 1) ->
  s * ((y - ll * 1) * (y - ll * 1)) = (sqrt s - w * sqrt (s - c)) * (sqrt s - w * sqrt (s - c)).
Proof.
  intros Hy E. destruct w_par_facts as (X & _ & _ & _ & _ & EY). assert (y = 1) by nra. subst y.
  rewrite EY. rewrite <- X at 1. ring.
Qed.
End Lagrange.
