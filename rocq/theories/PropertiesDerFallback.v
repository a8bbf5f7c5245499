(** * der2011's fallback for the shortest time is not Newton's method: C60. *)
From Coq Require Import String Reals ZArith Bool Lra Lia Psatz List.
From Coquelicot Require Import Coquelicot.
From Verif Require Import Num XReal XRealLemmas Loops MApi MScipy MDer
  LambertRev LambertZ GodalIzzo IzzoXR PropertiesDerivIzzo DerXR MinTime XParam PropertiesDer PropertiesDerMin.
Local Open Scope R_scope.

Section Fallback.
Variables (sg : R) (M : Z).
Hypothesis Hs : 0 < sg * sg < 1.
Hypothesis HM : (1 <= M)%Z.
Let Hl : -1 < sg < 1 := sg_bounds sg Hs.
Let e := mt_h sg M.

(** The slope the code divides by. *)
Lemma slope_positive x : 0 < x < 1 -> exists d, 0 < d /\
  (let y := @der_y XR (Fin sg) (Fin x) in
   @ndiv XR (nmul (nmul (nofZ 2) (nsub (nofZ 1) (sq (Fin x)))) (nsub (nofZ 1) (ndiv (nmul (npown (Fin sg) 5) (cube (Fin x))) (cube y)))) (nmul (nofZ 3) (sq (Fin x)))) = Fin d.
Proof.
  intros H. cbv zeta. rewrite der_y_val by assumption. destruct (Yf sg Hs x) as [P E].
  set (Y := sqrt _) in *. assert (W : sgn sg * sgn sg = 1) by apply sgn_sq.
  assert (K : Y * Y - x * x = (1 - sg * sg) * (1 - x * x)) by (rewrite E; ring). assert (K2 : 0 < (1 - sg * sg) * (1 - x * x)) by (apply Rmult_lt_0_compat; nra).
  assert (Y > x) by (apply Rnot_le_lt; intros C; assert (Y * Y <= x * x) by (apply Rmult_le_compat; lra); lra).
  assert (Hw : sgn sg * sg = Rabs sg).
  { destruct (sgn_cases sg Hs) as [[-> L]|[-> L]]; [rewrite Rabs_pos_eq by lra|rewrite Rabs_left by lra]; ring. }
  set (w := sgn sg) in *. assert (Yn : w * Y <> 0) by (intros Z0; assert (w * w * Y = 0) by (rewrite Rmult_assoc, Z0; ring); rewrite W in *; lra).
  assert (Y3 : w * Y * (w * Y) * (w * Y) <> 0) by (intros Z0; apply Rmult_integral in Z0; destruct Z0 as [Z0|Z0]; [apply Rmult_integral in Z0; tauto|tauto]).
  exists (2 * (1 - x * x) * (1 - sg * (sg * (sg * (sg * sg))) * (x * x * x) / (w * Y * (w * Y) * (w * Y))) / (3 * (x * x))). split.
  - assert (B : sg * (sg * (sg * (sg * sg))) * (x * x * x) / (w * Y * (w * Y) * (w * Y)) = (w * sg) * (sg * sg * (sg * sg)) * ((x / Y) * (x / Y) * (x / Y))).
    { assert (W' : / (w * Y * (w * Y) * (w * Y)) = w * / (Y * Y * Y)).
      { replace (w * Y * (w * Y) * (w * Y)) with ((w * w) * w * (Y * Y * Y)) by ring. rewrite W, Rmult_1_l.
        rewrite Rinv_mult by (try nra; intros Z0; rewrite Z0 in W; lra). f_equal. apply Rmult_eq_reg_l with w; [|intros Z0; rewrite Z0 in W; lra]. rewrite Rinv_r, W; [reflexivity|intros Z0; rewrite Z0 in W; lra]. }
      unfold Rdiv. rewrite W'. field. lra. }
    rewrite B, Hw. assert (X1 : 0 < x / Y < 1) by (split; [apply Rdiv_lt_0_compat; lra|apply Rmult_lt_reg_r with Y; [lra|]; unfold Rdiv; rewrite Rmult_assoc, Rinv_l; lra]).
    assert (A1 : 0 <= Rabs sg < 1) by (split; [apply Rabs_pos|apply Rabs_def1; lra]). set (k := x / Y) in *. clearbody k.
    assert (k2 : 0 < k * k < 1) by nra. assert (0 < k * k * k < 1) by (split; [apply Rmult_lt_0_compat; lra|]; assert (k * k * k <= k * k * 1) by (apply Rmult_le_compat_l; lra); lra). assert (0 < sg * sg * (sg * sg) < 1) by nra. set (k3 := k * k * k) in *. set (s4 := sg * sg * (sg * sg)) in *. clearbody k3 s4.
    assert (R4 : 0 <= Rabs sg * s4 < 1) by (split; [apply Rmult_le_pos; lra|]; assert (Rabs sg * s4 <= 1 * s4) by (apply Rmult_le_compat_r; lra); lra).
    assert (Rabs sg * s4 * k3 < 1) by (assert (Rabs sg * s4 * k3 <= Rabs sg * s4 * 1) by (apply Rmult_le_compat_l; lra); lra). apply Rdiv_lt_0_compat; [|nra]. apply Rmult_lt_0_compat; nra.
  - unfold cube, sq. cbn [npown]. xunf. cbn [xmul xsub xlift2]. rewrite xdiv_F by assumption. cbn [xmul xsub xlift2]. rewrite xdiv_F by nra. reflexivity.
Qed.

Definition tol_of atol rtol : R := atol + rtol * IZR M * PI.

(** One pass moves away from the root. *)
Lemma fallback_pass atol rtol n x : 1 / 4503599627370496 <= x <= 999999 / 1000000 -> tol_of atol rtol < Rabs (e x) ->
  exists x', @der_minimum_body XR (Fin sg) M (Fin atol) (Fin rtol) n (Fin x) = Next (Fin x') /\
    1 / 4503599627370496 <= x' <= 999999 / 1000000 /\ (0 < e x -> x' <= x) /\ (e x < 0 -> x <= x') /\
    (e x <> 0 -> 1 / 4503599627370496 < x < 999999 / 1000000 -> x' <> x).
Proof.
  intros H T. assert (Hx : 0 < x < 1) by lra. unfold der_minimum_body. rewrite minimum_equation_F by assumption. fold e.
  destruct (slope_positive x Hx) as (d & Hd & Ed). cbv zeta in *. rewrite Ed.
  replace (@nleb XR (@nabs XR (Fin (e x))) _) with false.
  2:{ symmetry. xunf. cbn [xabs xadd xmul xlift1 xlift2]. apply xleb_Ff. exact T. }
  replace (@nsub XR (Fin x) (@ndiv XR (Fin (e x)) (Fin d))) with (Fin (x - e x / d)).
  2:{ xunf. rewrite xdiv_F by lra. reflexivity. }
  assert (S1 : 0 < e x -> 0 < e x / d) by (intros; apply Rdiv_lt_0_compat; lra).
  assert (S2 : e x < 0 -> e x / d < 0) by (intros; apply Rmult_lt_reg_r with d; [lra|]; unfold Rdiv; rewrite Rmult_assoc, Rinv_l; lra).
  set (k := e x / d) in *. clearbody k.
  change (@der_eps XR) with (Fin (1 / 4503599627370496)). change (@nlit XR 999999 1000000) with (Fin (999999 / 1000000)).
  set (lo := 1 / 4503599627370496) in *. set (hi := 999999 / 1000000) in *. assert (LH : lo < hi) by (unfold lo, hi; lra). clearbody lo hi.
  unfold pymin, pymax. xunf.
  destruct (xltb (Fin (x - k)) (Fin lo)) eqn:B1.
  - apply xltb_F in B1. replace (xltb (Fin hi) (Fin lo)) with false by (symmetry; apply xltb_Ff; lra). eexists. split; [reflexivity|].
    split; [lra|]. split; [lra|]. split; [intros L; specialize (S2 L); lra|lra].
  - apply xltb_Ff in B1. destruct (xltb (Fin hi) (Fin (x - k))) eqn:B2.
    + apply xltb_F in B2. eexists. split; [reflexivity|]. split; [lra|]. split; [intros L; specialize (S1 L); lra|]. split; lra.
    + apply xltb_Ff in B2. eexists. split; [reflexivity|]. split; [lra|]. split; [intros L; specialize (S1 L); lra|]. split; [intros L; specialize (S2 L); lra|].
      intros N _. destruct (Rtotal_order 0 (e x)) as [L|[L|L]]; [specialize (S1 L); lra|now symmetry in L|specialize (S2 L); lra].
Qed.

Lemma e_mono a b : 0 < a -> a <= b -> b < 1 -> e b <= e a.
Proof. intros A B C. destruct (Req_dec a b) as [->|N]; [lra|]. apply Rlt_le. apply (mt_h_decreasing sg M Hl); lra. Qed.

(** From a start that is not within the tolerance, no number of passes gets
    within it. *)
Lemma fallback_never atol rtol k i x : 1 / 4503599627370496 <= x <= 999999 / 1000000 -> 0 <= tol_of atol rtol -> tol_of atol rtol < Rabs (e x) ->
  exists x', for_range (@der_minimum_body XR (Fin sg) M (Fin atol) (Fin rtol)) k i (Fin x) = Next (Fin x') /\
    Rabs (e x) <= Rabs (e x').
Proof.
  revert i x. induction k as [|k IH]; intros i x H T0 T.
  - exists x. split; [reflexivity|lra].
  - destruct (fallback_pass atol rtol i x H T) as (x' & E & H' & A & B & _). cbn [for_range]. rewrite E.
    assert (G : Rabs (e x) <= Rabs (e x')).
    { destruct (Rtotal_order 0 (e x)) as [L|[L|L]].
      - specialize (A L). pose proof (e_mono x' x ltac:(lra) A ltac:(lra)). rewrite !Rabs_pos_eq by lra. lra.
      - rewrite <- L, Rabs_R0. apply Rabs_pos.
      - specialize (B L). pose proof (e_mono x x' ltac:(lra) B ltac:(lra)). rewrite !Rabs_left by lra. lra. }
    destruct (IH (i + 1)%Z x' H' T0 ltac:(lra)) as (x2 & E2 & G2). exists x2. split; [exact E2|lra].
Qed.
End Fallback.

(** When [brentq] refuses, [_compute_minimum_time] falls back on an iteration
    from [x = 0.1] meant to be Newton's (der.py:465-474).  The slope it divides
    by is positive, while the equation is decreasing: every step goes away from
    the root.  So unless [0.1] already meets the tolerance, the fallback fails
    whatever the budget. *)
Theorem C60_der_fallback_refuted : forall (sigma : R) (M : Z), 0 < sigma * sigma < 1 -> (1 <= M)%Z ->
  exists e : R -> R,
    (forall x, 0 < x < 1 -> @der_minimum_time_equation XR (Fin sigma) M (Fin x) = Fin (e x) /\ exists d, is_derive e x d /\ d < 0) /\
    (exists root, 0 < root < 1 /\ e root = 0) /\
    forall atol rtol, 0 <= atol + rtol * IZR M * PI < Rabs (e (1 / 10)) ->
      forall (ev : @env XR) maxiter msg,
        e_brentq ev (fun x => Ok (@der_minimum_time_equation XR (Fin sigma) M x)) der_eps (@nsub XR (nofZ 1) der_eps)
          (Fin atol) (Fin rtol) maxiter = Err (ValueError msg) ->
        @der_minimum_time XR ev (Fin sigma) M maxiter (Fin atol) (Fin rtol) = Err (ValueError "Exceeded maximum number of iterations.").
Proof.
  intros sg M Hs HM. exists (mt_h sg M). split; [|split].
  - intros x H. split; [now apply minimum_equation_F|]. apply mt_h_derive; [now apply sg_bounds|assumption].
  - destruct (C48_der_minimum_equation sg M Hs HM) as (_ & (x & H & E & _) & _). exists x. split; [exact H|]. rewrite minimum_equation_F in E by assumption. now injection E.
  - intros atol rtol T ev maxiter msg E. unfold der_minimum_time. rewrite E. change (@nlit XR 1 10) with (Fin (1 / 10)).
    destruct (fallback_never sg M Hs atol rtol (Z.to_nat maxiter) 0 (1 / 10)) as (x' & E' & _); [lra|apply T|apply T|].
    rewrite E'. reflexivity.
Qed.
Print Assumptions C60_der_fallback_refuted.

(** Five revolutions with [sigma = 1/2] and the tolerances [atol = 1e-5] and
    [rtol = 0], which [brentq] refuses: [0.1] is far from the root. *)
Example C60_der_fallback_case : exists e1 : R,
  @der_minimum_time_equation XR (Fin (1 / 2)) 5 (Fin (1 / 10)) = Fin e1 /\ 0 <= 1 / 100000 + 0 * IZR 5 * PI < Rabs e1.
Proof.
  assert (Hs : 0 < 1 / 2 * (1 / 2) < 1) by lra. unfold der_minimum_time_equation. rewrite der_y_val by assumption.
  destruct (Yf (1 / 2) Hs (1 / 10)) as [P E]. set (Y := sqrt _) in *.
  assert (Y1 : 8 / 10 < Y < 1) by nra.
  assert (W : sgn (1 / 2) = 1) by (destruct (sgn_cases (1 / 2) Hs) as [[? ?]|[? ?]]; [assumption|lra]). rewrite W.
  rewrite (der_phi_F 1 Y) by (auto; lra). replace (Fin (1 / 10)) with (Fin (1 * (1 / 10))) by (f_equal; ring). rewrite (der_phi_F 1 (1 / 10)) by (auto; lra).
  eexists. split; [reflexivity|]. unfold phi.
  destruct (acos_bound Y) as [_ A1]. destruct (acos_bound (1 / 10)) as [A2 _].
  destruct (sqrt_facts (1 - 1 / 10 * (1 / 10))) as [Q1 Q2]; [lra|]. destruct (sqrt_facts (1 - Y * Y)) as [Q3 Q4]; [nra|].
  set (a := acos Y) in *. set (b := acos (1 / 10)) in *. set (q := sqrt (1 - 1 / 10 * (1 / 10))) in *. set (k := sqrt (1 - Y * Y)) in *.
  pose proof PI2_1. assert (q < 1) by nra.
  assert (L : 0 < (2 + Y * Y) * k / (3 * Y)) by (apply Rdiv_lt_0_compat; [apply Rmult_lt_0_compat; nra|lra]).
  set (z := (2 + Y * Y) * k / (3 * Y)) in *. clearbody a b q k z.
  replace (1 * (a - z) - 1 * (b - (2 + 1 / 10 * (1 / 10)) * q / (3 * (1 / 10))) - IZR 5 * PI) with (a - z - b + 201 / 30 * q - 5 * PI) by field.
  rewrite Rabs_left; lra.
Qed.
