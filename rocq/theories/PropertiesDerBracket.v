(** * The intervals der2011 hands to its root finder: C28. *)
From Coq Require Import ZArith List Bool Lia Reals Lra Psatz.
From Coquelicot Require Import Coquelicot.
From Verif Require Import Num XReal XRealLemmas MApi MScipy MDer Loops
  Hyp2F1 IzzoXR DerXR PropertiesDerivIzzo MonoX.
Local Open Scope R_scope.

(** The residual changes sign, or vanishes at an end, on [[lo, hi]]. *)
Definition sign_change (f : xr -> res xr) (lo hi : R) : Prop :=
  exists a b, f (Fin lo) = Ok (Fin a) /\ f (Fin hi) = Ok (Fin b) /\ a * b <= 0.

Lemma raise_fuel {A S} (body : S -> flow A S) n s e : (forall t e', body t <> Raise e') -> while_true body n s = Raise e -> e = OutOfFuel.
Proof.
  intros H. revert s. induction n as [|n IH]; intros s; cbn [while_true]; [congruence|].
  destruct (body s) as [a|s'|e'] eqn:E; [discriminate|apply IH|now apply H in E].
Qed.

Section Times.
Variable sg : R.
Hypothesis Sr : 0 < sg * sg < 1.
Lemma sg_in : -1 < sg < 1. Proof. nra. Qed.

Lemma ell_eq tau t : -1 < t < 1 -> @der_elliptic_equation XR (Fin sg) (Fin tau) 0 (Fin t) = Ok (Fin (izzo_T sg 0 t - tau)).
Proof.
  intros Ht. unfold der_elliptic_equation. rewrite der_tof_elliptic_F by assumption.
  destruct (izzo_T_F sg 0 sg_in t) as [_ ->]; [split; [lra|split; [lra|left; reflexivity]]|]. destruct (Rlt_dec t 1); [reflexivity|lra].
Qed.
Lemma hyp_eq tau t : 1 < t -> @der_hyperbolic_equation XR (Fin sg) (Fin tau) (Fin t) = Fin (izzo_T sg 0 t - tau).
Proof.
  intros Ht. unfold der_hyperbolic_equation. rewrite der_tof_hyperbolic_F by assumption.
  destruct (izzo_T_F sg 0 sg_in t) as [_ ->]; [split; [lra|split; [lra|left; reflexivity]]|]. destruct (Rlt_dec t 1); [lra|reflexivity].
Qed.

Lemma change_iff f x tau lo hi : -1 < lo -> lo < hi -> -1 < x -> izzo_T sg 0 x = tau ->
  f (Fin lo) = Ok (Fin (izzo_T sg 0 lo - tau)) -> f (Fin hi) = Ok (Fin (izzo_T sg 0 hi - tau)) ->
  (sign_change f lo hi <-> lo <= x <= hi).
Proof.
  intros Hlo Hlh Hx E El Eh. subst tau.
  destruct (izzo_T_order sg sg_in lo x Hlo Hx) as [O1 O2]. destruct (izzo_T_order sg sg_in x lo Hx Hlo) as [O3 _].
  destruct (izzo_T_order sg sg_in hi x ltac:(lra) Hx) as [P1 P2]. destruct (izzo_T_order sg sg_in x hi Hx ltac:(lra)) as [P3 _].
  split.
  - intros (a & b & Ea & Eb & H). rewrite El in Ea. rewrite Eh in Eb. injection Ea as <-. injection Eb as <-.
    set (u := izzo_T sg 0 lo) in *. set (v := izzo_T sg 0 hi) in *. set (w := izzo_T sg 0 x) in *. clearbody u v w.
    split; apply Rnot_lt_le; intros N.
    + assert (x < hi) by lra. assert (u < w) by tauto. assert (v < w) by tauto. nra.
    + assert (lo < x) by lra. assert (w < v) by tauto. assert (w < u) by tauto. nra.
  - intros [H1 H2]. exists (izzo_T sg 0 lo - izzo_T sg 0 x), (izzo_T sg 0 hi - izzo_T sg 0 x). split; [exact El|]. split; [exact Eh|].
    assert (A : izzo_T sg 0 x <= izzo_T sg 0 lo) by (destruct H1 as [H1|H1]; [left; tauto|right; symmetry; apply O2; lra]).
    assert (B : izzo_T sg 0 hi <= izzo_T sg 0 x) by (destruct H2 as [H2|H2]; [left; tauto|right; apply P2; lra]).
    nra.
Qed.
End Times.

(** Without revolutions, let [x] be the parameter of the wanted ellipse.  From the
    start [C61_der_single] gives it, the elliptic search falls back on an interval
    that holds [x], and on which the residual changes sign, exactly if [x] is not
    within [2^-52] of the ends -1 and 1 (der.py:177-200). *)
Theorem C28_der_elliptic : forall sg x tau, 0 < sg * sg < 1 -> -1 < x < 1 ->
  @der_tof_elliptic XR (Fin sg) (Fin x) (@der_y XR (Fin sg) (Fin x)) 0 = Fin tau ->
  exists lo hi, -1 < lo /\ lo < hi /\ hi < 1 /\
    (forall ev maxiter atol rtol,
       @der_solve_elliptic_bracketed XR ev (Fin sg) (Fin tau) 0 (Fin (if Rlt_dec x 0 then - (1 / 2) else 1 / 2)) maxiter atol rtol =
       bind (der_reraise (e_brentq ev (der_elliptic_equation (Fin sg) (Fin tau) 0) (Fin lo) (Fin hi) atol rtol maxiter))
            (fun r => let '(z, _) := r in Ok (z, der_y (Fin sg) z, maxiter))) /\
    (sign_change (der_elliptic_equation (Fin sg) (Fin tau) 0) lo hi <-> lo <= x <= hi) /\
    (lo <= x <= hi <-> -1 + / 2 ^ 52 <= x <= 1 - / 2 ^ 52).
Proof.
  intros sg x tau Sr Hx E. rewrite der_tof_elliptic_F in E by assumption. injection E as E.
  assert (ET : izzo_T sg 0 x = tau). { destruct (izzo_T_F sg 0 (sg_in sg Sr) x) as [_ ->]; [split; [lra|split; [lra|left; reflexivity]]|]. destruct (Rlt_dec x 1); [exact E|lra]. }
  assert (E52 : / 2 ^ 52 = 1 / 4503599627370496) by lra. rewrite E52.
  set (e := 1 / 4503599627370496). assert (Hp : 0 < e < 1 / 2) by (unfold e; lra).
  destruct (Rlt_dec x 0) as [N|N].
  - exists (-1 + e), 0. split; [lra|]. split; [lra|]. split; [lra|]. split; [|split; [|lra]].
    + intros. unfold der_solve_elliptic_bracketed. change (@nltb XR (Fin (- (1 / 2))) (nofZ 0)) with (xltb (Fin (- (1 / 2))) (Fin 0)). rewrite (proj2 (xltb_F _ _)) by lra. reflexivity.
    + apply (change_iff sg Sr _ x tau); try lra; try assumption; apply ell_eq; (assumption || lra).
  - exists 0, (1 - e). split; [lra|]. split; [lra|]. split; [lra|]. split; [|split; [|lra]].
    + intros. unfold der_solve_elliptic_bracketed. change (@nltb XR (Fin (1 / 2)) (nofZ 0)) with (xltb (Fin (1 / 2)) (Fin 0)). rewrite (proj2 (xltb_Ff _ _)) by lra. reflexivity.
    + apply (change_iff sg Sr _ x tau); try lra; try assumption; apply ell_eq; (assumption || lra).
Qed.
Print Assumptions C28_der_elliptic.

(** The same for the hyperbola of parameter [x > 1]: unless the doubling of the
    upper end runs out of fuel, the interval starts at [1 + 2^-26] and holds [x]
    exactly if [x] is not below that (der.py:213-239). *)
Theorem C28_der_hyperbolic : forall ev sg x tau, 0 < sg * sg < 1 -> 1 < x ->
  @der_tof_hyperbolic XR (Fin sg) (Fin x) (@der_y XR (Fin sg) (Fin x)) = Fin tau ->
  (forall maxiter atol rtol, @der_solve_hyperbolic_bracketed XR ev (Fin sg) (Fin tau) maxiter atol rtol = Err OutOfFuel) \/
  exists hi, 2 <= hi /\ x <= hi /\
    (forall maxiter atol rtol,
       @der_solve_hyperbolic_bracketed XR ev (Fin sg) (Fin tau) maxiter atol rtol =
       bind (der_reraise (e_brentq ev (fun z => Ok (der_hyperbolic_equation (Fin sg) (Fin tau) z)) (Fin (1 + / 2 ^ 26)) (Fin hi) atol rtol maxiter))
            (fun r => let '(z, _) := r in Ok (z, der_y (Fin sg) z, maxiter))) /\
    (sign_change (fun z => Ok (der_hyperbolic_equation (Fin sg) (Fin tau) z)) (1 + / 2 ^ 26) hi <-> 1 + / 2 ^ 26 <= x).
Proof.
  intros ev sg x tau Sr Hx E. assert (ET : izzo_T sg 0 x = tau).
  { assert (H := hyp_eq sg Sr 0 x Hx). unfold der_hyperbolic_equation in H. rewrite E in H. injection H as H. lra. }
  assert (E26 : / 2 ^ 26 = 1 / 67108864) by lra. rewrite E26.
  unfold der_solve_hyperbolic_bracketed.
  destruct (while_true _ _ _) as [up|s'|e] eqn:EW.
  - right. apply (while_true_inv _ (fun u => exists h, u = Fin h /\ 2 <= h)) in EW.
    + destruct EW as (t & (h & -> & Hh) & EW). rewrite hyp_eq in EW by (assumption || lra).
      change (@nltb XR (nofZ 0) (Fin (izzo_T sg 0 h - tau))) with (xltb (Fin 0) (Fin (izzo_T sg 0 h - tau))) in EW.
      destruct (xltb (Fin 0) (Fin (izzo_T sg 0 h - tau))) eqn:L; [discriminate EW|]. apply xltb_Ff in L. injection EW as <-.
      assert (XH : x <= h). { apply Rnot_lt_le. intros N. pose proof (izzo_T_decreasing sg (sg_in sg Sr) h x ltac:(lra) N). lra. }
      exists h. split; [exact Hh|]. split; [exact XH|]. split; [intros; reflexivity|].
      rewrite (change_iff sg Sr _ x tau) by (try lra; try assumption; f_equal; apply hyp_eq; (assumption || lra)). lra.
    + exists 2. split; [reflexivity|lra].
    + intros u u' (h & -> & Hh) K. destruct (@nltb XR _ _) in K; [|discriminate K]. injection K as <-. exists (h * 2). split; [reflexivity|lra].
  - exfalso. exact (while_true_not_next _ _ _ _ EW).
  - left. intros. f_equal. revert EW. apply raise_fuel. intros t e'. destruct (@nltb XR _ _); discriminate.
Qed.
Print Assumptions C28_der_hyperbolic.

(** Parameters meeting the hypotheses, on either side of the ends. *)
Example C28_der_case :
  (exists tau, @der_tof_elliptic XR (Fin (1 / 2)) (Fin (-1 + / 2 ^ 60)) (@der_y XR (Fin (1 / 2)) (Fin (-1 + / 2 ^ 60))) 0 = Fin tau) /\
  (exists tau, @der_tof_elliptic XR (Fin (1 / 2)) (Fin 0) (@der_y XR (Fin (1 / 2)) (Fin 0)) 0 = Fin tau) /\
  (exists tau, @der_tof_hyperbolic XR (Fin (- (1 / 2))) (Fin 3) (@der_y XR (Fin (- (1 / 2))) (Fin 3)) = Fin tau) /\
  ~ (-1 + / 2 ^ 52 <= -1 + / 2 ^ 60) /\ -1 + / 2 ^ 52 <= 0 <= 1 - / 2 ^ 52.
Proof.
  split; [|split; [|split; [|lra]]].
  - rewrite der_tof_elliptic_F by lra. eauto.
  - rewrite der_tof_elliptic_F by lra. eauto.
  - rewrite der_tof_hyperbolic_F by lra. eauto.
Qed.
