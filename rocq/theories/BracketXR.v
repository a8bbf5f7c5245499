(** * One pass of the safeguarded searches of delatorre2018, jiang2016 and pan2016. *)
From Coq Require Import Reals ZArith String List Bool Lra Lia Psatz.
Import ListNotations.
From Verif Require Import Num XReal XRealLemmas MApi Loops MScipy MDelatorre MJiang MPan.
Local Open Scope R_scope.

(** The number-level function [g] computes the real function [f] on [lo, hi]. *)
Definition computes (g : xr -> xr) (f : R -> R) (lo hi : R) : Prop :=
  forall z, lo <= z <= hi -> g (Fin z) = Fin (f z).

Lemma lt_true a b : @nltb XR (Fin a) (Fin b) = true -> a < b. Proof. apply xltb_F. Qed.
Lemma lt_false a b : @nltb XR (Fin a) (Fin b) = false -> b <= a. Proof. apply xltb_Ff. Qed.
Lemma le_true a b : @nleb XR (Fin a) (Fin b) = true -> a <= b. Proof. apply xleb_F. Qed.
Lemma le_false a b : @nleb XR (Fin a) (Fin b) = false -> b < a. Proof. apply xleb_Ff. Qed.

Lemma middle lo hi : @nmul XR (nlit 1 2) (@nadd XR (Fin lo) (Fin hi)) = Fin ((lo + hi) / 2).
Proof. xunf. cbn [xmul xadd xlift2]. apply (f_equal Fin). field. Qed.
Lemma middle' lo hi : @ndiv XR (@nadd XR (Fin lo) (Fin hi)) (nofZ 2) = Fin ((lo + hi) / 2).
Proof. xunf. cbn [xmul xadd xlift2]. rewrite xdiv_F by lra. reflexivity. Qed.

Section Delatorre.
Variables (g : xr -> xr) (d : xr -> xr -> xr -> xr) (f : R -> R) (lo0 hi0 tol : R).
Hypothesis Hg : computes g f lo0 hi0.
Hypothesis Htol : 0 <= tol.
Lemma tor_step j z lo hi : lo0 <= lo < z -> z < hi <= hi0 -> f lo * f hi < 0 ->
  (@tor_newton_body XR g d (Fin tol) j (Fin z, Fin lo, Fin hi, Fin (f lo)) = Break (Fin z, j) /\ Rabs (f z) <= tol) \/
  (exists z' lo' hi', @tor_newton_body XR g d (Fin tol) j (Fin z, Fin lo, Fin hi, Fin (f lo)) = Next (Fin z', Fin lo', Fin hi', Fin (f lo')) /\
    lo <= lo' < z' /\ z' < hi' <= hi /\ f lo' * f hi' < 0 /\ hi' - lo' < hi - lo).
Proof.
  intros H1 H2 H3. unfold tor_newton_body. rewrite Hg by lra.
  destruct (@nleb XR (@nabs XR (Fin (f z))) (Fin tol)) eqn:E.
  { left. split; [reflexivity|]. now apply le_true in E. }
  right. apply le_false in E.
  assert (F0 : f z <> 0). { intros Z. rewrite Z, Rabs_R0 in E. lra. }
  assert (HB : exists lo' hi', (if @nleb XR (@nmul XR (Fin (f lo)) (Fin (f z))) (nofZ 0)
      then (Fin lo, Fin z, Fin (f lo)) else (Fin z, Fin hi, Fin (f z))) = (Fin lo', Fin hi', Fin (f lo'))
    /\ lo <= lo' < hi' /\ hi' <= hi /\ f lo' * f hi' < 0 /\ hi' - lo' < hi - lo).
  { destruct (@nleb XR (@nmul XR (Fin (f lo)) (Fin (f z))) (nofZ 0)) eqn:E'.
    - exists lo, z. apply le_true in E'. split; [reflexivity|]. split; [lra|]. split; [lra|]. split; [|lra].
      assert (f lo <> 0) by (intros Z; rewrite Z in H3; lra). assert (f lo * f z <> 0) by (now apply Rmult_integral_contrapositive_currified).
      cbn in E'. lra.
    - exists z, hi. apply le_false in E'. split; [reflexivity|]. split; [lra|]. split; [lra|]. split; [|lra]. cbn in E'. nra. }
  change (@num XR) with xr in *.
  destruct HB as (lo' & hi' & -> & B1 & B2 & B3 & B4). cbv iota.
  set (df := d _ _ _). clearbody df.
  set (zn := if @nneqb XR df (nofZ 0) && @nisfinite XR df then _ else _). clearbody zn.
  rewrite middle.
  destruct zn as [zn|].
  - change (@nisfinite XR (Fin zn)) with true. cbn [negb orb].
    destruct (@nleb XR (Fin zn) (Fin lo')) eqn:E1; cbn [orb].
    { exists ((lo' + hi') / 2), lo', hi'. split; [reflexivity|]. repeat split; lra. }
    destruct (@nleb XR (Fin hi') (Fin zn)) eqn:E2.
    { exists ((lo' + hi') / 2), lo', hi'. split; [reflexivity|]. repeat split; lra. }
    apply le_false in E1. apply le_false in E2.
    exists zn, lo', hi'. split; [reflexivity|]. repeat split; lra.
  - change (@nisfinite XR NaN) with false. cbn [negb orb].
    exists ((lo' + hi') / 2), lo', hi'. split; [reflexivity|]. repeat split; lra.
Qed.
End Delatorre.

Section Jiang.
Variables (g : xr -> xr) (f : R -> R) (lo0 hi0 atol rtol : R).
Hypothesis Hg : computes g f lo0 hi0.
Hypothesis Htol : 0 <= atol.
Definition jia_accepts (z z' : R) : Prop :=
  Rabs (f z') <= atol \/ (Rabs (z' - z) <= atol + rtol * Rabs z' /\ Rabs (f z') <= Rabs (f z)).
Lemma jia_step j z lo hi : lo0 <= lo < z -> z < hi <= hi0 -> f lo * f hi <= 0 ->
  (@jia_newton_body XR g (Fin atol) (Fin rtol) j (Fin z, Fin lo, Fin hi, Fin (f lo)) = Break (Fin z, j) /\ Rabs (f z) <= atol) \/
  (exists z' lo' hi', (lo <= lo' < z' /\ z' < hi' <= hi /\ f lo' * f hi' <= 0 /\ hi' - lo' < hi - lo) /\
    ((@jia_newton_body XR g (Fin atol) (Fin rtol) j (Fin z, Fin lo, Fin hi, Fin (f lo)) = Break (Fin z', j) /\ jia_accepts z z') \/
     @jia_newton_body XR g (Fin atol) (Fin rtol) j (Fin z, Fin lo, Fin hi, Fin (f lo)) = Next (Fin z', Fin lo', Fin hi', Fin (f lo')))).
Proof.
  intros H1 H2 H3. unfold jia_newton_body. rewrite Hg by lra.
  destruct (@nleb XR (@nabs XR (Fin (f z))) (Fin atol)) eqn:E.
  { left. split; [reflexivity|]. now apply le_true in E. }
  right. apply le_false in E.
  assert (F0 : f z <> 0). { intros Z. rewrite Z, Rabs_R0 in E. lra. }
  assert (HB : exists lo' hi', (if @nleb XR (@nmul XR (Fin (f lo)) (Fin (f z))) (nofZ 0)
      then (Fin lo, Fin z, Fin (f lo)) else (Fin z, Fin hi, Fin (f z))) = (Fin lo', Fin hi', Fin (f lo'))
    /\ lo <= lo' < hi' /\ hi' <= hi /\ f lo' * f hi' <= 0 /\ hi' - lo' < hi - lo).
  { destruct (@nleb XR (@nmul XR (Fin (f lo)) (Fin (f z))) (nofZ 0)) eqn:E'.
    - exists lo, z. apply le_true in E'. split; [reflexivity|]. split; [lra|]. split; [lra|]. split; [exact E'|lra].
    - exists z, hi. apply le_false in E'. split; [reflexivity|]. split; [lra|]. split; [lra|]. split; [|lra]. cbn in E'. nra. }
  change (@num XR) with xr in *.
  destruct HB as (lo' & hi' & -> & B1 & B2 & B3 & B4). cbv iota.
  set (df := @jia_derivative XR g _ _ _). clearbody df.
  set (zn := if @nneqb XR df (nofZ 0) then _ else _). clearbody zn.
  rewrite middle'.
  assert (HN : exists z', (if negb (@nisfinite XR zn) || negb (@nltb XR (Fin lo') zn && @nltb XR zn (Fin hi')) then Fin ((lo' + hi') / 2) else zn) = Fin z'
    /\ lo' < z' < hi').
  { destruct zn as [zn|].
    - change (@nisfinite XR (Fin zn)) with true. cbn [negb orb].
      destruct (@nltb XR (Fin lo') (Fin zn)) eqn:E1; cbn [andb negb].
      2:{ exists ((lo' + hi') / 2). split; [reflexivity|]. lra. }
      destruct (@nltb XR (Fin zn) (Fin hi')) eqn:E2; cbn [negb].
      2:{ exists ((lo' + hi') / 2). split; [reflexivity|]. lra. }
      apply lt_true in E1. apply lt_true in E2. exists zn. split; [reflexivity|]. lra.
    - change (@nisfinite XR NaN) with false. cbn [negb orb].
      exists ((lo' + hi') / 2). split; [reflexivity|]. lra. }
  destruct HN as (z' & -> & Z). exists z', lo', hi'. split; [repeat split; lra|].
  rewrite Hg by lra.
  match goal with |- context [if ?b then Break _ else _] => destruct b eqn:E3 end; [left|right; reflexivity].
  split; [reflexivity|]. apply orb_prop in E3. destruct E3 as [E3|E3].
  - left. now apply le_true in E3.
  - right. apply andb_prop in E3. destruct E3 as [E3 E4]. split; [now apply le_true in E3|now apply le_true in E4].
Qed.
End Jiang.

Section Pan.
Variables (g : xr -> res xr) (f : R -> R) (atol rtol : R).
(** Where [g] answers, it answers with [f]. *)
Hypothesis Hg : forall z y, g (Fin z) = Ok y -> y = Fin (f z).
Hypothesis Htol : 0 <= atol.
Lemma pan_clip_in x lo hi : lo <= hi -> @pan_clip XR (Fin x) (Fin lo) (Fin hi) = Fin (Rmin (Rmax x lo) hi) /\ lo <= Rmin (Rmax x lo) hi <= hi.
Proof.
  intros H. split.
  - unfold pan_clip, pymin, pymax.
    destruct (@nltb XR (Fin x) (Fin lo)) eqn:E.
    + apply lt_true in E. rewrite Rmax_right by lra. destruct (@nltb XR (Fin hi) (Fin lo)) eqn:E'.
      * apply lt_true in E'. lra.
      * rewrite Rmin_left by lra. reflexivity.
    + apply lt_false in E. rewrite Rmax_left by lra. destruct (@nltb XR (Fin hi) (Fin x)) eqn:E'.
      * apply lt_true in E'. rewrite Rmin_right by lra. reflexivity.
      * apply lt_false in E'. rewrite Rmin_left by lra. reflexivity.
  - unfold Rmin, Rmax. repeat destruct (Rle_dec _ _); lra.
Qed.
Definition pan_accepts (z z' : R) : Prop :=
  Rabs (f z') <= atol \/ Rabs (z' - z) <= atol + rtol * Rabs z'.
Lemma pan_step j z lo hi : lo <= hi -> f lo * f hi < 0 ->
  (exists e, @pan_bezier_body XR g (Fin atol) (Fin rtol) j (Fin z, Fin lo, Fin hi, Fin (f lo), Fin (f hi)) = Raise e) \/
  (exists z', lo <= z' <= hi /\
    ((@pan_bezier_body XR g (Fin atol) (Fin rtol) j (Fin z, Fin lo, Fin hi, Fin (f lo), Fin (f hi)) = Break (Fin z', j) /\ pan_accepts z z') \/
     (exists lo' hi', @pan_bezier_body XR g (Fin atol) (Fin rtol) j (Fin z, Fin lo, Fin hi, Fin (f lo), Fin (f hi))
         = Next (Fin z', Fin lo', Fin hi', Fin (f lo'), Fin (f hi')) /\
       lo <= lo' /\ lo' <= hi' /\ hi' <= hi /\ f lo' * f hi' < 0))).
Proof.
  intros H1 H3. unfold pan_bezier_body.
  assert (HE : exists x, @pan_bezier_estimate XR (Fin lo) (Fin hi) (Fin (f lo)) (Fin (f hi)) = Fin x).
  { unfold pan_bezier_estimate. xunf. cbn [xmul xsub xlift2]. rewrite xdiv_F by nra. cbn [xsub xlift2]. eauto. }
  destruct HE as (x & ->). destruct (pan_clip_in x lo hi H1) as [-> Z]. set (z' := Rmin _ _) in *. clearbody z'.
  destruct (g (Fin z')) as [y|e] eqn:Eg; [|left; eauto]. apply Hg in Eg. subst y. right.
  exists z'. split; [lra|].
  destruct (@nleb XR (@nabs XR (Fin (f z'))) (Fin atol)) eqn:E1; cbn [orb].
  { left. split; [reflexivity|]. left. now apply le_true in E1. }
  destruct (@nleb XR (@nabs XR (@nsub XR (Fin z') (Fin z))) _) eqn:E2.
  { left. split; [reflexivity|]. right. now apply le_true in E2. }
  right. apply le_false in E1.
  assert (F0 : f z' <> 0). { intros Q. rewrite Q, Rabs_R0 in E1. lra. }
  destruct (@nleb XR (@nmul XR (Fin (f lo)) (Fin (f z'))) (nofZ 0)) eqn:E'.
  - exists lo, z'. apply le_true in E'. split; [reflexivity|]. repeat split; try lra.
    assert (f lo <> 0) by (intros Q; rewrite Q in H3; lra). assert (f lo * f z' <> 0) by (now apply Rmult_integral_contrapositive_currified).
    cbn in E'. lra.
  - exists z', hi. apply le_false in E'. split; [reflexivity|]. repeat split; try lra. cbn in E'. nra.
Qed.
End Pan.
