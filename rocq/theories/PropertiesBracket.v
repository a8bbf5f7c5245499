(** * Bracketing searches never lose the root: C28.

    The searches are those of the model for an arbitrary residual: [g] is the
    residual as the program computes it, [f] the real function it computes on
    the initial bracket. *)
From Coq Require Import Reals Ranalysis5 ZArith String List Bool Lra Lia Psatz.
Import ListNotations.
From Verif Require Import Num XReal XRealLemmas MApi Loops MScipy MDelatorre MJiang MPan BracketXR
  Spec SpecLambert VecFacts UniversalKepler LambertUV LambertRev StumpffXR StumpffSmooth ZMono DelatorreXR PropertiesDelatorre.
Local Open Scope R_scope.

(** A continuous function that changes sign on an interval has a root there. *)
Lemma root_between (f : R -> R) a b : a <= b -> (forall x, a <= x <= b -> continuity_pt f x) -> f a * f b <= 0 ->
  exists x, a <= x <= b /\ f x = 0.
Proof.
  intros H C S. destruct (Req_dec (f a) 0) as [Fa|Fa]. { exists a. split; [lra|assumption]. }
  destruct (Req_dec (f b) 0) as [Fb|Fb]. { exists b. split; [lra|assumption]. }
  destruct (Req_dec a b) as [E|E]. { subst b. exfalso. nra. }
  destruct (Rlt_dec (f a) 0) as [L|L].
  - destruct (IVT_interv f a b C) as (z & Hz & E0); [lra|assumption|nra|]. exists z. split; assumption.
  - destruct (IVT_interv (fun x => - f x) a b) as (z & Hz & E0).
    + intros x Hx. apply (continuity_pt_opp f). now apply C.
    + lra.
    + lra.
    + nra.
    + exists z. split; [assumption|lra].
Qed.

(** ** delatorre2018 *)

(** After any number of passes the bracket lies in the initial one and the
    residual has opposite signs at its ends; what is returned lies inside the
    initial bracket and meets the tolerance.  The derivative [d] may be
    anything. *)
Theorem C28_delatorre_bracket : forall g d f lo hi tol n,
  computes g f lo hi -> 0 <= tol -> lo < hi -> f lo * f hi < 0 ->
  match for_range (@tor_newton_body XR g d (Fin tol)) n 1 (Fin ((lo + hi) / 2), Fin lo, Fin hi, Fin (f lo)) with
  | Break (z, k) => exists x, z = Fin x /\ lo < x < hi /\ Rabs (f x) <= tol /\ (1 <= k <= Z.of_nat n)%Z
  | Next (z, l, h, fl) => exists x a b, z = Fin x /\ l = Fin a /\ h = Fin b /\ fl = Fin (f a) /\
      lo <= a < x /\ x < b <= hi /\ f a * f b < 0
  | Raise _ => False
  end.
Proof.
  intros g d f lo hi tol n Hg Ht Hlh Hs.
  set (inv := fun (_ : Z) (st : xr * xr * xr * xr) => exists x a b, st = (Fin x, Fin a, Fin b, Fin (f a)) /\
      lo <= a < x /\ x < b <= hi /\ f a * f b < 0).
  assert (I0 : inv 1%Z (Fin ((lo + hi) / 2), Fin lo, Fin hi, Fin (f lo))).
  { exists ((lo + hi) / 2), lo, hi. repeat split; lra. }
  assert (I1 : forall j t t', inv j t -> tor_newton_body g d (Fin tol) j t = Next t' -> inv (j + 1)%Z t').
  { intros j t t' (x & a & b & -> & A1 & A2 & A3) E.
    destruct (tor_step g d f lo hi tol Hg Ht j x a b A1 A2 A3) as [[E' _]|(x' & a' & b' & E' & B1 & B2 & B3 & _)]; rewrite E' in E.
    - discriminate.
    - assert (Q : t' = (Fin x', Fin a', Fin b', Fin (f a'))) by congruence. subst t'. exists x', a', b'. repeat split; lra. }
  destruct (for_range _ n 1 _) as [[z k]|[[[z l] h] fl]|e] eqn:E.
  - apply (for_range_inv _ inv) in E; [|exact I0|intros j t t' _; apply I1].
    destruct E as (j & t & Hj & (x & a & b & -> & A1 & A2 & A3) & E).
    destruct (tor_step g d f lo hi tol Hg Ht j x a b A1 A2 A3) as [[E' T]|(x' & a' & b' & E' & _)]; rewrite E' in E; [|discriminate].
    assert (Q : z = Fin x /\ k = j) by (split; congruence). destruct Q as [-> ->].
    exists x. repeat split; try lra; try lia.
  - apply (for_range_next_inv _ inv) in E; [|exact I0|intros j t t' _; apply I1].
    destruct E as (x & a & b & Q & A1 & A2 & A3). exists x, a, b. repeat split; try congruence; lra.
  - assert (IS : forall n i s, inv i s -> for_range (tor_newton_body g d (Fin tol)) n i s <> Raise e).
    { intros m. induction m as [|m IH]; intros i s Hi; cbn [for_range]; [discriminate|].
      destruct Hi as (x & a & b & -> & A1 & A2 & A3).
      destruct (tor_step g d f lo hi tol Hg Ht i x a b A1 A2 A3) as [[E' _]|(x' & a' & b' & E' & B1 & B2 & B3 & _)]; rewrite E'.
      - discriminate.
      - apply IH. exists x', a', b'. repeat split; lra. }
    exact (IS _ _ _ I0 E).
Qed.
Print Assumptions C28_delatorre_bracket.

(** ** jiang2016 *)
Theorem C28_jiang_bracket : forall g f lo hi atol rtol n,
  computes g f lo hi -> 0 <= atol -> lo < hi -> f lo * f hi <= 0 ->
  match for_range (@jia_newton_body XR g (Fin atol) (Fin rtol)) n 1 (Fin ((lo + hi) / 2), Fin lo, Fin hi, Fin (f lo)) with
  | Break (z, k) => exists x, z = Fin x /\ lo < x < hi /\ (1 <= k <= Z.of_nat n)%Z /\
      (Rabs (f x) <= atol \/
       exists y, lo < y < hi /\ Rabs (x - y) <= atol + rtol * Rabs x /\ Rabs (f x) <= Rabs (f y))
  | Next (z, l, h, fl) => exists x a b, z = Fin x /\ l = Fin a /\ h = Fin b /\ fl = Fin (f a) /\
      lo <= a < x /\ x < b <= hi /\ f a * f b <= 0
  | Raise _ => False
  end.
Proof.
  intros g f lo hi atol rtol n Hg Ht Hlh Hs.
  set (inv := fun (_ : Z) (st : xr * xr * xr * xr) => exists x a b, st = (Fin x, Fin a, Fin b, Fin (f a)) /\
      lo <= a < x /\ x < b <= hi /\ f a * f b <= 0).
  assert (I0 : inv 1%Z (Fin ((lo + hi) / 2), Fin lo, Fin hi, Fin (f lo))).
  { exists ((lo + hi) / 2), lo, hi. repeat split; lra. }
  assert (I1 : forall j t t', inv j t -> jia_newton_body g (Fin atol) (Fin rtol) j t = Next t' -> inv (j + 1)%Z t').
  { intros j t t' (x & a & b & -> & A1 & A2 & A3) E.
    destruct (jia_step g f lo hi atol rtol Hg Ht j x a b A1 A2 A3) as [[E' _]|(x' & a' & b' & (B1 & B2 & B3 & _) & [[E' _]|E'])]; rewrite E' in E.
    - discriminate.
    - discriminate.
    - assert (Q : t' = (Fin x', Fin a', Fin b', Fin (f a'))) by congruence. subst t'. exists x', a', b'. repeat split; lra. }
  destruct (for_range _ n 1 _) as [[z k]|[[[z l] h] fl]|e] eqn:E.
  - apply (for_range_inv _ inv) in E; [|exact I0|intros j t t' _; apply I1].
    destruct E as (j & t & Hj & (x & a & b & -> & A1 & A2 & A3) & E).
    destruct (jia_step g f lo hi atol rtol Hg Ht j x a b A1 A2 A3) as [[E' T]|(x' & a' & b' & (B1 & B2 & B3 & _) & [[E' T]|E'])];
      rewrite E' in E; try discriminate.
    + assert (Q : z = Fin x /\ k = j) by (split; congruence). destruct Q as [-> ->].
      exists x. split; [reflexivity|]. split; [lra|]. split; [lia|]. left. exact T.
    + assert (Q : z = Fin x' /\ k = j) by (split; congruence). destruct Q as [-> ->].
      exists x'. split; [reflexivity|]. split; [lra|]. split; [lia|].
      destruct T as [T|T]; [left; exact T|right]. exists x. split; [lra|]. exact T.
  - apply (for_range_next_inv _ inv) in E; [|exact I0|intros j t t' _; apply I1].
    destruct E as (x & a & b & Q & A1 & A2 & A3). exists x, a, b. repeat split; try congruence; lra.
  - assert (IS : forall n i s, inv i s -> for_range (jia_newton_body g (Fin atol) (Fin rtol)) n i s <> Raise e).
    { intros m. induction m as [|m IH]; intros i s Hi; cbn [for_range]; [discriminate|].
      destruct Hi as (x & a & b & -> & A1 & A2 & A3).
      destruct (jia_step g f lo hi atol rtol Hg Ht i x a b A1 A2 A3) as [[E' _]|(x' & a' & b' & (B1 & B2 & B3 & _) & [[E' _]|E'])]; rewrite E'.
      - discriminate.
      - discriminate.
      - apply IH. exists x', a', b'. repeat split; lra. }
    exact (IS _ _ _ I0 E).
Qed.
Print Assumptions C28_jiang_bracket.

(** ** pan2016: the residual may also raise an exception. *)
Theorem C28_pan_bracket : forall g f lo hi atol rtol n,
  (forall z y, g (Fin z) = Ok y -> y = Fin (f z)) -> 0 <= atol -> lo <= hi -> f lo * f hi < 0 ->
  match for_range (@pan_bezier_body XR g (Fin atol) (Fin rtol)) n 1 (Fin hi, Fin lo, Fin hi, Fin (f lo), Fin (f hi)) with
  | Break (z, k) => exists x, z = Fin x /\ lo <= x <= hi /\ (1 <= k <= Z.of_nat n)%Z /\
      (Rabs (f x) <= atol \/ exists y, lo <= y <= hi /\ Rabs (x - y) <= atol + rtol * Rabs x)
  | Next (z, l, h, fl, fh) => exists x a b, z = Fin x /\ l = Fin a /\ h = Fin b /\ fl = Fin (f a) /\ fh = Fin (f b) /\
      lo <= x <= hi /\ lo <= a /\ a <= b /\ b <= hi /\ f a * f b < 0
  | Raise _ => True
  end.
Proof.
  intros g f lo hi atol rtol n Hg Ht Hlh Hs.
  set (inv := fun (_ : Z) (st : xr * xr * xr * xr * xr) => exists x a b, st = (Fin x, Fin a, Fin b, Fin (f a), Fin (f b)) /\
      lo <= x <= hi /\ lo <= a /\ a <= b /\ b <= hi /\ f a * f b < 0).
  assert (I0 : inv 1%Z (Fin hi, Fin lo, Fin hi, Fin (f lo), Fin (f hi))).
  { exists hi, lo, hi. repeat split; lra. }
  assert (I1 : forall j t t', inv j t -> pan_bezier_body g (Fin atol) (Fin rtol) j t = Next t' -> inv (j + 1)%Z t').
  { intros j t t' (x & a & b & -> & A0 & A1 & A2 & A3 & A4) E.
    destruct (pan_step g f atol rtol Hg Ht j x a b A2 A4) as [[e E']|(x' & B0 & [[E' _]|(a' & b' & E' & B1 & B2 & B3 & B4)])]; rewrite E' in E.
    - discriminate.
    - discriminate.
    - assert (Q : t' = (Fin x', Fin a', Fin b', Fin (f a'), Fin (f b'))) by congruence. subst t'. exists x', a', b'. repeat split; lra. }
  destruct (for_range _ n 1 _) as [[z k]|[[[[z l] h] fl] fh]|e] eqn:E; [| |exact I].
  - apply (for_range_inv _ inv) in E; [|exact I0|intros j t t' _; apply I1].
    destruct E as (j & t & Hj & (x & a & b & -> & A0 & A1 & A2 & A3 & A4) & E).
    destruct (pan_step g f atol rtol Hg Ht j x a b A2 A4) as [[e E']|(x' & B0 & [[E' T]|(a' & b' & E' & _)])]; rewrite E' in E; try discriminate.
    assert (Q : z = Fin x' /\ k = j) by (split; congruence). destruct Q as [-> ->].
    exists x'. split; [reflexivity|]. split; [lra|]. split; [lia|].
    destruct T as [T|T]; [left; exact T|right]. exists x. split; [lra|]. exact T.
  - apply (for_range_next_inv _ inv) in E; [|exact I0|intros j t t' _; apply I1].
    destruct E as (x & a & b & Q & A0 & A1 & A2 & A3 & A4). exists x, a, b. repeat split; try congruence; lra.
Qed.
Print Assumptions C28_pan_bracket.

(** A case for the three: a cubic on [0, 2]. *)
Example C28_case : let f x := x * x * x - 1 in
  computes (fun x => @nsub XR (@cube XR x) (nofZ 1)) f 0 2 /\ f 0 * f 2 < 0 /\
  (forall z y, (Ok (@nsub XR (@cube XR (Fin z)) (nofZ 1)) : res xr) = Ok y -> y = Fin (f z)).
Proof.
  cbv zeta. split; [|split; [lra|]].
  - intros z _. reflexivity.
  - intros z y E. assert (Q : y = @nsub XR (@cube XR (Fin z)) (nofZ 1)) by congruence. rewrite Q. reflexivity.
Qed.

(** ** The root that is kept

    delatorre2018 without revolutions: after any number of passes the bracket
    still contains the [z] of a motion of the requested duration. *)
Theorem C28_delatorre_root : forall P A mu tof lo hi tol d n,
  0 < mu -> lo < hi -> hi < PI * PI -> (forall z, lo <= z <= hi -> 0 < P - sqrt 2 * A * C0 z) ->
  let f z := tz mu A (P - sqrt 2 * A * C0 z) z 0 - tof in
  0 <= tol -> f lo * f hi < 0 ->
  match for_range (@tor_newton_body XR (fun z => @nsub XR (@tor_tof XR (Fin P) (Fin (sqrt 2 * A)) (Fin mu) z 0) (Fin tof)) d (Fin tol)) n 1
          (Fin ((lo + hi) / 2), Fin lo, Fin hi, Fin (f lo)) with
  | Break (z, k) => exists x, z = Fin x /\ lo < x < hi /\ Rabs (f x) <= tol
  | Next (z, l, h, fl) => exists a b root, l = Fin a /\ h = Fin b /\ lo <= a <= root /\ root <= b <= hi /\
      tz mu A (P - sqrt 2 * A * C0 root) root 0 = tof
  | Raise _ => False
  end.
Proof.
  intros P A mu tof lo hi tol d n Hmu Hlh Hh HV f Ht Hs.
  set (g := fun z => @nsub XR (@tor_tof XR (Fin P) (Fin (sqrt 2 * A)) (Fin mu) z 0) (Fin tof)).
  assert (Hg : computes g f lo hi).
  { intros z Hz. unfold g. rewrite tor_tof_F by (try lia; try lra; try (left; apply HV; lra)). reflexivity. }
  pose proof (C28_delatorre_bracket g d f lo hi tol n Hg Ht Hlh Hs) as B. unfold num in *.
  destruct (for_range _ n 1 _) as [[z k]|[[[z l] h] fl]|e].
  - destruct B as (x & E & B1 & B2 & _). eauto.
  - destruct B as (x & a & b & _ & -> & -> & _ & B1 & B2 & B3).
    set (h := fun z => sqrt 2 / sqrt mu * Gz P (sqrt 2 * A) z - tof).
    assert (Eh : forall z, lo <= z <= hi -> f z = h z).
    { intros y Hy. unfold f, h. rewrite tz_Gz by (try lra; left; apply HV; lra). reflexivity. }
    destruct (root_between h a b) as (r & Hr & Er); [lra| | |].
    + intros y Hy. unfold h.
      apply (continuity_pt_minus (fun z => sqrt 2 / sqrt mu * Gz P (sqrt 2 * A) z) (fun _ => tof)).
      * apply (continuity_pt_scal (Gz P (sqrt 2 * A))). apply Gz_continuous; [|apply HV; lra].
        pose proof (S1_pos y ltac:(lra)). lra.
      * apply continuity_pt_const. intros ? ?. reflexivity.
    + rewrite <- !Eh by lra. lra.
    + exists a, b, r. rewrite <- Eh in Er by lra. unfold f in Er. repeat split; lra.
  - exact B.
Qed.
Print Assumptions C28_delatorre_root.

Example C28_delatorre_root_case :
  let f z := tz 1 (-1) (2 - sqrt 2 * -1 * C0 z) z 0 - (tz 1 (-1) (2 - sqrt 2 * -1 * C0 1) 1 0 + tz 1 (-1) (2 - sqrt 2 * -1 * C0 2) 2 0) / 2 in
  1 < 2 /\ 2 < PI * PI /\ (forall z, 1 <= z <= 2 -> 0 < 2 - sqrt 2 * -1 * C0 z) /\ f 1 * f 2 < 0.
Proof.
  cbv zeta. pose proof PI2_3_2 as Hp. unfold PI2 in Hp.
  assert (HV : forall z, 1 <= z <= 2 -> 0 < 2 - sqrt 2 * -1 * C0 z).
  { intros z Hz. unfold C0, U0. destruct (Rlt_dec 0 z); [|lra]. pose proof (COS_bound (sqrt z * 1)).
    assert (0 < sqrt 2) by (apply sqrt_lt_R0; lra). assert (sqrt 2 * sqrt 2 = 2) by (apply sqrt_sqrt; lra). nra. }
  split; [lra|]. split; [nra|]. split; [exact HV|].
  set (t1 := tz _ _ _ 1 0). set (t2 := tz _ _ _ 2 0).
  assert (t1 < t2).
  { unfold t1, t2. rewrite !tz_Gz by (try lra; left; apply HV; lra).
    assert (0 < sqrt 2) by (apply sqrt_lt_R0; lra). assert (sqrt 2 * sqrt 2 = 2) by (apply sqrt_sqrt; lra).
    rewrite sqrt_1. apply Rmult_lt_compat_l; [lra|].
    apply Gz_increasing; try lra; try nra; try (apply HV; lra).
    apply Rabs_def1; nra. }
  clearbody t1 t2. replace (t1 - (t1 + t2) / 2) with (- ((t2 - t1) / 2)) by field.
  replace (t2 - (t1 + t2) / 2) with ((t2 - t1) / 2) by field. nra.
Qed.
