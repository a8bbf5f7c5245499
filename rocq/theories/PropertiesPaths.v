(** * gooding1990, delatorre2018 and arora2013 with complete revolutions: C35, C52. *)
From Coq Require Import Reals ZArith Bool Lra Lia Psatz.
From Coquelicot Require Import Coquelicot.
From Verif Require Import Num XReal XRealLemmas MApi MScipy ApiFacts Loops MLinalg MAngles MGooding MArora MInit Spec SpecLambert VecFacts VecXR UniversalKepler LambertUV LambertRev LambertZ ZMono LambertUnique
  Godal GodalXR GodalIzzo GodalPan GodalMore OrbitXR CallXR IzzoXR GoodingXR PropertiesAngles PropertiesMotion PropertiesOrbit PropertiesDerivIzzo PropertiesUnique MinTime PropertiesMultiRev
  PropertiesDerMin PropertiesNegrete PropertiesArora PropertiesGooding MDelatorre DelatorreXR PropertiesDelatorre PropertiesMcelreathRev PropertiesInfeasible.
Local Open Scope R_scope.

(** The points gooding1990 visits in its search for the shortest time: Halley's
    iteration (gooding.py:445) for the derivative of the time. *)
Definition goo_halley {N : Num} (m : Z) (q qsqfm1 x : num) : num :=
  let '(_, dt, d2t, d3t) := tlamb m q qsqfm1 x 3 in
  nsub x (ndiv (nmul dt d2t) (nsub (nmul d2t d2t) (ndiv (nmul dt d3t) (nofZ 2)))).

(** The first point of the search (gooding.py:426-431). *)
Definition goo_first {N : Num} (m : Z) (q qsqfm1 : num) : num :=
  let thr2 := ndiv (natan2 qsqfm1 (nmul (nofZ 2) q)) npi in
  let half := nlit 1 2 in
  let xm := ndiv (nofZ 1) (nmul (nmul (nlit 3 2) (nadd (nofZ m) half)) npi) in
  let xm := if nltb thr2 half then nmul (d8rt (nmul (nofZ 2) thr2)) xm else xm in
  if nltb half thr2 then nmul (nsub (nofZ 2) (d8rt (nsub (nofZ 2) (nmul (nofZ 2) thr2)))) xm else xm.

Lemma iter_r {A : Type} (f : A -> A) n x : Nat.iter (S n) f x = Nat.iter n f (f x).
Proof. induction n as [|n IH]; [reflexivity|]. change (f (Nat.iter (S n) f x) = f (Nat.iter n f (f x))). now rewrite IH. Qed.

(** The time left after the search is that of the last point evaluated. *)
Lemma goo_min_loop {N : Num} m q k at_ rt n i st r : (0 < n)%nat ->
  (for_range (goo_min_body m q k at_ rt) n i st = Break r \/ for_range (goo_min_body m q k at_ rt) n i st = Next r) ->
  exists j, (j < n)%nat /\ (let '(_, _, tmin, _) := r in exists dt d2t d3t,
    tlamb m q k (Nat.iter j (goo_halley m q k) (let '(_, x, _, _) := st in x)) 3 = (tmin, dt, d2t, d3t)).
Proof.
  revert i st. induction n as [|n IH]; intros i st Hn H; [lia|]. cbn [for_range] in H.
  destruct st as [[[i0 x] t0] d0]. unfold goo_min_body at 1 3 in H.
  destruct (tlamb m q k x 3) as [[[t dt] d2t] d3t] eqn:ET.
  assert (Z : forall it x', r = (it, x', t, d2t) -> exists j, (j < S n)%nat /\ (let '(_, _, tmin, _) := r in exists dt d2t d3t, tlamb m q k (Nat.iter j (goo_halley m q k) x) 3 = (tmin, dt, d2t, d3t))).
  { intros it x' ->. exists 0%nat. split; [lia|]. exists dt, d2t, d3t. exact ET. }
  destruct (neqb d2t _).
  { destruct H as [H|H]; [injection H as <-|discriminate]. eapply Z; reflexivity. }
  cbv zeta in H. set (x' := nsub x (ndiv _ _)) in H. assert (EH : x' = goo_halley m q k x) by (unfold goo_halley; rewrite ET; reflexivity).
  destruct (nltb _ _).
  { destruct H as [H|H]; [injection H as <-|discriminate]. eapply Z; reflexivity. }
  destruct n as [|n].
  { cbn [for_range] in H. destruct H as [H|H]; [discriminate|injection H as <-]. eapply Z; reflexivity. }
  destruct (IH (i + 1)%Z (i, x', t, d2t)) as (j & Hj & E); [lia|exact H|].
  exists (S j). split; [lia|]. destruct r as [[[? ?] tmin] ?]. destruct E as (a & b & c & E). exists a, b, c.
  rewrite iter_r. rewrite <- EH. exact E.
Qed.

(** With [M >= 1] gooding1990 answers only if the requested time is longer than
    the time of the last point its search evaluated.  When that point lies in the
    elliptic range the requested transfer exists. *)
Theorem C35_gooding_refuses :
  forall ev mu r1 r2 tof M prograde low_path maxiter atol rtol full_output o,
  vz (vcross r1 r2) <> 0 -> (1 <= M)%Z ->
  @run XR Gooding ev (call mu r1 r2 tof M prograde low_path maxiter atol rtol full_output) = Ok o ->
  let s := (vnorm r1 + vnorm r2 + vnorm (vminus r2 r1)) / 2 in
  exists q n,
    s * (q * q) = s - vnorm (vminus r2 r1) /\ (0 < q <-> short_way prograde r1 r2) /\ (Z.of_nat n < maxiter)%Z /\
    ((exists x, Nat.iter n (@goo_halley XR M (Fin q) (Fin (1 - q * q))) (@goo_first XR M (Fin q) (Fin (1 - q * q))) = Fin x /\ -1 < x < 1) ->
     feasible mu r1 r2 prograde M tof).
Proof.
  intros ev mu r1 r2 tof M p l mi at_ rt fo o Hz HM1 H s. pose proof (vz_non_collinear _ _ Hz) as Hn. cbn [run] in H.
  unfold gooding1990 in H. enter H.
  destruct (transfer_angle r1 r2 p Hn) as (th & ET & F). rewrite ET in H.
  skip_check H. apply bind_ok in H. destruct H as ([[[[[vr1 vt1] vr2] vt2] it] tp] & EV & _).
  unfold vlamb in EV.
  change (@nadd XR (nmul (nmul (nofZ 2) npi) (nofZ M)) (Fin th)) with (Fin (2 * PI * IZR M + th)) in EV.
  destruct (goo_reduce _ _) as [[thr m]|st|e] eqn:ER; try discriminate.
  apply goo_reduce_F in ER; [|apply F|assumption]. destruct ER as [-> ->].
  destruct (gooding_geometry_F mu p r1 r2 th Hn Hmu F) as (q & sig & EG & _ & _ & LF & Hd). rewrite EG in EV. clear EG.
  apply bind_ok in EV. destruct EV as ([[[[ns x1] x2] ni] tt] & EX & _).
  unfold xlamb in EX. destruct (Z.eqb_spec M 0) as [|_]; [lia|]. cbv zeta in EX.
  destruct (Z.leb_spec mi 0) as [|HI]; [discriminate|].
  destruct (semiper_pos _ _ Hn) as [Hs Hcs]. pose proof (lf_sq _ _ _ _ LF) as Hl. pose proof (lambda_bounds _ _ _ _ Hn LF) as Hq.
  assert (EK : chord r1 r2 / semiper r1 r2 = 1 - q * q).
  { apply Rmult_eq_reg_l with (semiper r1 r2); [|lra]. rewrite Rmult_minus_distr_l, Hl. field. lra. }
  rewrite EK in EX.
  match type of EX with context [for_range ?b ?n ?i (0%Z, ?f, ?a0, ?a1)] => set (first := f) in *; pose proof (goo_min_loop M (Fin q) (Fin (1 - q * q)) (Fin at_) (Fin rt) n i (0%Z, f, a0, a1)) as GL; fold first in GL; set (LP := for_range b n i (0%Z, first, a0, a1)) in * end.
  assert (G : exists it xm tmin d2t n, (n < Z.to_nat mi)%nat /\ (exists dt d2 d3, @tlamb XR M (Fin q) (Fin (1 - q * q)) (Nat.iter n (@goo_halley XR M (Fin q) (Fin (1 - q * q))) first) 3 = (tmin, dt, d2, d3)) /\
     (LP = Break (it, xm, tmin, d2t) \/ LP = Next (it, xm, tmin, d2t))).
  { destruct LP as [[[[it0 xm] tmin] d2t]|[[[it0 xm] tmin] d2t]|] eqn:EL; [| |discriminate].
    - destruct (GL (it0, xm, tmin, d2t)) as (n & Hj & E); [lia|now left|]. exists it0, xm, tmin, d2t, n. auto.
    - destruct (GL (it0, xm, tmin, d2t)) as (n & Hj & E); [lia|now right|]. exists it0, xm, tmin, d2t, n. auto. }
  destruct G as (it0 & xm & tmin & d2t & n & Hj & (dt & d2 & d3 & E) & EL). clear GL.
  exists q, n. split; [exact Hl|]. split; [exact Hd|]. split; [lia|]. intros (x & Ex & Hx). change first with (@goo_first XR M (Fin q) (Fin (1 - q * q))) in E. rewrite Ex in E.
  assert (HMx : M = 0%Z \/ ((0 < M)%Z /\ x < 1)) by (right; split; [lia|lra]). rewrite (tlamb_F q M x 3 Hq (proj1 Hx) HMx ltac:(lia)) in E. do 3 (apply pair_equal_spec in E; destruct E as [E _]). subst tmin.
  assert (GT : goo_T q M x = 2 * izzo_T q M x) by (unfold goo_T; destruct (Req_EM_T x 1); [lra|reflexivity]). rewrite GT in EL.
  set (tin := 4 * sqrt (mu * semiper r1 r2 / 2) * tof / (semiper r1 r2 * semiper r1 r2)).
  assert (ETI : @ndiv XR (nmul (nmul (nofZ 4) (Fin (sqrt (mu * semiper r1 r2 / 2)))) (Fin tof)) (sq (Fin (semiper r1 r2))) = Fin tin).
  { unfold sq. xunf. cbn [xmul xlift2]. rewrite xdiv_F by nra. reflexivity. }
  rewrite ETI in EX.
  assert (GE : 2 * izzo_T q M x <= tin).
  { apply Rnot_lt_le. intros LT. assert (NL : @nltb XR (@nsub XR (Fin tin) (Fin (2 * izzo_T q M x))) (nofZ 0) = true) by (apply xltb_F; cbn; lra).
    destruct EL as [EL|EL]; rewrite EL in EX; rewrite NL in EX; match type of EX with (if ?b then _ else _) = _ => destruct b; discriminate EX end. }
  destruct (mt_critical q M Hq HM1) as (x0 & H0 & D).
  destruct (shortest mu r1 r2 p M q x0 Hmu Hz HM1 LF Hd H0 D) as (R0 & _ & S). rewrite feasible_requested, S.
  assert (izzo_T q M x0 <= izzo_T q M x) by (destruct (Req_dec x x0) as [-> |Nx]; [lra|left; now apply mt_minimum]).
  set (S1 := semiper r1 r2) in *. set (rate := sqrt (2 * mu / (S1 * S1 * S1))) in *.
  assert (EKK : 2 * rate = 4 * sqrt (mu * S1 / 2) / (S1 * S1)).
  { assert (S3 : 0 < S1 * S1 * S1) by (apply Rmult_lt_0_compat; nra).
    assert (P1 : 0 < 2 * mu / (S1 * S1 * S1)) by (apply Rdiv_lt_0_compat; lra). assert (P2 : 0 < mu * S1 / 2) by nra.
    destruct (sqrt_facts _ P1) as [A1 A2]. destruct (sqrt_facts _ P2) as [B1 B2]. fold rate in A1, A2.
    set (b := sqrt (mu * S1 / 2)) in *.
    assert (0 < 4 * b / (S1 * S1)) by (apply Rdiv_lt_0_compat; nra).
    apply Rsqr_inj; [lra|lra|]. unfold Rsqr. transitivity (4 * (rate * rate)); [ring|]. rewrite A2.
    transitivity (16 * (b * b) / (S1 * S1 * (S1 * S1))); [rewrite B2; field; lra|field; lra]. }
  assert (tin = 2 * (rate * tof)) by (unfold tin; replace (2 * (rate * tof)) with (2 * rate * tof) by ring; rewrite EKK; field; lra). lra.
Qed.
Print Assumptions C35_gooding_refuses.

(** ** C52: which of the two transfers gooding1990 takes *)

(** The moment of the velocities built from [A] and [V]. *)
Lemma fg_moment mu r1 r2 A V v1 v2 : 0 < mu -> fg_pair mu r1 r2 A V v1 v2 ->
  vnorm (vcross r1 v1) = Rabs (/ (A * sqrt V / sqrt mu)) * vnorm (vcross r1 r2).
Proof.
  intros Hm [_ _ -> _]. rewrite <- vnorm_mult. f_equal. apply vec_eq; vunf; ring.
Qed.
Lemma fg_moment_le mu r1 r2 A V W v1 v2 w1 w2 : 0 < mu -> non_collinear r1 r2 -> fg_pair mu r1 r2 A V v1 v2 -> fg_pair mu r1 r2 A W w1 w2 -> V <= W ->
  vnorm (vcross r1 w1) <= vnorm (vcross r1 v1).
Proof.
  intros Hm Hn F G L. rewrite (fg_moment _ _ _ _ _ _ _ Hm F), (fg_moment _ _ _ _ _ _ _ Hm G). pose proof (vnorm_pos _ Hn) as HN.
  assert (A0 : 0 < Rabs A). { apply Rabs_pos_lt. intros E. pose proof (fg_A _ _ _ _ _ _ _ F) as E2. pose proof (Kgeo_pos _ _ Hn) as K0. unfold Kgeo in K0. rewrite E in E2. lra. }
  destruct (sqrt_facts _ Hm) as [M0 _]. destruct (sqrt_facts _ (fg_V _ _ _ _ _ _ _ F)) as [V0 _]. destruct (sqrt_facts _ (fg_V _ _ _ _ _ _ _ G)) as [W0 _].
  apply Rmult_le_compat_r; [lra|]. pose proof (sqrt_le_1_alt _ _ L) as SL.
  assert (E : forall c, 0 < c -> Rabs (/ (A * c / sqrt mu)) = sqrt mu / (Rabs A * c)).
  { intros c Hc. assert (A <> 0) by (intros ->; rewrite Rabs_R0 in A0; lra). rewrite Rabs_Rinv. 2:{ intros E. apply Rmult_integral in E. destruct E as [E|E]; [apply Rmult_integral in E; lra|]. apply Rinv_neq_0_compat in E; lra. }
    unfold Rdiv. rewrite !Rabs_mult, (Rabs_right c), Rabs_Rinv, (Rabs_right (sqrt mu)) by lra. field. lra. }
  rewrite !E by assumption. unfold Rdiv. apply Rmult_le_compat_l; [lra|]. apply Rinv_le_contravar; [apply Rmult_lt_0_compat; lra|apply Rmult_le_compat_l; lra].
Qed.

(** A delivered answer comes from a real [x], chosen from what [xlamb] returns. *)
Lemma gooding_run_x ev mu r1 r2 tof M p l mi at_ rt fo o v1 v2 :
  non_collinear r1 r2 ->
  @run XR Gooding ev (call mu r1 r2 tof M p l mi at_ rt fo) = Ok o -> delivers o v1 v2 ->
  0 < mu /\ (0 <= M)%Z /\ exists th q sig mus tin ns x1 x2 ni tt x y,
  @get_transfer_angle XR (vfin r1) (vfin r2) p = Fin th /\
  @goo_geometry XR (Fin mu) (Fin (vnorm r1)) (Fin (vnorm r2)) (@ndiv XR (Fin th) (nofZ 2)) =
      (mus, Fin (semiper r1 r2), Fin (chord r1 r2 / semiper r1 r2), Fin q,
       Fin ((vnorm r1 - vnorm r2) / chord r1 r2), Fin sig) /\
  tin = @ndiv XR (nmul (nmul (nofZ 4) mus) (Fin tof)) (sq (Fin (semiper r1 r2))) /\
  @xlamb XR (e_clock ev) M (Fin q) (Fin (chord r1 r2 / semiper r1 r2)) tin mi (Fin at_) (Fin rt) fo = Ok (ns, x1, x2, ni, tt) /\
  (if (1 <? ns)%Z then (if l then np_max x1 x2 else np_min x1 x2) else x1) = Fin x /\
  lambda_facts p r1 r2 q /\ (0 < q <-> short_way p r1 r2) /\ 0 <= y /\ y * y = 1 - q * q * (1 - x * x) /\
  fg_pair mu r1 r2 (sqrt 2 * semiper r1 r2 * q) (semiper r1 r2 * ((y - q * x) * (y - q * x))) v1 v2.
Proof.
  intros Hn H D. cbn [run] in H. unfold gooding1990 in H. enter H.
  destruct (transfer_angle r1 r2 p Hn) as (th & ET & F). rewrite ET in H.
  skip_check H. apply bind_ok in H. destruct H as ([[[[[vr1 vt1] vr2] vt2] it] tp] & EV & H).
  destruct (delivers_inv _ _ _ _ _ _ _ _ H D) as [E1 E2].
  split; [exact Hmu|]. split; [exact HM|].
  unfold vlamb in EV.
  change (@nadd XR (nmul (nmul (nofZ 2) npi) (nofZ M)) (Fin th)) with (Fin (2 * PI * IZR M + th)) in EV.
  destruct (goo_reduce _ _) as [[thr m]|st|e] eqn:ER; try discriminate.
  apply goo_reduce_F in ER; [|apply F|assumption]. destruct ER as [-> ->].
  destruct (gooding_geometry_F mu p r1 r2 th Hn Hmu F) as (q & sig & EG & _ & _ & LF & Hd). pose proof EG as EG0. rewrite EG in EV.
  apply bind_ok in EV. destruct EV as ([[[[ns x1] x2] ni] tt] & EX & EV).
  set (x := if (1 <? ns)%Z then _ else _) in EV.
  destruct (goo_components _ _ _ _ _ _ _ _ _) as [[[a1 a2] a3] a4] eqn:EC2.
  apply Ok_inj in EV. do 5 (apply pair_equal_spec in EV; destruct EV as [EV ?]). subst a1 a2 a3 a4.
  assert (X : exists xr, x = Fin xr).
  { clear - EC2 E1. destruct x as [xr|]; [now exists xr|exfalso]. unfold goo_components in EC2.
    destruct (@tlamb XR M (Fin q) _ NaN (-1)) as [[[a b] c] d] eqn:ET. unfold tlamb in ET. cbn [Z.eqb] in ET. unfold tl_velocity in ET. xunf. cbn in ET.
    do 3 (apply pair_equal_spec in ET; destruct ET as [ET ?]). subst. do 3 (apply pair_equal_spec in EC2; destruct EC2 as [EC2 ?]). subst.
    clear - E1. destruct (get_orbit_normal_vector _ _ _). vinv. xunf. xinv. }
  destruct X as [xr EXr]. rewrite EXr in EC2.
  destruct (gooding_velocities_fg mu p r1 r2 th M xr vr1 vt1 vr2 vt2 v1 v2 _ _ _ _ _ _ Hn Hmu F EG0 EC2 E1 E2) as (qq & y & _ & _ & _ & Eq & _ & Hy & Hy2 & FG).
  apply Fin_inj in Eq. subst qq.
  exists th, q, sig, (Fin (sqrt (mu * semiper r1 r2 / 2))). eexists. exists ns, x1, x2, ni, tt, xr, y.
  split; [exact ET|]. split; [exact EG|]. split; [reflexivity|]. split; [exact EX|]. split; [exact EXr|]. auto 8.
Qed.

(** [y - q x] falls with [x] on the short way and grows on the long way. *)
Lemma yqx_mono q x x' y y' : -1 < q < 1 -> x' <= x -> 0 <= y -> 0 <= y' -> y * y = 1 - q * q * (1 - x * x) -> y' * y' = 1 - q * q * (1 - x' * x') ->
  (0 < q -> y - q * x <= y' - q * x') /\ (q < 0 -> y' - q * x' <= y - q * x) /\ 0 < y - q * x /\ 0 < y' - q * x'.
Proof.
  intros Hq Hx Hy Hy' E E'. assert (Q : 0 < 1 - q * q) by nra.
  assert (B : forall z w, 0 <= w -> w * w = 1 - q * q * (1 - z * z) -> 0 < w - q * z /\ 0 < w + q * z).
  { intros z w Hw Ew. assert (P : (w - q * z) * (w + q * z) = 1 - q * q) by lra. split; nra. }
  destruct (B x y Hy E) as [P1 P2]. destruct (B x' y' Hy' E') as [P3 P4].
  split; [|split; [|split; assumption]].
  - intros Q0. assert (M1 : q * x' <= q * x) by (apply Rmult_le_compat_l; lra). 
    assert (I : (y - y') * (y + y') = q * (x - x') * (q * x + q * x')) by lra.
    assert (S0 : 0 < y + y') by lra. apply Rmult_le_reg_r with (y + y'); [assumption|].
    assert (q * x + q * x' <= y + y') by lra. assert (q * (x - x') * (q * x + q * x') <= q * (x - x') * (y + y')) by (apply Rmult_le_compat_l; [apply Rmult_le_pos; lra|assumption]). lra.
  - intros Q0. assert (M1 : q * x <= q * x') by nra.
    assert (I : (y' - y) * (y + y') = q * (x' - x) * (q * x + q * x')) by lra.
    assert (S0 : 0 < y + y') by lra. apply Rmult_le_reg_r with (y + y'); [assumption|].
    assert (q * x + q * x' <= y + y') by lra. assert (q * (x' - x) * (q * x + q * x') <= q * (x' - x) * (y + y')) by (apply Rmult_le_compat_l; [lra|assumption]). lra.
Qed.

Theorem C52_gooding_low_path :
  forall ev mu r1 r2 tof M prograde maxiter atol rtol full_output low v1 v2 high w1 w2,
  non_collinear r1 r2 ->
  @run XR Gooding ev (call mu r1 r2 tof M prograde true maxiter atol rtol full_output) = Ok low -> delivers low v1 v2 ->
  @run XR Gooding ev (call mu r1 r2 tof M prograde false maxiter atol rtol full_output) = Ok high -> delivers high w1 w2 ->
  (short_way prograde r1 r2 -> vnorm (vcross r1 w1) <= vnorm (vcross r1 v1)) /\
  (~ short_way prograde r1 r2 -> vnorm (vcross r1 v1) <= vnorm (vcross r1 w1)).
Proof.
  intros ev mu r1 r2 tof M p mi at_ rt fo o v1 v2 o' w1 w2 Hn H D H' D'.
  destruct (gooding_run_x _ _ _ _ _ _ _ _ _ _ _ _ _ _ _ Hn H D) as (Hmu & _ & th & q & sig & mus & tin & ns & x1 & x2 & ni & tt & x & y & E1 & E2 & E3 & E4 & E5 & LF & Hd & Hy & Hy2 & FG).
  destruct (gooding_run_x _ _ _ _ _ _ _ _ _ _ _ _ _ _ _ Hn H' D') as (_ & _ & th' & q' & sig' & mus' & tin' & ns' & x1' & x2' & ni' & tt' & x' & y' & E1' & E2' & E3' & E4' & E5' & _ & _ & Hy' & Hy2' & FG').
  rewrite E1 in E1'. apply Fin_inj in E1'. subst th'. rewrite E2 in E2'. do 5 (apply pair_equal_spec in E2'; destruct E2' as [E2' ?]). subst mus'.
  match goal with E : Fin q = Fin q' |- _ => apply Fin_inj in E; subst q' end. rewrite <- E3 in E3'. subst tin'. rewrite E4 in E4'. apply Ok_inj in E4'. do 4 (apply pair_equal_spec in E4'; destruct E4' as [E4' ?]). subst ns' x1' x2'.
  pose proof (lambda_bounds _ _ _ _ Hn LF) as Hq. pose proof (lf_nz _ _ _ _ LF) as Q0. destruct (semiper_pos _ _ Hn) as [Hs _].
  assert (L : x' <= x).
  { destruct (1 <? ns)%Z; [|rewrite E5 in E5'; apply Fin_inj in E5'; lra]. clear - E5 E5'. unfold np_max, np_min in *. destruct x1 as [a|], x2 as [b|]; try (cbn in E5; discriminate).
    destruct (@nltb XR (Fin a) (Fin b)) eqn:C1.
    - apply xltb_F in C1. apply Fin_inj in E5, E5'. lra.
    - destruct (@nleb XR (Fin b) (Fin a)) eqn:C2.
      + apply xleb_F in C2. apply Fin_inj in E5, E5'. lra.
      + apply xltb_Ff in C1. apply xleb_Ff in C2. lra. }
  destruct (yqx_mono q x x' y y' Hq L Hy Hy' Hy2 Hy2') as (A1 & A2 & A3 & A4).
  split; intros S.
  - apply Hd in S. apply (fg_moment_le _ _ _ _ _ _ _ _ _ _ Hmu Hn FG FG'). apply Rmult_le_compat_l; [lra|]. specialize (A1 S). apply Rmult_le_compat; lra.
  - assert (QN : q < 0) by (destruct (Rtotal_order q 0) as [|[|]]; [assumption|contradiction|tauto]). apply (fg_moment_le _ _ _ _ _ _ _ _ _ _ Hmu Hn FG' FG). apply Rmult_le_compat_l; [lra|]. specialize (A2 QN). apply Rmult_le_compat; lra.
Qed.
Print Assumptions C52_gooding_low_path.

(** The two answers of delatorre2018 with complete revolutions come from opposite
    sides of one point. *)
Lemma delatorre_run_z ev mu r1 r2 tof M p l mi at_ rt fo o v1 v2 :
  non_collinear r1 r2 -> (1 <= M)%Z ->
  @run XR Delatorre ev (call mu r1 r2 tof M p l mi at_ rt fo) = Ok o -> delivers o v1 v2 ->
  0 < mu /\ exists th zm tm z,
  @get_transfer_angle XR (vfin r1) (vfin r2) p = Fin th /\ angle_facts p r1 r2 th /\
  @tor_find_minimum_time XR (Fin (vnorm r1 + vnorm r2)) (Fin (sqrt 2 * halfA r1 r2 th)) (Fin mu) M (Fin at_) (Fin rt) = (Fin zm, tm) /\
  0 < zm < PI * PI /\ 0 < z < PI * PI /\ (if l then z <= zm else zm <= z) /\
  fg_pair mu r1 r2 (halfA r1 r2 th) (vnorm r1 + vnorm r2 - sqrt 2 * halfA r1 r2 th * C0 z) v1 v2.
Proof.
  intros Hn HM1 H D. cbn [run] in H. destruct D as [O1 O2]. unfold delatorre2018 in H. apply validated_call in H.
  destruct H as [(Hmu & H1 & H12 & Ht & HM) H]. split; [exact Hmu|].
  cbn [call a_mu a_tof a_is_prograde a_rtol a_atol a_maxiter a_full_output a_M a_is_low_path] in H.
  rewrite !norm_F in H. destruct (transfer_angle r1 r2 p Hn) as (th & Eth & AF). rewrite Eth in H.
  rewrite tor_Q_F in H by assumption.
  pose proof (halfA_sq p r1 r2 th Hn AF) as HA2. set (A := halfA r1 r2 th) in *.
  replace (@nadd XR (Fin (vnorm r1)) (Fin (vnorm r2))) with (Fin (vnorm r1 + vnorm r2)) in H by reflexivity.
  set (P := vnorm r1 + vnorm r2) in *.
  destruct (tor_find_z _ _ _ _ _ _ _ _ _ _) as [[z n]|e] eqn:Ez; [|discriminate]. cbn [bind] in H.
  unfold tor_find_z in Ez. destruct (Z.eqb_spec M 0) as [|_]; [lia|].
  destruct (tor_find_minimum_time _ _ _ _ _ _) as [zm tm] eqn:Em.
  pose proof (tor_minimum_box _ _ _ _ _ _ _ _ Em) as (m & -> & B1).
  destruct (@nltb XR _ _); [discriminate|].
  assert (Z : exists zr, z = Fin zr /\ 0 < zr < PI * PI /\ (if l then zr <= m else m <= zr)).
  { destruct l; cbn [bind] in Ez; apply tor_solve_inv in Ez; try lra; destruct Ez as (zr & t & -> & B & _ & _); exists zr; (split; [reflexivity|]); lra. }
  destruct Z as (zr & -> & Bz & Lz).
  destruct (tor_velocities _ _ _ _ _ _ _ _ _) as [w1 w2] eqn:Ev.
  apply (@tpi_inv XR) in H. destruct H as (tp & H & _). injection H as <-.
  assert (w1 = vfin v1) by (destruct fo; exact O1). assert (w2 = vfin v2) by (destruct fo; exact O2). subst w1 w2.
  apply (tor_velocities_inv mu p r1 r2 th) in Ev; [|assumption..]. destruct Ev as (HV & E1 & E2). fold A in E1, E2.
  exists th, m, tm, zr. split; [exact Eth|]. split; [exact AF|]. split; [exact Em|]. split; [lra|]. split; [exact Bz|]. split; [exact Lz|].
  split; [exact HA2|exact HV|exact E1|exact E2].
Qed.

Theorem C52_delatorre_low_path :
  forall ev mu r1 r2 tof M prograde maxiter atol rtol full_output low v1 v2 high w1 w2,
  non_collinear r1 r2 -> (1 <= M)%Z ->
  @run XR Delatorre ev (call mu r1 r2 tof M prograde true maxiter atol rtol full_output) = Ok low -> delivers low v1 v2 ->
  @run XR Delatorre ev (call mu r1 r2 tof M prograde false maxiter atol rtol full_output) = Ok high -> delivers high w1 w2 ->
  (short_way prograde r1 r2 -> vnorm (vcross r1 w1) <= vnorm (vcross r1 v1)) /\
  (~ short_way prograde r1 r2 -> vnorm (vcross r1 v1) <= vnorm (vcross r1 w1)).
Proof.
  intros ev mu r1 r2 tof M p mi at_ rt fo o v1 v2 o' w1 w2 Hn HM H D H' D'.
  destruct (delatorre_run_z _ _ _ _ _ _ _ _ _ _ _ _ _ _ _ Hn HM H D) as (Hmu & th & zm & tm & z & E1 & F & E2 & Bm & Bz & L & FG).
  destruct (delatorre_run_z _ _ _ _ _ _ _ _ _ _ _ _ _ _ _ Hn HM H' D') as (_ & th' & zm' & tm' & z' & E1' & _ & E2' & _ & Bz' & L' & FG').
  rewrite E1 in E1'. apply Fin_inj in E1'. subst th'. rewrite E2 in E2'. apply pair_equal_spec in E2'. destruct E2' as [E2' _]. apply Fin_inj in E2'. subst zm'.
  assert (LC : C0 z' <= C0 z).
  { pose proof PI_RGT_0. destruct (sqrt_facts z ltac:(lra)) as [S1 S2]. destruct (sqrt_facts z' ltac:(lra)) as [S3 S4].
    rewrite <- S2, <- S4. rewrite !C0_ell by assumption. assert (Q : forall w, 0 < w -> w * w < PI * PI -> w < PI) by (intros; nra).
    apply cos_decr_1; [lra|apply Rlt_le, Q; [assumption|lra]|lra|apply Rlt_le, Q; [assumption|lra]|]. apply sqrt_le_1_alt. lra. }
  destruct (norms_pos _ _ Hn) as [N1 N2]. assert (N12 : 0 < sqrt (vnorm r1 * vnorm r2)) by (apply sqrt_lt_R0, Rmult_lt_0_compat; assumption).
  destruct (sqrt_facts 2) as [W _]; [lra|].
  assert (HA : halfA r1 r2 th = sqrt 2 * sqrt (vnorm r1 * vnorm r2) * cos (th / 2)) by reflexivity.
  assert (K2 : 0 < sqrt 2 * sqrt (vnorm r1 * vnorm r2)) by (now apply Rmult_lt_0_compat). set (A := halfA r1 r2 th) in *.
  split; intros S.
  - apply (af_half _ _ _ _ F) in S. assert (0 < A) by (rewrite HA; now apply Rmult_lt_0_compat).
    apply (fg_moment_le _ _ _ _ _ _ _ _ _ _ Hmu Hn FG FG'). assert (sqrt 2 * A * C0 z' <= sqrt 2 * A * C0 z) by (apply Rmult_le_compat_l; [apply Rmult_le_pos; lra|assumption]). lra.
  - rewrite <- (af_half _ _ _ _ F) in S. assert (0 <= - A) by (rewrite HA; assert (0 <= (sqrt 2 * sqrt (vnorm r1 * vnorm r2)) * - cos (th / 2)) by (apply Rmult_le_pos; lra); lra).
    apply (fg_moment_le _ _ _ _ _ _ _ _ _ _ Hmu Hn FG' FG). assert (sqrt 2 * - A * C0 z' <= sqrt 2 * - A * C0 z) by (apply Rmult_le_compat_l; [apply Rmult_le_pos; lra|assumption]). lra.
Qed.
Print Assumptions C52_delatorre_low_path.

(** C35: what delatorre2018 and arora2013 answer with complete revolutions. *)
Theorem C35_delatorre_refuses :
  forall ev mu r1 r2 tof M prograde low_path maxiter atol rtol full_output o v1 v2,
  vz (vcross r1 r2) <> 0 -> (1 <= M)%Z -> 0 <= atol -> 0 <= rtol ->
  @run XR Delatorre ev (call mu r1 r2 tof M prograde low_path maxiter atol rtol full_output) = Ok o -> delivers o v1 v2 ->
  feasible mu r1 r2 prograde M (tof + (atol + rtol * tof)).
Proof.
  intros ev mu r1 r2 tof M p l mi at_ rt fo o v1 v2 Hz HM Ha Hr H D. pose proof (vz_non_collinear _ _ Hz) as Hn.
  destruct (delatorre_run_z _ _ _ _ _ _ _ _ _ _ _ _ _ _ _ Hn HM H D) as (Hmu & _).
  destruct (C15_delatorre_solves_lambert ev mu r1 r2 tof M p l mi at_ rt fo o v1 v2 Hn ltac:(lia) Ha Hr H D) as (T & LS & ET).
  apply (feasible_longer mu r1 r2 p M T); [assumption|assumption|assumption| |].
  - exists v1, v2. split; [exact LS|]. destruct (C12_direction Delatorre ev mu r1 r2 tof M p l mi at_ rt fo o v1 v2) as (_ & _ & DH); try assumption; cbn; auto 10.
  - pose proof (Rle_abs (T - tof)). lra.
Qed.
Print Assumptions C35_delatorre_refuses.

(** Both paths of delatorre2018 answer for the quarter turn flown the long way
    with one revolution in the shortest time its search finds: the hypotheses of
    [C52_delatorre_low_path] and [C35_delatorre_refuses] hold. *)
Lemma ex_delatorre_z l z tof : 0 < tof -> 0 < z ->
  @tor_find_z XR 1 (Fin 2) (Fin (sqrt 2 * -1)) (Fin 1) (Fin tof) 1 l 35 (Fin (1 / 100000)) (Fin (1 / 10000000)) = Ok (Fin z, 1%Z) ->
  exists o v1 v2,
    @run XR Delatorre no_scipy (call 1 ex_r1 ex_r2 tof 1 false l 35 (1 / 100000) (1 / 10000000) true) = Ok o /\ delivers o v1 v2.
Proof.
  intros Htof Hz Ef. destruct ex_retro as (th & Eth & AF & EA). pose proof ex_nc as Hn. destruct ex_norms as (N1 & N2 & D0).
  assert (HV : 0 < 2 - sqrt 2 * -1 * C0 z).
  { assert (W2 : sqrt 2 * sqrt 2 = 2) by (apply sqrt_sqrt; lra). assert (W0 : 0 < sqrt 2) by (apply sqrt_lt_R0; lra).
    assert (-1 <= C0 z) by (unfold C0, U0; destruct (Rlt_dec 0 z) as [L|L]; [apply COS_bound|exfalso; apply L; lra]). nra. }
  destruct (tor_velocities_F 1 false ex_r1 ex_r2 th 2 (sqrt 2 * -1) z Hn ltac:(lra) AF HV) as (v1 & v2 & Ev).
  assert (V : valid_input 1 ex_r1 ex_r2 tof 1).
  { unfold valid_input, ex_r1, ex_r2, vzero. repeat split; try lra; try lia; intros E; injection E; lra. }
  eexists _, v1, v2. cbn [run]. unfold delatorre2018. rewrite validated_call_ok by exact V.
  cbn [call a_mu a_tof a_is_prograde a_rtol a_atol a_maxiter a_full_output a_M a_is_low_path no_scipy e_fuel].
  rewrite !norm_F, Eth. rewrite tor_Q_F by assumption. rewrite EA, N1, N2.
  replace (@nadd XR (Fin 1) (Fin 1)) with (Fin 2) by (xunf; cbn [xadd xlift2]; f_equal; ring).
  rewrite Ef. cbn [bind]. rewrite N1, N2 in Ev. rewrite Ev. split; [reflexivity|]. split; reflexivity.
Qed.
Example C52_case : exists tof low v1 v2 high w1 w2,
  non_collinear ex_r1 ex_r2 /\ vz (vcross ex_r1 ex_r2) <> 0 /\ ~ short_way false ex_r1 ex_r2 /\
  @run XR Delatorre no_scipy (call 1 ex_r1 ex_r2 tof 1 false true 35 (1 / 100000) (1 / 10000000) true) = Ok low /\ delivers low v1 v2 /\
  @run XR Delatorre no_scipy (call 1 ex_r1 ex_r2 tof 1 false false 35 (1 / 100000) (1 / 10000000) true) = Ok high /\ delivers high w1 w2.
Proof.
  assert (W0 : 0 < sqrt 2) by (apply sqrt_lt_R0; lra). assert (W2 : sqrt 2 * sqrt 2 = 2) by (apply sqrt_sqrt; lra).
  assert (HV : forall z, 0 < z -> 0 < 2 + sqrt 2 * C0 z).
  { intros z Hz. assert (-1 <= C0 z) by (unfold C0, U0; destruct (Rlt_dec 0 z) as [L|L]; [apply COS_bound|exfalso; apply L; lra]). nra. }
  assert (S : forall z, 0 < z -> z < PI * PI -> @tor_tof XR (Fin 2) (Fin (sqrt 2 * -1)) (Fin 1) (Fin z) 1 = Fin (tz 1 (-1) (2 + sqrt 2 * C0 z) z 1)).
  { intros z Hz Hv. specialize (HV z Hz). rewrite tor_tof_F by (lra || lia || (replace (2 - sqrt 2 * -1 * C0 z) with (2 + sqrt 2 * C0 z) by ring; lra)). do 2 f_equal. ring. }
  set (lo := 1 / 1000000000000). set (hi := PI * PI - lo).
  assert (Hlo : 0 < lo < PI * PI) by (unfold lo; pose proof PI2_3_2; nra).
  destruct (@tor_find_minimum_time XR (Fin 2) (Fin (sqrt 2 * -1)) (Fin 1) 1 (Fin (1 / 100000)) (Fin (1 / 10000000))) as [zm tm] eqn:Em.
  pose proof Em as B. apply tor_minimum_box in B. fold lo hi in B. destruct B as (z & -> & B). assert (Hz : 0 < z < PI * PI) by (unfold hi in B; lra).
  set (tof := tz 1 (-1) (2 + sqrt 2 * C0 z) z 1).
  assert (Etm : tm = Fin tof).
  { unfold tof. rewrite <- S by lra. unfold tor_find_minimum_time in Em.
    destruct (match for_range _ _ _ _ with Break _ => _ | Next _ => _ | Raise _ => _ end) as [a b]. injection Em as <- <-. reflexivity. }
  assert (Htof : 0 < tof).
  { destruct ex_retro as (th & Eth & AF & EA). pose proof ex_nc as Hn. destruct ex_norms as (N1 & N2 & D0).
    assert (HVz : 0 < 2 - sqrt 2 * -1 * C0 z) by (replace (2 - sqrt 2 * -1 * C0 z) with (2 + sqrt 2 * C0 z) by ring; now apply HV).
    destruct (tor_velocities_F 1 false ex_r1 ex_r2 th 2 (sqrt 2 * -1) z Hn ltac:(lra) AF HVz) as (v1 & v2 & Ev).
    apply (tor_velocities_inv 1 false ex_r1 ex_r2 th) in Ev; [|assumption|lra|assumption]. destruct Ev as (HV' & E1 & E2).
    assert (L : lambert_solution 1 ex_r1 v1 ex_r2 v2 (tz 1 (halfA ex_r1 ex_r2 th) (2 - sqrt 2 * -1 * C0 z) z 1) 1).
    { apply (z_solution 1 ex_r1 ex_r2 v1 v2 (halfA ex_r1 ex_r2 th)); auto; try lra; try lia.
      - apply (halfA_sq false); assumption.
      - rewrite N1, N2, EA. ring. }
    destruct L as [[L _] _]. rewrite EA in L. replace (2 - sqrt 2 * -1 * C0 z) with (2 + sqrt 2 * C0 z) in L by ring. exact L. }
  assert (EZ : forall l, exists z', 0 < z' /\ @tor_find_z XR 1 (Fin 2) (Fin (sqrt 2 * -1)) (Fin 1) (Fin tof) 1 l 35 (Fin (1 / 100000)) (Fin (1 / 10000000)) = Ok (Fin z', 1%Z)).
  { intros l. unfold tor_find_z. cbn [Z.eqb Pos.eqb]. rewrite Em, Etm. replace (@nltb XR (Fin tof) (Fin tof)) with false by (symmetry; apply xltb_Ff; lra).
    assert (EQ : @neqb XR (@nsub XR (Fin tof) (Fin tof)) (nofZ 0) = true) by (apply xeqb_F; ring).
    destruct l; cbn [bind]; unfold tor_solve_bracketed.
    - rewrite (S z) by lra. fold tof. rewrite EQ. match goal with |- exists z', _ /\ (if ?b then _ else _) = _ => destruct b end; [exists lo; split; [lra|reflexivity]|exists z; split; [lra|reflexivity]].
    - rewrite (S z) by lra. fold tof. rewrite EQ. exists z. split; [lra|reflexivity]. }
  destruct (EZ true) as (z1 & P1 & E1). destruct (EZ false) as (z2 & P2 & E2).
  destruct (ex_delatorre_z true z1 tof Htof P1 E1) as (o & v1 & v2 & R1). destruct (ex_delatorre_z false z2 tof Htof P2 E2) as (o' & w1 & w2 & R2).
  exists tof, o, v1, v2, o', w1, w2. split; [exact ex_nc|]. split; [unfold ex_r1, ex_r2; vunf; lra|]. split; [unfold short_way, ex_r1, ex_r2; vunf; lra|]. tauto.
Qed.

(** ** C35 for arora2013

    Its answer is a transfer with the requested number of revolutions or, when
    the energy is not negative, one with none: the second case is never ruled
    out (arora.py:102-105 takes the hyperbolic guess whatever [M] is). *)
Theorem C35_arora_answers :
  forall ev mu r1 r2 tof M prograde low_path maxiter atol rtol full_output o v1 v2,
  vz (vcross r1 r2) <> 0 -> (1 <= M)%Z -> 0 <= atol ->
  @run XR Arora ev (call mu r1 r2 tof M prograde low_path maxiter atol rtol full_output) = Ok o -> delivers o v1 v2 ->
  let slack := atol * sqrt (vnorm r1 ^ 3 / mu) + 1 / 10 ^ 16 * sqrt ((vnorm r1 + vnorm r2) ^ 3 / mu) in
  feasible mu r1 r2 prograde M (tof + slack) \/
  (0 <= energy mu r1 v1 /\ exists T, lambert_solution mu r1 v1 r2 v2 T 0 /\ Rabs (T - tof) <= slack).
Proof.
  intros ev mu r1 r2 tof M p l mi at_ rt fo o v1 v2 Hz HM Ha H D slack. pose proof (vz_non_collinear _ _ Hz) as Hn.
  destruct (C14_arora_solves_lambert _ _ _ _ _ _ _ _ _ _ _ _ _ _ _ Hn H D) as (T & LS & ET). fold slack in ET.
  assert (Hmu : 0 < mu) by (cbn [run] in H; unfold arora2013 in H; apply validated_call in H; apply H).
  destruct (Rlt_dec (energy mu r1 v1) 0) as [L|L].
  - left. apply (feasible_longer mu r1 r2 p M T); [assumption|assumption|assumption| |pose proof (Rle_abs (T - tof)); lra].
    exists v1, v2. split; [exact LS|]. destruct (C12_direction Arora ev mu r1 r2 tof M p l mi at_ rt fo o v1 v2) as (_ & _ & DH); try assumption; cbn; auto 10.
  - right. split; [lra|]. exists T. split; assumption.
Qed.
Print Assumptions C35_arora_answers.

(** One revolution of the quarter turn cannot be flown in half a unit of time. *)
Lemma quarter_infeasible : ~ feasible 1 ex_r1 ex_r2 true 1 (1 / 2).
Proof.
  assert (Hz : vz (vcross ex_r1 ex_r2) <> 0) by (unfold ex_r1, ex_r2; vunf; lra). pose proof (vz_non_collinear _ _ Hz) as Hn.
  destruct (lambda_exists true ex_r1 ex_r2 Hn) as (ll & LF & _). pose proof (lf_dir _ _ _ _ LF Hz) as LS. pose proof (lambda_bounds _ _ _ _ Hn LF) as Hl.
  destruct (mt_critical ll 1 Hl ltac:(lia)) as (x0 & H0 & D).
  destruct (shortest 1 ex_r1 ex_r2 true 1 ll x0 ltac:(lra) Hz ltac:(lia) LF LS H0 D) as (R0 & _ & S). rewrite feasible_requested, S.
  pose proof (T_above ll 1 Hl ltac:(lia) x0 ltac:(lra)) as TA. pose proof PI2_3_2 as P3. 
  set (s := semiper ex_r1 ex_r2) in *. assert (Hs : 1 <= s).
  { unfold s, semiper. destruct ex_norms as (-> & -> & _). pose proof (chord_pos _ _ Hn). lra. }
  set (rate := sqrt (2 * 1 / (s * s * s))) in *. assert (S3 : 1 <= s * s * s) by nra.
  assert (RB : rate <= 2). { unfold rate. replace 2 with (sqrt (2 * 2)) at 2 by (rewrite sqrt_square; lra). apply sqrt_le_1_alt. apply Rmult_le_reg_r with (s * s * s); [lra|]. unfold Rdiv. rewrite Rmult_assoc, Rinv_l by lra. lra. }
  lra.
Qed.
