(** * Every solution of Lambert's problem is of the form found in [LambertRev],
    and zero-revolution solutions are unique. *)
From Coq Require Import Reals ZArith Lra Lia Psatz.
From Verif Require Import Num Spec SpecLambert VecFacts UniversalKepler LambertUV LambertRev XReal XRealLemmas Godal GodalXR DelatorreXR LambertZ ZMono KeplerUnique.
Local Open Scope R_scope.

Section Converse.
Variables (mu : R) (r1 v1 : rvec) (x k c : R).
Hypothesis Hmu : 0 < mu.
Hypothesis Hh : vcross r1 v1 <> vzero.
Let al := 2 / vnorm r1 - vdot v1 v1 / mu.
Let sg := vdot r1 v1 / sqrt mu.
Let r2 := upos mu r1 v1 x.
Let v2 := uvel mu r1 v1 x.
Hypothesis Hn : non_collinear r1 r2.
Hypothesis Hk : 0 < k.
Hypothesis K0 : U0 al x = 2 * (c * c) - 1.
Hypothesis K1 : U1 al x = 2 * k * c.
Hypothesis K2 : U2 al x = 2 * (k * k).
Let A := sqrt 2 * (vnorm r1 * c + sg * k).
Let V := 2 * (k * k).

Lemma cv_sqrtV : sqrt V = sqrt 2 * k.
Proof. unfold V. rewrite sqrt_mult by nra. now rewrite sqrt_sq by lra. Qed.

Lemma cv_fg : fg_pair mu r1 r2 A V v1 v2 /\ vnorm r1 + vnorm r2 - V = sqrt 2 * A * c /\
  ut mu r1 v1 x = (A * sqrt V + U3 al x) / sqrt mu.
Proof.
  destruct (sqrt_facts 2) as [W1 W2]; [lra|]. destruct (sqrt_facts mu Hmu) as [M1 M2].
  pose proof (r0_pos r1 v1 Hh) as N1.
  assert (HV : 0 < V) by (unfold V; nra).
  assert (Hr2 : vnorm r2 = vnorm r1 * (2 * (c * c) - 1) + sg * (2 * k * c) + 2 * (k * k)).
  { unfold r2. rewrite upos_norm by assumption. unfold ur. fold al. rewrite K0, K1, K2. reflexivity. }
  pose proof (ur_pos mu r1 v1 Hmu Hh x) as N2. rewrite <- (upos_norm mu r1 v1 Hmu Hh x) in N2. fold r2 in N2.
  assert (Eg : ug mu r1 v1 x = A * sqrt V / sqrt mu).
  { unfold ug. fold al. fold sg. rewrite K1, K2, cv_sqrtV. unfold A.
    transitivity (((sqrt 2 * sqrt 2) * (vnorm r1 * k * c + sg * (k * k))) / sqrt mu); [rewrite W2|]; field; lra. }
  assert (Ef : uf mu r1 v1 x = 1 - V / vnorm r1) by (unfold uf; fold al; now rewrite K2).
  assert (Eu : r2 = vcomb (1 - V / vnorm r1) r1 (A * sqrt V / sqrt mu) v1) by (unfold r2, upos; now rewrite Ef, Eg).
  assert (HA0 : A * sqrt V / sqrt mu <> 0).
  { intros E. apply Hn. rewrite Eu, vcross_comb_r, E. apply vmult_0. }
  assert (Es : vdot r1 v1 = sg * sqrt mu) by (unfold sg; field; lra).
  assert (Ic : c * c = 1 - al * (k * k)) by (pose proof (U0_U2 al x) as E; rewrite K0, K2 in E; lra).
  assert (Ev : vdot v1 v1 = mu * (2 / vnorm r1 - al)) by (unfold al; field; lra).
  split; [|split].
  - constructor.
    + assert (Ed : vdot r1 r2 = (1 - V / vnorm r1) * (vnorm r1 * vnorm r1) + A * sqrt V / sqrt mu * (sg * sqrt mu)).
      { rewrite Eu, vnorm_sq, <- Es. generalize (1 - V / vnorm r1) (A * sqrt V / sqrt mu). intros f g.
        unfold vcomb. clear. vunf. ring. }
      rewrite Ed, Hr2. replace (A * sqrt V / sqrt mu * (sg * sqrt mu)) with (A * sqrt V * sg) by (field; lra).
      rewrite cv_sqrtV. unfold A, V. clear - W2 N1.
      set (w := sqrt 2) in *. set (n := vnorm r1) in *. clearbody w n.
      field_simplify; [|lra]. replace (w ^ 2) with 2 by (rewrite <- W2; ring). ring.
    + exact HV.
    + rewrite Eu. generalize dependent (A * sqrt V / sqrt mu). generalize (1 - V / vnorm r1). intros f g _ _ G. unfold vcomb. clear - G. apply vec_eq; vunf; field; assumption.
    + assert (Ev2 : v2 = vcomb (ufd mu r1 v1 x) r1 (1 - V / vnorm r2) v1).
      { unfold v2, uvel. f_equal. unfold ugd. rewrite <- (upos_norm mu r1 v1 Hmu Hh x). fold r2 al. now rewrite K2. }
      assert (EW : (1 - V / vnorm r1) * (1 - V / vnorm r2) - ufd mu r1 v1 x * (A * sqrt V / sqrt mu) = 1).
      { unfold ufd. rewrite <- (upos_norm mu r1 v1 Hmu Hh x). fold r2 al. rewrite K1, cv_sqrtV. unfold A.
        replace (- sqrt mu * (2 * k * c) / (vnorm r2 * vnorm r1) * (sqrt 2 * (vnorm r1 * c + sg * k) * (sqrt 2 * k) / sqrt mu))
          with (- (2 * k * c) * (sqrt 2 * sqrt 2) * k * (vnorm r1 * c + sg * k) / (vnorm r2 * vnorm r1)) by (field; lra).
        rewrite W2. unfold V.
        transitivity (1 + (- 2 * (k * k) * (vnorm r1 + vnorm r2) + 4 * (k * k) * (k * k) + 4 * (k * k) * c * (vnorm r1 * c + sg * k)) / (vnorm r1 * vnorm r2)).
        - field. lra.
        - rewrite Hr2 at 1. replace (- 2 * (k * k) * (vnorm r1 + (vnorm r1 * (2 * (c * c) - 1) + sg * (2 * k * c) + 2 * (k * k))) + 4 * (k * k) * (k * k) + 4 * (k * k) * c * (vnorm r1 * c + sg * k)) with 0 by ring.
          field. lra. }
      rewrite Ev2. set (fd := ufd mu r1 v1 x) in *. set (gd := 1 - V / vnorm r2) in *. set (f := 1 - V / vnorm r1) in *. set (g := A * sqrt V / sqrt mu) in *.
      clearbody fd gd f g. rewrite Eu. unfold vcomb.
      assert (Efd : fd = (f * gd - 1) / g) by (rewrite <- EW; field; assumption). rewrite Efd.
      clear - HA0. apply vec_eq; vunf; field; assumption.
  - rewrite Hr2. unfold A, V. transitivity ((sqrt 2 * sqrt 2) * (c * (vnorm r1 * c + sg * k))); [rewrite W2|]; ring.
  - unfold ut. fold al sg. rewrite K1, K2, cv_sqrtV. unfold A. f_equal.
    transitivity ((sqrt 2 * sqrt 2) * (k * (vnorm r1 * c + sg * k)) + U3 al x); [rewrite W2|]; ring.
Qed.
End Converse.

Lemma sin_turn s (M : Z) : sin (s + 2 * PI * IZR M) = sin s.
Proof.
  rewrite sin_plus. replace (2 * PI * IZR M) with (2 * (IZR M * PI)) by ring.
  rewrite sin_2a, cos_2a_sin. rewrite (sin_eq_0_1 (IZR M * PI)) by (now exists M). ring.
Qed.
Lemma cos_turn s (M : Z) : cos (s + 2 * PI * IZR M) = cos s.
Proof.
  rewrite cos_plus. replace (2 * PI * IZR M) with (2 * (IZR M * PI)) by ring.
  rewrite sin_2a, cos_2a_sin. rewrite (sin_eq_0_1 (IZR M * PI)) by (now exists M). ring.
Qed.

(** The converse of [fg_lambert]. *)
Theorem solution_fg mu r1 v1 r2 v2 T M :
  0 < mu -> non_collinear r1 r2 -> lambert_solution mu r1 v1 r2 v2 T M ->
  (0 <= M)%Z /\
  exists A V z, fg_pair mu r1 r2 A V v1 v2 /\ z < PI * PI /\ (M <> 0%Z -> 0 < z) /\
    vnorm r1 + vnorm r2 - V = sqrt 2 * A * C0 z /\ T = tz mu A V z M.
Proof.
  intros Hmu Hn [Ht [C1 C2]]. pose proof PI_RGT_0 as HP.
  destruct (transfer_universal mu r1 v1 r2 v2 T Hmu Hn Ht) as (Hh & x & Hx & ET & E2 & EV).
  pose proof (r0_pos r1 v1 Hh) as N1. destruct (sqrt_facts 2) as [W1 W2]; [lra|]. destruct (sqrt_facts mu Hmu) as [M1 M2].
  set (al := 2 / vnorm r1 - vdot v1 v1 / mu).
  assert (EE : energy mu r1 v1 = - mu * al / 2) by (unfold energy, al; field; lra).
  rewrite EE in C1, C2. subst r2 v2. rewrite <- ET in *. clear ET T.
  assert (HT0 : 0 < ut mu r1 v1 x) by apply Ht.
  destruct (Rlt_dec 0 al) as [La|La].
  - (* ellipse *)
    assert (Hneg : - mu * al / 2 < 0) by nra.
    specialize (C1 Hneg). destruct (sqrt_facts al La) as [Q1 Q2].
    assert (Hturn : forall j, ut mu r1 v1 (2 * PI * IZR j / sqrt al) = IZR j * period mu r1 v1).
    { intros j. apply (rev_at_turn mu r1 (upos mu r1 v1 x) v1 Hmu Hn j La). }
    assert (EM1 : IZR M + 1 = IZR (M + 1)) by (rewrite plus_IZR; reflexivity).
    rewrite EM1, <- !Hturn in C1.
    assert (Lo : 2 * PI * IZR M / sqrt al < x).
    { destruct (Rlt_dec (2 * PI * IZR M / sqrt al) x) as [|N]; [assumption|]. exfalso.
      destruct (Req_dec (2 * PI * IZR M / sqrt al) x) as [E|E]; [rewrite E in C1; lra|].
      assert (L : x < 2 * PI * IZR M / sqrt al) by lra. apply (ut_increasing mu r1 v1 Hmu Hh) in L. lra. }
    assert (Hi : x < 2 * PI * IZR (M + 1) / sqrt al).
    { destruct (Rlt_dec x (2 * PI * IZR (M + 1) / sqrt al)) as [|N]; [assumption|]. exfalso.
      destruct (Req_dec x (2 * PI * IZR (M + 1) / sqrt al)) as [E|E]; [rewrite <- E in C1; lra|].
      assert (L : 2 * PI * IZR (M + 1) / sqrt al < x) by lra. apply (ut_increasing mu r1 v1 Hmu Hh) in L. lra. }
    assert (HM : (0 <= M)%Z).
    { assert (0 < IZR (M + 1)).
      { assert (0 < 2 * PI * IZR (M + 1) / sqrt al) by lra.
        apply Rmult_lt_reg_l with (2 * PI / sqrt al); [apply Rdiv_lt_0_compat; lra|].
        rewrite Rmult_0_r. replace (2 * PI / sqrt al * IZR (M + 1)) with (2 * PI * IZR (M + 1) / sqrt al) by (field; lra). assumption. }
      apply lt_IZR in H. lia. }
    split; [exact HM|].
    set (w := sqrt al) in *.
    assert (Lo' : 2 * PI * IZR M < w * x).
    { apply Rmult_lt_reg_r with (/ w); [now apply Rinv_0_lt_compat|]. replace (w * x * / w) with x by (field; lra). exact Lo. }
    assert (Hi' : w * x < 2 * PI * (IZR M + 1)).
    { rewrite EM1. apply Rmult_lt_reg_r with (/ w); [now apply Rinv_0_lt_compat|]. replace (w * x * / w) with x by (field; lra). exact Hi. }
    set (s := w * x / 2 - PI * IZR M). assert (Hs : 0 < s < PI) by (unfold s; lra).
    assert (Ews : w * x = 2 * s + 2 * PI * IZR M) by (unfold s; field).
    pose proof (sin_gt_0 s (proj1 Hs) (proj2 Hs)) as S0.
    assert (Hk : 0 < sin s / w) by (now apply Rdiv_lt_0_compat).
    pose proof (sin2_cos2 s) as SC. unfold Rsqr in SC.
    destruct (cv_fg mu r1 v1 x (sin s / w) (cos s) Hmu Hh Hn Hk) as (F & EC & ET).
    { fold al. unfold U0. destruct (Rlt_dec 0 al); [|contradiction]. fold w. rewrite Ews, cos_turn, cos_2a_cos. ring. }
    { fold al. unfold U1. destruct (Rlt_dec 0 al); [|contradiction]. fold w. rewrite Ews, sin_turn, sin_2a. field. lra. }
    { fold al. unfold U2. destruct (Rlt_dec 0 al); [|contradiction]. fold w. rewrite Ews, cos_turn, cos_2a_sin. rewrite <- Q2. field. lra. }
    fold al in ET. eexists _, _, (s * s). split; [exact F|]. split; [nra|]. split; [intros _; nra|].
    rewrite C0_ell by lra. split; [exact EC|].
    rewrite tz_ell; [|assumption|apply F|assumption]. rewrite ET.
    rewrite (cv_sqrtV (sin s / w) Hk).
    unfold U3. destruct (Rlt_dec 0 al); [|contradiction]. fold w. rewrite Ews, sin_turn, <- Q2.
    set (q := 2 * s - sin (2 * s) + 2 * PI * IZR M).
    replace (2 * s + 2 * PI * IZR M - sin (2 * s)) with q by (unfold q; ring). clearbody q.
    apply (f_equal (fun t => t / sqrt mu)). rewrite Rplus_comm. apply (f_equal2 Rplus); [|reflexivity]. field. repeat split; lra.
  - assert (HM : M = 0%Z). { destruct (Z.eq_dec M 0) as [|N]; [assumption|]. exfalso. specialize (C2 N). nra. }
    subst M. split; [lia|]. clear C1 C2. destruct (Rlt_dec al 0) as [Lb|Lb].
    + (* hyperbola *)
      destruct (sqrt_facts (- al)) as [Q1 Q2]; [lra|]. set (w := sqrt (- al)) in *.
      set (s := w * x / 2). assert (Hs : 0 < s) by (unfold s; apply Rdiv_lt_0_compat; [now apply Rmult_lt_0_compat|lra]).
      assert (Ews : w * x = 2 * s) by (unfold s; field).
      pose proof (sinh_pos s Hs) as S0. assert (Hk : 0 < sinh s / w) by (now apply Rdiv_lt_0_compat).
      pose proof (cosh_sinh_sq s) as SC.
      destruct (cv_fg mu r1 v1 x (sinh s / w) (cosh s) Hmu Hh Hn Hk) as (F & EC & ET).
      { fold al. unfold U0. destruct (Rlt_dec 0 al); [contradiction|]. destruct (Rlt_dec al 0); [|contradiction]. fold w. rewrite Ews, cosh_double. nra. }
      { fold al. unfold U1. destruct (Rlt_dec 0 al); [contradiction|]. destruct (Rlt_dec al 0); [|contradiction]. fold w. rewrite Ews, sinh_double. field. lra. }
      { fold al. unfold U2. destruct (Rlt_dec 0 al); [contradiction|]. destruct (Rlt_dec al 0); [|contradiction]. fold w. rewrite Ews, cosh_double. rewrite <- Q2. field. lra. }
      fold al in ET. eexists _, _, (- (s * s)). split; [exact F|]. split; [nra|]. split; [tauto|].
      rewrite C0_hyp by lra. split; [exact EC|].
      rewrite tz_hyp; [|assumption|apply F|assumption]. rewrite ET.
      rewrite (cv_sqrtV (sinh s / w) Hk).
      unfold U3. destruct (Rlt_dec 0 al); [contradiction|]. destruct (Rlt_dec al 0); [|contradiction]. fold w. rewrite Ews, <- Q2.
      set (q := sinh (2 * s) - 2 * s). clearbody q.
      apply (f_equal (fun t => t / sqrt mu)). rewrite Rplus_comm. apply (f_equal2 Rplus); [|reflexivity]. field. repeat split; lra.
    + (* parabola *)
      assert (E0 : al = 0) by lra. assert (Hk : 0 < x / 2) by lra.
      destruct (cv_fg mu r1 v1 x (x / 2) 1 Hmu Hh Hn Hk) as (F & EC & ET).
      { fold al. unfold U0. destruct (Rlt_dec 0 al); [contradiction|]. destruct (Rlt_dec al 0); [contradiction|]. ring. }
      { fold al. unfold U1. destruct (Rlt_dec 0 al); [contradiction|]. destruct (Rlt_dec al 0); [contradiction|]. field. }
      { fold al. unfold U2. destruct (Rlt_dec 0 al); [contradiction|]. destruct (Rlt_dec al 0); [contradiction|]. field. }
      fold al in ET. eexists _, _, 0. split; [exact F|]. split; [nra|]. split; [tauto|].
      destruct at_0 as [-> _]. split; [exact EC|].
      rewrite tz_par; [|assumption|apply F]. rewrite ET. rewrite (cv_sqrtV (x / 2) Hk).
      unfold U3. destruct (Rlt_dec 0 al); [contradiction|]. destruct (Rlt_dec al 0); [contradiction|].
      apply (f_equal (fun t => t / sqrt mu)). rewrite Rplus_comm. apply (f_equal2 Rplus); [|reflexivity].
      set (w := sqrt 2) in *. transitivity ((w * w) * (2 * (x / 2 * (x / 2)) * (x / 2)) / 3); [rewrite W2|]; field.
Qed.

(** ** Uniqueness *)
Lemma fg_momentum mu r1 r2 A V v1 v2 :
  fg_pair mu r1 r2 A V v1 v2 -> momentum r1 v1 = vmult (/ (A * sqrt V / sqrt mu)) (vcross r1 r2).
Proof.
  intros [_ _ E _]. rewrite E. generalize (/ (A * sqrt V / sqrt mu)) (1 - V / vnorm r1). intros g f. unfold momentum.
  apply vec_eq; vunf; ring.
Qed.
Lemma fg_sense mu r1 r2 A V v1 v2 :
  0 < mu -> non_collinear r1 r2 -> fg_pair mu r1 r2 A V v1 v2 ->
  A <> 0 /\ (0 < vdot (momentum r1 v1) (vcross r1 r2) <-> 0 < A).
Proof.
  intros Hmu Hn F. pose proof (fg_V _ _ _ _ _ _ _ F) as HV. pose proof (fg_A _ _ _ _ _ _ _ F) as HA.
  destruct (sqrt_facts _ Hmu) as [M1 _]. destruct (sqrt_facts _ HV) as [V1 _].
  pose proof (Kgeo_pos _ _ Hn) as K. unfold Kgeo in K. rewrite <- HA in K.
  assert (A0 : A <> 0) by (intros ->; lra). split; [exact A0|].
  rewrite (fg_momentum _ _ _ _ _ _ _ F), vdot_mult_l. pose proof (vdot_nonzero _ Hn) as D.
  replace (/ (A * sqrt V / sqrt mu)) with (/ A * (sqrt mu / sqrt V)) by (field; lra).
  assert (P : 0 < sqrt mu / sqrt V * vdot (vcross r1 r2) (vcross r1 r2)) by (apply Rmult_lt_0_compat; [now apply Rdiv_lt_0_compat|exact D]).
  set (e := sqrt mu / sqrt V) in *. set (d := vdot _ _) in *. clearbody e d.
  split; intros L.
  - destruct (Rlt_dec 0 A) as [|N]; [assumption|]. exfalso.
    assert (NA : A < 0) by lra. apply Rinv_lt_0_compat in NA. nra.
  - apply Rinv_0_lt_compat in L. nra.
Qed.

Theorem lambert_unique mu r1 r2 v1 v2 w1 w2 T :
  0 < mu -> non_collinear r1 r2 ->
  lambert_solution mu r1 v1 r2 v2 T 0 -> lambert_solution mu r1 w1 r2 w2 T 0 ->
  (0 < vdot (momentum r1 v1) (vcross r1 r2) <-> 0 < vdot (momentum r1 w1) (vcross r1 r2)) ->
  v1 = w1 /\ v2 = w2.
Proof.
  intros Hmu Hn H1 H2 Hd.
  destruct (solution_fg _ _ _ _ _ _ _ Hmu Hn H1) as (_ & A & V & z & F & Hz & _ & EC & ET).
  destruct (solution_fg _ _ _ _ _ _ _ Hmu Hn H2) as (_ & B & W & y & G & Hy & _ & EC' & ET').
  destruct (fg_sense _ _ _ _ _ _ _ Hmu Hn F) as [A0 SA]. destruct (fg_sense _ _ _ _ _ _ _ Hmu Hn G) as [B0 SB].
  destruct (norms_pos _ _ Hn) as [N1 N2]. destruct (sqrt_facts 2) as [W1 W2]; [lra|].
  destruct (sqrt_facts _ Hmu) as [M1 _].
  assert (EA : A = B).
  { pose proof (fg_A _ _ _ _ _ _ _ F) as X. pose proof (fg_A _ _ _ _ _ _ _ G) as Y.
    assert (S : 0 < A <-> 0 < B) by tauto. assert (Z : (A - B) * (A + B) = 0) by lra.
    apply Rmult_integral in Z. destruct Z as [Z|Z]; [lra|]. exfalso.
    destruct (Rlt_dec 0 A) as [L|L]; [assert (0 < B) by tauto; lra|]. assert (0 < B) by lra. tauto. }
  subst B.
  assert (HQ : Rabs (sqrt 2 * A) < vnorm r1 + vnorm r2).
  { rewrite <- (Rabs_pos_eq (vnorm r1 + vnorm r2)) by lra. apply Rsqr_lt_abs_0. unfold Rsqr.
    replace (sqrt 2 * A * (sqrt 2 * A)) with ((sqrt 2 * sqrt 2) * (A * A)) by ring. rewrite W2, (fg_A _ _ _ _ _ _ _ F).
    pose proof (cauchy_strict _ _ Hn) as C. rewrite <- !vnorm_sq in C.
    assert (P0 : 0 < vnorm r1 * vnorm r2) by now apply Rmult_lt_0_compat.
    assert (L : vdot r1 r2 < vnorm r1 * vnorm r2).
    { destruct (Rlt_dec (vdot r1 r2) (vnorm r1 * vnorm r2)) as [|N]; [assumption|]. exfalso.
      assert (vnorm r1 * vnorm r2 * (vnorm r1 * vnorm r2) <= vdot r1 r2 * vdot r1 r2) by (apply Rmult_le_compat; lra).
      lra. }
    pose proof (Rle_0_sqr (vnorm r1 - vnorm r2)) as Sq. unfold Rsqr in Sq. lra. }
  set (P := vnorm r1 + vnorm r2) in *. set (Q := sqrt 2 * A) in *.
  assert (EV : V = P - Q * C0 z) by lra. assert (EW : W = P - Q * C0 y) by lra.
  pose proof (fg_V _ _ _ _ _ _ _ F) as HV. pose proof (fg_V _ _ _ _ _ _ _ G) as HW.
  rewrite EV in ET. rewrite EW in ET'. unfold Q in ET, ET'.
  rewrite tz_Gz in ET by (fold Q; lra || assumption). rewrite tz_Gz in ET' by (fold Q; lra || assumption).
  fold Q in ET, ET'.
  assert (EG : Gz P Q z = Gz P Q y).
  { apply Rmult_eq_reg_l with (sqrt 2 / sqrt mu); [lra|]. apply Rgt_not_eq, Rdiv_lt_0_compat; assumption. }
  assert (EZ : z = y).
  { destruct (Rtotal_order z y) as [L|[L|L]]; [|assumption|]; exfalso.
    - apply (Gz_increasing P Q) in L; try assumption; lra.
    - apply (Gz_increasing P Q) in L; try assumption; lra. }
  subst y. assert (VW : V = W) by lra. rewrite <- VW in G.
  split.
  - rewrite (fg_v1 _ _ _ _ _ _ _ F). symmetry. apply (fg_v1 _ _ _ _ _ _ _ G).
  - rewrite (fg_v2 _ _ _ _ _ _ _ F). symmetry. apply (fg_v2 _ _ _ _ _ _ _ G).
Qed.
