(** * Which calls terminate, over the reals: C53. *)
From Coq Require Import String ZArith List Bool Lia Reals Lra Psatz.
From Verif Require Import Num XReal XRealLemmas MApi ApiFacts Loops MLinalg MScipy MAssertions MAngles MDer MGooding MDelatorre MThorne MVallado MInit
  Spec SpecLambert VecFacts VecXR AnglesXR UniversalKepler LambertUV LambertRev StumpffXR CallXR Godal GodalIzzo GodalXR GodalMore GodalPan
  DelatorreXR LambertZ OrbitXR IzzoXR StumpffSmooth ZMono KeplerUnique LambertExist JiangXR BracketXR JiangRun JiangMono JiangLoop
  PropertiesAngles PropertiesMotion PropertiesOrbit PropertiesDelatorre PropertiesDerivIzzo ThorneXR ThorneRun PropertiesThorne DerXR PropertiesDer AroraW
  PropertiesFlags PropertiesExceptions PropertiesTermination.
Local Open Scope R_scope.

(** ** gooding1990: every call *)
Lemma reduce_ends : forall K d m fuel, d <= 2 * PI * INR (S K) -> (K < fuel)%nat ->
  while_true (fun st : xr * Z => let '(thr2, m) := st in
    if @nltb XR (@nmul XR (nofZ 2) npi) thr2 then Next (@nsub XR thr2 (@nmul XR (nofZ 2) npi), (m + 1)%Z) else @Break (xr * Z) (xr * Z) (thr2, m)) fuel (Fin d, m)
  <> Raise OutOfFuel.
Proof.
  pose proof PI_RGT_0 as HPI.
  induction K as [|K IH]; intros d m fuel Hd Hf; (destruct fuel as [|fuel]; [lia|]); cbn [while_true].
  - replace (@nltb XR (@nmul XR (nofZ 2) npi) (Fin d)) with false; [discriminate|]. symmetry. apply xltb_Ff. cbn [INR] in Hd. lra.
  - destruct (@nltb XR (@nmul XR (nofZ 2) npi) (Fin d)); [|discriminate].
    change (@nsub XR (Fin d) (@nmul XR (nofZ 2) npi)) with (Fin (d - 2 * PI)). apply IH; [|lia].
    rewrite (S_INR (S K)) in Hd. lra.
Qed.
Lemma INR_unbounded x : exists n, x < INR n.
Proof.
  exists (Z.to_nat (up x)). destruct (archimed x) as [H _]. rewrite INR_IZR_INZ. destruct (Z_le_gt_dec 0 (up x)) as [L|L].
  - rewrite Z2Nat.id by assumption. lra.
  - assert (IZR (up x) <= -1) by (apply IZR_le; lia). pose proof (pos_INR (Z.to_nat (up x))) as P. rewrite INR_IZR_INZ in P. lra.
Qed.
Lemma goo_reduce_ends (d : xr) : exists n, forall fuel, (n <= fuel)%nat -> @goo_reduce XR fuel d <> Raise OutOfFuel.
Proof.
  pose proof PI_RGT_0 as HPI. destruct d as [d|].
  - destruct (INR_unbounded (d / (2 * PI))) as (K & HK). exists (S K). intros fuel Hf. apply (reduce_ends K); [|lia].
    rewrite S_INR. apply Rmult_lt_compat_r with (r := 2 * PI) in HK; [|lra]. unfold Rdiv in HK. rewrite Rmult_assoc, Rinv_l in HK by lra. lra.
  - exists 1%nat. intros fuel Hf. destruct fuel as [|fuel]; [lia|]. unfold goo_reduce. cbn [while_true].
    change (@nltb XR (@nmul XR (nofZ 2) npi) NaN) with false. discriminate.
Qed.
Theorem C53_gooding : forall a : @args XR, terminates Gooding a.
Proof.
  intros a. destruct (as_vec (a_r1 a)) as [r1|] eqn:E1; [destruct (as_vec (a_r2 a)) as [r2|] eqn:E2|].
  - destruct (goo_reduce_ends (@nadd XR (@nmul XR (@nmul XR (nofZ 2) npi) (nofZ (a_M a))) (get_transfer_angle r1 r2 (a_is_prograde a)))) as (n & H).
    exists n. intros ev Hf HE. apply gooding_ends; [exact HE|]. intros u1 u2 U1 U2. rewrite E1 in U1. rewrite E2 in U2.
    apply Ok_inj in U1, U2. subst. now apply H.
  - exists O. intros ev _ HE. apply gooding_ends; [exact HE|]. congruence.
  - exists O. intros ev _ HE. apply gooding_ends; [exact HE|]. congruence.
Qed.
Print Assumptions C53_gooding.

(** ** der2011 *)
Lemma T_hyp_small sg x : 0 < sg * sg < 1 -> 2 <= x -> T_hyp sg x <= 4 / x.
Proof.
  intros Hs Hx. destruct (Y_facts sg ltac:(nra) x) as [P E]. unfold T_hyp. set (y := sqrt (1 - sg * sg * (1 - x * x))) in *. clearbody y.
  assert (Q : 0 < x * x - 1) by nra. destruct (sqrt_facts _ Q) as [Q1 Q2].
  assert (Yx : y <= x). { destruct (Rle_dec y x); [assumption|exfalso]. assert (x * x < y * y) by nra. nra. }
  assert (D : 0 <= y - sg * x). { destruct (Rle_dec 0 (y - sg * x)); [assumption|exfalso]. assert (y * y < sg * x * (sg * x)) by nra. nra. }
  set (a := arcsinh _). assert (A : 0 <= a).
  { unfold a. rewrite <- arcsinh_0. assert (0 <= sqrt (x * x - 1) * (y - sg * x)) by (apply Rmult_le_pos; lra).
    destruct H as [H|H]; [left; now apply arcsinh_lt|rewrite <- H; lra]. }
  set (q := sqrt (x * x - 1)) in *. assert (AQ : 0 <= a / q) by (apply Rmult_le_pos; [|left; apply Rinv_0_lt_compat]; lra). set (b := a / q) in *. clearbody b.
  replace ((b - x + sg * y) / (1 - x * x)) with ((x - sg * y - b) / (x * x - 1)) by (field; nra).
  apply Rmult_le_reg_r with ((x * x - 1) * x); [nra|].
  replace ((x - sg * y - b) / (x * x - 1) * ((x * x - 1) * x)) with ((x - sg * y - b) * x) by (field; lra).
  replace (4 / x * ((x * x - 1) * x)) with (4 * (x * x - 1)) by (field; lra).
  assert (- x <= sg * y) by nra. nra.
Qed.
Lemma der_loop_ends sg tau : 0 < sg * sg < 1 -> 0 < tau -> forall K x0 fuel, 2 <= x0 -> 4 / tau <= x0 * 2 ^ K -> (K < fuel)%nat ->
  while_true (fun upper : xr => if @nltb XR (nofZ 0) (@der_hyperbolic_equation XR (Fin sg) (Fin tau) upper) then Next (@nmul XR upper (nofZ 2)) else @Break xr xr upper)
    fuel (Fin x0) <> Raise OutOfFuel.
Proof.
  intros Sr T0. induction K as [|K IH]; intros x0 fuel X0 HK Hf; (destruct fuel as [|fuel]; [lia|]); cbn [while_true].
  all: unfold der_hyperbolic_equation at 1; rewrite der_tof_hyperbolic_F by (assumption || lra).
  - cbn [pow] in HK. replace (@nltb XR _ _) with false; [discriminate|]. symmetry.
    change (@nsub XR (Fin (T_hyp sg x0)) (Fin tau)) with (Fin (T_hyp sg x0 - tau)). apply xltb_Ff.
    pose proof (T_hyp_small sg x0 Sr X0). assert (4 / x0 <= tau); [|lra].
    apply Rmult_le_reg_r with (x0 / tau); [apply Rdiv_lt_0_compat; lra|].
    replace (4 / x0 * (x0 / tau)) with (4 / tau) by (field; lra).
    replace (tau * (x0 / tau)) with x0 by (field; lra). lra.
  - match goal with |- (match (if ?b then _ else _) with _ => _ end) <> _ => destruct b end; [|discriminate].
    change (@nmul XR (Fin x0) (nofZ 2)) with (Fin (x0 * 2)).
    apply IH; [lra| |lia]. cbn [pow] in HK. lra.
Qed.
Theorem C53_der : forall mu r1 r2 tof M prograde low_path maxiter atol rtol full_output,
  0 < mu -> 0 < tof -> non_collinear r1 r2 ->
  terminates Der (call mu r1 r2 tof M prograde low_path maxiter atol rtol full_output).
Proof.
  intros mu r1 r2 tof M p l mi at_ rt fo Hm Ht Hn.
  destruct (transfer_angle r1 r2 p Hn) as (th & ET & F). destruct (der_sigma_F p r1 r2 th Hn F) as (sg & ES & S2 & Sr & Sd).
  destruct (semiper_pos _ _ Hn) as [S0 _].
  set (rate := sqrt (2 * mu / (semiper r1 r2 * semiper r1 r2 * semiper r1 r2))).
  assert (R0 : 0 < rate) by (apply sqrt_lt_R0, Rdiv_lt_0_compat; [lra|]; apply Rmult_lt_0_compat; nra).
  assert (T0 : 0 < rate * tof) by now apply Rmult_lt_0_compat.
  destruct (doubling (4 / (rate * tof)) 2 ltac:(lra)) as (K & HK). exists (S K). intros ev Hf HE.
  apply der_ends; [exact HE|]. intros u1 u2 U1 U2 _. cbn [call a_r1 a_r2] in U1, U2. rewrite as_vec_of_vec in U1, U2. apply Ok_inj in U1, U2. subst u1 u2.
  cbv zeta. cbn [call a_mu a_tof a_is_prograde]. rewrite !norm_F, vsub_F, norm_F, ET. fold (chord r1 r2).
  change (@nadd XR (@nadd XR (Fin (vnorm r1)) (Fin (vnorm r2))) (Fin (chord r1 r2))) with (Fin (vnorm r1 + vnorm r2 + chord r1 r2)).
  rewrite ES, tau_val by assumption. fold rate. apply (der_loop_ends sg (rate * tof) Sr T0 K); [lra|exact HK|lia].
Qed.
Print Assumptions C53_der.

(** ** delatorre2018 *)
Lemma Gz_neg_bound P q g s : 0 < q < P -> 0 < g -> 0 < s -> 2 <= cosh s -> (P + q) * (P + q) * (P + q) / (g * g) <= cosh s ->
  Gz P (- q) (- (s * s)) < g.
Proof.
  intros Hq Hg Hs M2 M3. set (b := P + q) in *. assert (Hb : 0 < b) by (unfold b; lra).
  unfold Gz. rewrite C0_hyp, kz_hyp by assumption.
  pose proof (sinh_pos s Hs) as P0. pose proof (LambertExist.cosh_sq s) as CS. set (m := cosh s) in *. clearbody m.
  set (h := sinh s) in *. clearbody h.
  replace (P - - q * m) with (P + q * m) by ring.
  assert (HV : 0 < P + q * m) by nra. destruct (sqrt_facts _ HV) as [R1 R2].
  set (r := sqrt (P + q * m)) in *. clearbody r. rewrite <- R2 in *.
  assert (HR : r * r <= b * m) by (unfold b; nra).
  assert (H3 : 0 < h * h * h) by (repeat apply Rmult_lt_0_compat; lra).
  assert (Hk : 2 * (r * r * r) * ((h * m - s) / (4 * (h * h * h))) + - q / 2 * r <= r * (b * m / (2 * (h * h)))).
  { apply Rmult_le_reg_r with (2 * (h * h * h) / r); [apply Rdiv_lt_0_compat; lra|].
    replace ((2 * (r * r * r) * ((h * m - s) / (4 * (h * h * h))) + - q / 2 * r) * (2 * (h * h * h) / r))
      with (r * r * (h * m - s) - q * (h * (h * h))) by (field; split; lra).
    replace (r * (b * m / (2 * (h * h))) * (2 * (h * h * h) / r)) with (b * m * h) by (field; split; lra).
    rewrite R2. replace (h * h) with (m * m - 1) by lra. unfold b. assert (0 < s * (P + q * m)) by nra.
    assert (0 <= q * h * (m - 1)) by (repeat apply Rmult_le_pos; lra). lra. }
  eapply Rle_lt_trans; [exact Hk|].
  assert (Hh : 3 / 4 * (m * m) <= h * h) by nra.
  assert (B3 : b * b * b <= m * (g * g)).
  { apply Rmult_le_reg_r with (/ (g * g)); [apply Rinv_0_lt_compat; nra|]. replace (m * (g * g) * / (g * g)) with m by (field; lra).
    exact M3. }
  apply Rle_lt_trans with (2 / 3 * (r * b / m)).
  - replace (r * (b * m / (2 * (h * h)))) with (r * b * (m / (2 * (h * h)))) by (field; nra).
    replace (2 / 3 * (r * b / m)) with (r * b * (2 / (3 * m))) by (field; lra).
    apply Rmult_le_compat_l; [nra|].
    apply Rmult_le_reg_r with (6 * m * (h * h)); [repeat apply Rmult_lt_0_compat; lra|].
    replace (m / (2 * (h * h)) * (6 * m * (h * h))) with (3 * (m * m)) by (field; lra).
    replace (2 / (3 * m) * (6 * m * (h * h))) with (4 * (h * h)) by (field; lra). lra.
  - assert (r * b / m <= g); [|lra].
    apply Rmult_le_reg_r with m; [lra|]. replace (r * b / m * m) with (r * b) by (field; lra).
    apply Rsqr_incr_0_var; [|nra]. unfold Rsqr.
    replace (r * b * (r * b)) with (r * r * (b * b)) by ring.
    apply Rle_trans with (b * m * (b * b)); [apply Rmult_le_compat_r; [nra|exact HR]|].
    replace (b * m * (b * b)) with (m * (b * b * b)) by ring. replace (g * m * (g * m)) with (m * (m * (g * g))) by ring.
    apply Rmult_le_compat_l; lra.
Qed.
(** Far enough below zero the loop has ended, whatever the angle: below the floor
    the time of flight is not a number, and without a floor it tends to zero. *)
Lemma tor_far mu P A tof : 0 < mu -> 0 < tof -> A <> 0 -> Rabs (sqrt 2 * A) < P ->
  exists z0, z0 < 0 /\ forall z, z <= z0 -> @nltb XR (Fin tof) (@tor_tof XR (Fin P) (Fin (sqrt 2 * A)) (Fin mu) (Fin z) 0) = false.
Proof.
  intros Hm Ht A0 HP. pose proof PI_RGT_0 as HPI. set (Q := sqrt 2 * A). fold Q in HP. apply Rabs_def2 in HP.
  destruct (sqrt_facts 2) as [W1 W2]; [lra|]. destruct (sqrt_facts _ Hm) as [M1 _].
  assert (Q0 : Q <> 0) by (unfold Q; apply Rmult_integral_contrapositive_currified; lra).
  assert (FAR : forall m, 1 < m -> exists s0, 0 < s0 /\ forall z, z <= - (s0 * s0) -> exists s, 0 < s /\ z = - (s * s) /\ m <= cosh s).
  { intros m Hm1. destruct (C0_onto m) as [(s & _ & _ & L)|[L|(s & Hs & E & _)]]; try lra.
    exists s. split; [exact Hs|]. intros z Hz. destruct (sqrt_facts (- z)) as [Z1 Z2]; [nra|]. exists (sqrt (- z)). split; [exact Z1|].
    split; [lra|]. rewrite E. assert (s <= sqrt (- z)) by nra. destruct (Req_dec s (sqrt (- z))) as [<-|]; [lra|].
    left. apply cosh_increasing; lra. }
  destruct (Rlt_dec 0 Q) as [L|L].
  - (* below the floor *)
    destruct (FAR (P / Q + 1)) as (s0 & S0 & HF). { assert (0 < P / Q) by (apply Rdiv_lt_0_compat; lra). lra. }
    exists (- (s0 * s0)). split; [nra|]. intros z Hz. destruct (HF z Hz) as (s & Hs & -> & Hc).
    destruct (@tor_tof XR (Fin P) (Fin Q) (Fin mu) (Fin (- (s * s))) 0) as [t|] eqn:E; [|reflexivity]. exfalso.
    unfold Q in E. apply tor_tof_inv in E; [|assumption|nra|lia|lia]. destruct E as [E _]. fold Q in E. rewrite C0_hyp in E by assumption.
    assert (P < Q * cosh s); [|lra]. apply Rlt_le_trans with (Q * (P / Q + 1)); [|apply Rmult_le_compat_l; lra].
    replace (Q * (P / Q + 1)) with (P + Q) by (field; lra). lra.
  - (* the long way *)
    set (g := tof * sqrt mu / sqrt 2). assert (Hg : 0 < g) by (unfold g; apply Rdiv_lt_0_compat; [apply Rmult_lt_0_compat|]; assumption).
    set (q := - Q). assert (Hq : 0 < q < P) by (unfold q; lra).
    assert (B0 : 0 < (P + q) * (P + q) * (P + q) / (g * g)). { apply Rdiv_lt_0_compat; [|nra]. repeat apply Rmult_lt_0_compat; lra. }
    destruct (FAR (2 + (P + q) * (P + q) * (P + q) / (g * g))) as (s0 & S0 & HF); [lra|].
    exists (- (s0 * s0)). split; [nra|]. intros z Hz. destruct (HF z Hz) as (s & Hs & -> & Hc).
    pose proof (Gz_neg_bound P q g s Hq Hg Hs ltac:(lra) ltac:(lra)) as G. replace (- q) with Q in G by (unfold q; ring).
    assert (HV : 0 < P - Q * C0 (- (s * s))). { rewrite C0_hyp by assumption. pose proof (cosh_gt_0 s). nra. }
    unfold Q at 1. rewrite tor_tof_F; [|assumption|nra|lia|lia|fold Q; lra]. apply xltb_Ff. fold Q.
    rewrite tz_Gz; [|assumption|fold Q; lra]. fold Q.
    apply Rlt_le. replace tof with (sqrt 2 / sqrt mu * g) by (unfold g; field; lra).
    apply Rmult_lt_compat_l; [apply Rdiv_lt_0_compat; assumption|exact G].
Qed.

Lemma tor_loop_ends mu P Q tof z0 : z0 < 0 ->
  (forall z, z <= z0 -> @nltb XR (Fin tof) (@tor_tof XR (Fin P) (Fin Q) (Fin mu) (Fin z) 0) = false) ->
  forall K z fuel, z < 0 -> - z0 <= - z * 2 ^ K -> (K < fuel)%nat -> exists z', @tor_expand XR (Fin P) (Fin Q) (Fin mu) (Fin tof) fuel (Fin z) = Break z'.
Proof.
  intros Z0 HZ. induction K as [|K IH]; intros z fuel Hz HK Hf; (destruct fuel as [|fuel]; [lia|]); unfold tor_expand; cbn [while_true].
  - cbn [pow] in HK. rewrite HZ by lra. eauto.
  - destruct (@nltb XR _ _); [|eauto]. change (@nmul XR (Fin z) (nofZ 2)) with (Fin (z * 2)).
    apply (IH (z * 2) fuel); [lra| |lia]. cbn [pow] in HK. lra.
Qed.
Lemma cosh_small_lt x : 0 < x < 1 -> cosh x < 1 / (1 - x * x).
Proof.
  intros H. unfold cosh. pose proof (exp_ineq1 (- x) ltac:(lra)) as E1. pose proof (exp_ineq1 x ltac:(lra)) as E2.
  pose proof (exp_pos x). pose proof (exp_pos (- x)).
  assert (E : exp x * exp (- x) = 1) by (rewrite <- exp_plus, Rplus_opp_r; apply exp_0).
  set (u := exp x) in *. set (v := exp (- x)) in *. clearbody u v.
  apply Rmult_lt_reg_r with (1 - x * x); [nra|]. unfold Rdiv at 2. rewrite Rmult_assoc, Rinv_l by nra.
  assert (u * (1 - x) < 1) by nra. assert (v * (1 + x) < 1) by nra. nra.
Qed.
(** The bound the loop starts from is negative unless the endpoints are very close. *)
Lemma tor_start P Q : 0 < P -> Q * Q <= P * P * ((1 - 1 / 1000000000000) * (1 - 1 / 1000000000000)) ->
  exists a, a < 0 /\ (if @nltb XR (nofZ 0) (Fin Q) then
      let z_floor := @nopp XR (sq (nacosh (@ndiv XR (Fin P) (Fin Q)))) in
      @nadd XR z_floor (pymax tor_1em12 (@nmul XR (nabs z_floor) tor_1em12))
    else @nopp XR (nofZ 1)) = Fin a.
Proof.
  intros HP HQ. destruct (@nltb XR (nofZ 0) (Fin Q)) eqn:EQ.
  2:{ exists (- (1)). split; [lra|reflexivity]. }
  assert (Qp : 0 < Q) by (xunf; now apply xltb_F in EQ).
  set (k := 1 / 1000000000000) in *.
  assert (L1 : Q <= P * (1 - k)) by (apply Rsqr_incr_0; unfold Rsqr, k in *; nra).
  assert (L2 : / (1 - k) <= P / Q).
  { apply Rmult_le_reg_r with (Q * (1 - k)); [unfold k in *; nra|].
    replace (/ (1 - k) * (Q * (1 - k))) with Q by (field; unfold k; lra).
    replace (P / Q * (Q * (1 - k))) with (P * (1 - k)) by (field; lra). assumption. }
  assert (L3 : 1 <= / (1 - k)) by (rewrite <- Rinv_1; apply Rinv_le_contravar; unfold k; lra).
  assert (L4 : cosh (1 / 1000000) < P / Q).
  { eapply Rlt_le_trans; [apply cosh_small_lt; lra|]. eapply Rle_trans; [|exact L2]. right. unfold k. field. }
  assert (L5 : 1 / 1000000 < arcosh (P / Q)).
  { destruct (cosh_arcosh (P / Q)) as [C1 C2]; [lra|].
    destruct (Rlt_dec (1 / 1000000) (arcosh (P / Q))) as [|N]; [assumption|exfalso].
    destruct (Req_dec (arcosh (P / Q)) (1 / 1000000)) as [E|E]; [rewrite E in C1; lra|].
    assert (cosh (arcosh (P / Q)) < cosh (1 / 1000000)) by (apply cosh_increasing; lra). lra. }
  xunf. rewrite xdiv_F by lra. rewrite xacosh_F by lra. cbn [xmul xopp xabs xlift1 xlift2].
  set (w := arcosh (P / Q)) in *. change (@tor_1em12 XR) with (Fin k).
  cbn [xmul xlift2]. rewrite Rabs_left1 by nra.
  unfold pymax. xunf. assert (K : 0 < k < 1 /\ k = 1 / 1000000 * (1 / 1000000)) by (unfold k; lra).
  destruct K as [K1 K2]. 
  destruct (xltb (Fin k) (Fin (- - (w * w) * k))); (eexists; split; [|reflexivity]; nra).
Qed.

Theorem C53_delatorre : forall mu r1 r2 tof M prograde low_path maxiter atol rtol full_output,
  0 < mu -> 0 < tof -> non_collinear r1 r2 ->
  2 / 1000000 * (vnorm r1 + vnorm r2) <= vnorm (vminus r2 r1) ->
  terminates Delatorre (call mu r1 r2 tof M prograde low_path maxiter atol rtol full_output).
Proof.
  intros mu r1 r2 tof M p l mi at_ rt fo Hm Ht Hn Hch.
  destruct (transfer_angle r1 r2 p Hn) as (th & ET & F). destruct (norms_pos _ _ Hn) as [N1 N2].
  pose proof (halfA_sq p r1 r2 th Hn F) as HA2. pose proof (tor_Q_F r1 r2 th Hn) as EQ. set (A := halfA r1 r2 th) in *. clearbody A.
  set (P := vnorm r1 + vnorm r2) in *. assert (PP : 0 < P) by (unfold P; lra).
  assert (W2 : sqrt 2 * sqrt 2 = 2) by (apply sqrt_sqrt; lra).
  assert (C2 : vnorm (vminus r2 r1) * vnorm (vminus r2 r1) = P * P - sqrt 2 * A * (sqrt 2 * A)).
  { replace (sqrt 2 * A * (sqrt 2 * A)) with ((sqrt 2 * sqrt 2) * (A * A)) by ring. rewrite W2, HA2.
    rewrite vnorm_sq. unfold P.
    replace (vdot (vminus r2 r1) (vminus r2 r1)) with (vdot r1 r1 + vdot r2 r2 - 2 * vdot r1 r2) by (vunf; ring).
    rewrite <- (vnorm_sq r1), <- (vnorm_sq r2). ring. }
  set (Q := sqrt 2 * A) in *. pose proof (vnorm_nonneg (vminus r2 r1)) as CN.
  assert (A0 : A <> 0).
  { intros E. rewrite E, Rmult_0_l in HA2. pose proof (cauchy_strict _ _ Hn) as C. rewrite <- !vnorm_sq in C.
    assert (vdot r1 r2 = - (vnorm r1 * vnorm r2)) by lra. nra. }
  assert (HQ : Rabs Q < P).
  { rewrite <- (Rabs_pos_eq P) by lra. apply Rsqr_lt_abs_0. unfold Rsqr. nra. }
  destruct (tor_far mu P A tof Hm Ht A0 HQ) as (z0 & Z0 & HZ). fold Q in HZ.
  destruct (tor_start P Q PP) as (a & Ha & EA); [nra|].
  destruct (doubling (- z0) (- a) ltac:(lra)) as (K & HK). exists (S K). intros ev Hf HE.
  apply delatorre_ends. intros u1 u2 U1 U2 _. cbn [call a_r1 a_r2] in U1, U2. rewrite as_vec_of_vec in U1, U2. apply Ok_inj in U1, U2. subst u1 u2.
  cbn [call a_mu a_tof a_is_prograde]. rewrite !norm_F, ET, EQ. fold Q.
  change (@nadd XR (Fin (vnorm r1)) (Fin (vnorm r2))) with (Fin P). unfold tor_initial_bracket. cbv zeta in EA |- *. 
  match goal with |- ro _ (match @tor_expand XR _ _ _ _ _ ?x with _ => _ end) => replace x with (Fin a) by (symmetry; exact EA) end.
  destruct (tor_loop_ends mu P Q tof z0 Z0 HZ K a (e_fuel ev) Ha HK ltac:(lia)) as (z' & EZ).
  match goal with |- ro _ (match ?x with _ => _ end) => replace x with (@Break xr xr z') by (symmetry; exact EZ) end.
  match goal with |- ro _ (if ?b then _ else _) => destruct b end; [apply ro_err; discriminate|apply ro_ok].
Qed.
Print Assumptions C53_delatorre.

(** ** thorne2004 *)
Theorem C53_thorne : forall mu r1 r2 tof M prograde low_path maxiter atol rtol full_output,
  0 < mu -> 0 < tof -> non_collinear r1 r2 -> 0 <= atol -> 0 <= rtol ->
  terminates Thorne (call mu r1 r2 tof M prograde low_path maxiter atol rtol full_output).
Proof.
  intros mu r1 r2 tof M p l mi at_ rt fo Hm Ht Hn Ha Hr.
  destruct (transfer_angle r1 r2 p Hn) as (th & ET & F). pose proof (way_cases th) as Hw. destruct (Hc r1 r2 Hn) as [C1 C2].
  pose proof (parabolic_test mu r1 r2 p th Hm Hn F tof at_ rt) as PT. change (p_time mu r1 r2 th) with (pt mu r1 r2 (way th)) in PT.
  pose proof (tho_parabolic_F mu r1 r2 (way th) Hm Hn Hw) as EP. pose proof (tho_minimum_F mu r1 r2 (way th) Hm Hn Hw) as EM.
  assert (EW : (if @nltb XR (Fin th) npi then @nopp XR (nofZ 1) else nofZ 1) = Fin (- way th)).
  { rewrite way_lt by apply (af_npi _ _ _ _ F). reflexivity. }
  set (w := way th) in *.
  assert (ENT : forall ev, scipy_exceptions ev ->
    (np_isclose (Fin tof) (Fin (pt mu r1 r2 w)) (Fin rt) (Fin at_) = false ->
     if @nltb XR (Fin tof) (Fin (pt mu r1 r2 w)) then exists y, @tho_expand_lower XR (e_fuel ev) (Fin mu) (Fin (semiper r1 r2)) (Fin (chord r1 r2)) (Fin tof) (Fin (- w)) (Fin (- (semiper r1 r2 / 2))) = Ok y
     else exists y, @tho_expand_upper XR (e_fuel ev) (Fin mu) (Fin (semiper r1 r2)) (Fin (chord r1 r2)) (Fin tof) (Fin (- w))
        (if @nltb XR (Fin tof) (Fin (et mu r1 r2 w (semiper r1 r2 / 2) false)) then ThA else ThB) (Fin (semiper r1 r2)) = Ok y) ->
    @run XR Thorne ev (call mu r1 r2 tof M p l mi at_ rt fo) <> Err OutOfFuel).
  { intros ev HE H. apply thorne_ends; [exact HE|]. intros u1 u2 U1 U2 _. cbn [call a_r1 a_r2] in U1, U2. rewrite as_vec_of_vec in U1, U2. apply Ok_inj in U1, U2. subst u1 u2.
    cbv zeta. cbn [call a_mu a_tof a_is_prograde a_rtol a_atol]. rewrite !norm_F, vsub_F, norm_F, ET, EW. fold (chord r1 r2).
    assert (ES : @ndiv XR (@nadd XR (@nadd XR (Fin (vnorm r1)) (Fin (vnorm r2))) (Fin (chord r1 r2))) (nofZ 2) = Fin (semiper r1 r2)).
    { change (@nofZ XR 2) with (Fin 2). change (@ndiv XR) with xdiv. cbn [nadd XR xadd xlift2]. rewrite xdiv_F by lra. reflexivity. }
    rewrite ES, EP, EM. intros NC. specialize (H NC).
    assert (E2 : @ndiv XR (@nopp XR (Fin (semiper r1 r2))) (nofZ 2) = Fin (- (semiper r1 r2 / 2))).
    { change (@nopp XR (Fin (semiper r1 r2))) with (Fin (- semiper r1 r2)). change (@nofZ XR 2) with (Fin 2). change (@ndiv XR) with xdiv. rewrite xdiv_F by lra. apply (f_equal Fin). field. }
    rewrite E2. destruct (@nltb XR (Fin tof) (Fin (pt mu r1 r2 w))); destruct H as (y & ->); apply ro_ok. }
  set (s := semiper r1 r2) in *. set (c := chord r1 r2) in *.
  destruct (Rlt_dec tof (pt mu r1 r2 w)) as [HP|HP].
  - destruct (h_time_onto p mu r1 r2 th Hm Hn F tof Ht HP) as (b0 & B0 & HB0).
    change (h_time mu r1 r2 th) with (ht mu r1 r2 w) in HB0.
    destruct (doubling b0 (s / 2) ltac:(lra)) as (K & HK). exists (S K). intros ev Hf HE. apply (ENT ev HE). intros _.
    replace (@nltb XR (Fin tof) (Fin (pt mu r1 r2 w))) with true by (symmetry; apply xltb_F; exact HP).
    destruct (expand_ok (fun a => let* t := @tho_lagrange_tof XR (Fin mu) (Fin s) (Fin c) a (Fin (- w)) ThH in Ok (@nltb XR t (Fin tof)))
      (fun x => @nltb XR (Fin (ht mu r1 r2 w (- x))) (Fin tof)) K (- (s / 2))) with (fuel := e_fuel ev) as (y & EY).
    { intros k. pose proof (pow2_ge k). assert (0 < s / 2 * 2 ^ k) by (apply Rmult_lt_0_compat; lra).
      replace (- (s / 2) * 2 ^ k) with (- (s / 2 * 2 ^ k)) by ring. pose proof (tho_hyperbolic_F mu r1 r2 w Hm Hn Hw (s / 2 * 2 ^ k) ltac:(lra)) as ET1. fold s c in ET1. rewrite ET1.
      rewrite Ropp_involutive. reflexivity. }
    { apply xltb_Ff. replace (- (- (s / 2) * 2 ^ K)) with (s / 2 * 2 ^ K) by ring. left. now apply HB0. }
    { lia. }
    exists (Fin y). exact EY.
  - destruct (Req_dec tof (pt mu r1 r2 w)) as [EQ|NE].
    { exists O. intros ev _ HE. apply (ENT ev HE). intros NC. exfalso. rewrite PT in NC. rewrite EQ in NC.
      match type of NC with (if ?b then _ else _) = _ => destruct b as [|NL] end; [discriminate NC|]. apply NL. rewrite Rminus_diag_eq, Rabs_R0 by reflexivity.
      assert (0 <= rt * pt mu r1 r2 w) by (apply Rmult_le_pos; lra). rewrite <- EQ in *. lra. }
    destruct (e_time_onto p mu r1 r2 th Hm Hn F tof ltac:(fold w; change (p_time mu r1 r2 th) with (pt mu r1 r2 w); lra)) as (a0 & A0 & HA0).
    change (e_time mu r1 r2 th) with (et mu r1 r2 w) in HA0.
    destruct (doubling a0 s ltac:(lra)) as (K & HK). exists (S K). intros ev Hf HE. apply (ENT ev HE). intros _.
    replace (@nltb XR (Fin tof) (Fin (pt mu r1 r2 w))) with false by (symmetry; apply xltb_Ff; lra).
    destruct (@nltb XR (Fin tof) (Fin (et mu r1 r2 w (s / 2) false))).
    + destruct (expand_ok (fun a => let* t := @tho_lagrange_tof XR (Fin mu) (Fin s) (Fin c) a (Fin (- w)) ThA in Ok (@nltb XR (Fin tof) t))
            (fun x => @nltb XR (Fin tof) (Fin (et mu r1 r2 w x false))) K s) with (fuel := e_fuel ev) as (y & EY).
      { intros k. pose proof (pow2_ge k). assert (s <= s * 2 ^ k) by nra.
        pose proof (tho_elliptic_F mu r1 r2 w Hm Hn Hw (s * 2 ^ k) false ltac:(fold s; lra)) as ET1. fold s c in ET1. rewrite ET1. reflexivity. }
      { apply xltb_Ff. left. now apply HA0. }
      { lia. }
      exists (Fin y). exact EY.
    + destruct (expand_ok (fun a => let* t := @tho_lagrange_tof XR (Fin mu) (Fin s) (Fin c) a (Fin (- w)) ThB in Ok (@nltb XR t (Fin tof)))
            (fun x => @nltb XR (Fin (et mu r1 r2 w x true)) (Fin tof)) K s) with (fuel := e_fuel ev) as (y & EY).
      { intros k. pose proof (pow2_ge k). assert (s <= s * 2 ^ k) by nra.
        pose proof (tho_elliptic_F mu r1 r2 w Hm Hn Hw (s * 2 ^ k) true ltac:(fold s; lra)) as ET1. fold s c in ET1. rewrite ET1. reflexivity. }
      { apply xltb_Ff. left. now apply HA0. }
      { lia. }
      exists (Fin y). exact EY.
Qed.
Print Assumptions C53_thorne.

(** The distance is needed.  Between two points of the unit circle whose half angle
    has secant [cosh 1e-6] the loop starts from zero, which it doubles for ever
    if the request is faster than the parabola. *)
Theorem C53_delatorre_refuted : exists r2 tof, non_collinear ex_r1 r2 /\ 0 < tof /\
  forall low_path maxiter atol rtol full_output,
  hangs Delatorre (call 1 ex_r1 r2 tof 0 true low_path maxiter atol rtol full_output).
Proof.
  pose proof PI_RGT_0 as HPI. set (e := 1 / 1000000). pose proof (cosh_gt_0 e) as C0p.
  assert (CE : 1 < cosh e). { rewrite <- cosh_0. apply cosh_increasing; unfold e; lra. }
  set (C := / cosh e). assert (HC : 0 < C < 1). { split; [apply Rinv_0_lt_compat; lra|]. rewrite <- Rinv_1. apply Rinv_lt_contravar; lra. }
  assert (EC : 2 / (2 * C) = cosh e) by (unfold C; field; lra).
  destruct (sqrt_facts (1 - C * C)) as [S1 S2]; [nra|]. set (S := sqrt (1 - C * C)) in *.
  set (r2 := V3 (2 * (C * C) - 1) (2 * C * S) 0).
  assert (N1 : vnorm ex_r1 = 1) by apply ex_norms.
  assert (N2 : vnorm r2 = 1).
  { unfold vnorm, vdot, r2. cbn [vx vy vz]. replace (_ + _ + _) with 1; [apply sqrt_1|].
    replace (2 * C * S * (2 * C * S)) with (4 * (C * C) * (S * S)) by ring. rewrite S2. ring. }
  assert (HZ : 0 < vz (vcross ex_r1 r2)). { unfold vcross, ex_r1, r2. cbn [vx vy vz]. nra. }
  assert (Hn : non_collinear ex_r1 r2) by (apply vz_non_collinear; lra).
  destruct (transfer_angle ex_r1 r2 true Hn) as (th & ET & F).
  pose proof (halfA_sq true ex_r1 r2 th Hn F) as HA2. pose proof (tor_Q_F ex_r1 r2 th Hn) as EQ.
  assert (A0 : 0 < halfA ex_r1 r2 th).
  { unfold halfA. rewrite N1, N2, Rmult_1_l, sqrt_1. destruct (sqrt_facts 2); [lra|].
    assert (0 < cos (th / 2)) by (apply (af_half _ _ _ _ F); exact HZ). nra. }
  set (A := halfA ex_r1 r2 th) in *. rewrite N1, N2 in HA2.
  replace (vdot ex_r1 r2) with (2 * (C * C) - 1) in HA2 by (unfold vdot, ex_r1, r2; cbn [vx vy vz]; ring).
  destruct (sqrt_facts 2) as [W1 W2]; [lra|].
  assert (EA : sqrt 2 * A = 2 * C).
  { assert ((sqrt 2 * A) * (sqrt 2 * A) = (2 * C) * (2 * C)) by (replace (sqrt 2 * A * (sqrt 2 * A)) with ((sqrt 2 * sqrt 2) * (A * A)) by ring; rewrite W2, HA2; ring).
    assert (0 < sqrt 2 * A) by nra. nra. }
  set (V := 2 - 2 * C). assert (HV : 0 < V) by (unfold V; lra).
  assert (T0 : 0 < tz 1 A V 0 0).
  { rewrite tz_par by lra. rewrite sqrt_1. destruct (sqrt_facts V HV) as [V1 V2]. unfold Rdiv at 1. rewrite Rinv_1, Rmult_1_r.
    assert (0 < sqrt 2 * V * sqrt V) by (repeat apply Rmult_lt_0_compat; assumption). assert (0 < A * sqrt V) by (apply Rmult_lt_0_compat; assumption). lra. }
  exists r2, (tz 1 A V 0 0 / 2). split; [exact Hn|]. split; [lra|].
  intros l mi at_ rt fo ev. cbn [run]. unfold delatorre2018.
  rewrite validated_call_ok by (apply non_collinear_valid; try assumption; lra).
  cbn [call a_mu a_tof a_is_prograde a_rtol a_atol a_maxiter a_full_output a_M a_is_low_path]. rewrite !norm_F, ET, N1, N2 in *. rewrite EQ. cbv zeta.
  change (@nadd XR (Fin 1) (Fin 1)) with (Fin (1 + 1)). replace (1 + 1) with 2 by ring.
  unfold tor_find_z. cbn [Z.eqb]. unfold tor_initial_bracket.
  replace (@nltb XR (nofZ 0) (Fin (sqrt 2 * A))) with true by (symmetry; apply xltb_F; rewrite EA; lra). cbv zeta.
  assert (EZ : exists z, @nadd XR (@nopp XR (sq (nacosh (@ndiv XR (Fin 2) (Fin (sqrt 2 * A))))))
    (pymax tor_1em12 (@nmul XR (nabs (@nopp XR (sq (nacosh (@ndiv XR (Fin 2) (Fin (sqrt 2 * A))))))) tor_1em12)) = Fin z /\ z = 0).
  { rewrite EA. change (@ndiv XR) with xdiv. rewrite xdiv_F by lra. rewrite EC. change (@nacosh XR) with xacosh. rewrite xacosh_F by lra.
    rewrite AroraW.arcosh_cosh by (unfold e; lra).
    change (@nopp XR (@sq XR (Fin e))) with (Fin (- (e * e))). change (@tor_1em12 XR) with (Fin (1 / 1000000000000)).
    change (@nmul XR (@nabs XR (Fin (- (e * e)))) (Fin (1 / 1000000000000))) with (Fin (Rabs (- (e * e)) * (1 / 1000000000000))).
    rewrite Rabs_left by (unfold e; lra). unfold pymax.
    replace (@nltb XR (Fin (1 / 1000000000000)) _) with false by (symmetry; apply xltb_Ff; unfold e; lra).
    eexists. split; [reflexivity|]. unfold e. lra. }
  destruct EZ as (z & EZ & Z0). rewrite EZ. unfold tor_expand.
  rewrite (while_true_diverges _ (fun s => exists x, s = Fin x /\ x = 0)); [reflexivity|eauto|].
  intros t (x & -> & ->). exists (Fin (0 * 2)). split; [|exists (0 * 2); split; [reflexivity|ring]].
  rewrite tor_tof_F; [|lra|nra|lia|lia|]; destruct at_0 as (E0 & _); rewrite E0, EA; replace (2 - 2 * C * 1) with V by (unfold V; ring); [|lra].
  replace (@nltb XR _ _) with true by (symmetry; apply xltb_F; lra). reflexivity.
Qed.
Print Assumptions C53_delatorre_refuted.
