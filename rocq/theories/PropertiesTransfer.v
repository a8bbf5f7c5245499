(** * Every elliptic answer is a genuine transfer: C42. *)
From Coq Require Import String ZArith List Bool Lia Reals Lra Psatz.
From Verif Require Import Num XReal XRealLemmas MApi ApiFacts MScipy MInit Spec SpecLambert VecFacts CallXR Godal GodalXR LambertRev LambertZ
  PropertiesAngles PropertiesMotion OrbitXR PropertiesOrbit PropertiesIzzo.
Import ListNotations.
Local Open Scope R_scope.

(** The Lagrange-coefficient form of a pair given by [a] and [b]. *)
Lemma ab_fg_ex mu r1 r2 a b v1 v2 :
  non_collinear r1 r2 -> 0 < mu ->
  v1 = vplus (vmult a (vminus r2 r1)) (vmult (b / vnorm r1) r1) ->
  v2 = vminus (vmult a (vminus r2 r1)) (vmult (b / vnorm r2) r2) ->
  a * b * Kgeo r1 r2 = mu ->
  exists A, 0 < a * A /\ fg_pair mu r1 r2 A (b / a) v1 v2.
Proof.
  intros Hn Hm E1 E2 Hab. pose proof (Kgeo_pos _ _ Hn) as K. destruct (sqrt_facts _ K) as [K1 K2].
  assert (Ha : a <> 0) by (intros ->; lra).
  destruct (Rlt_dec 0 a) as [L|L].
  - exists (sqrt (Kgeo r1 r2)). assert (0 < a * sqrt (Kgeo r1 r2)) by nra. split; [assumption|]. apply ab_fg; auto.
  - exists (- sqrt (Kgeo r1 r2)). assert (0 < a * - sqrt (Kgeo r1 r2)) by nra. split; [assumption|]. apply ab_fg; auto. lra.
Qed.

(** A pair of this form of negative energy is flown with any number of
    revolutions. *)
Lemma ab_elliptic mu r1 r2 a b v1 v2 M :
  non_collinear r1 r2 -> 0 < mu -> (0 <= M)%Z ->
  v1 = vplus (vmult a (vminus r2 r1)) (vmult (b / vnorm r1) r1) ->
  v2 = vminus (vmult a (vminus r2 r1)) (vmult (b / vnorm r2) r2) ->
  a * b * Kgeo r1 r2 = mu -> energy mu r1 v1 < 0 ->
  exists T, lambert_solution mu r1 v1 r2 v2 T M.
Proof.
  intros Hn Hm HM E1 E2 Hab HE.
  destruct (ab_fg_ex _ _ _ _ _ _ _ Hn Hm E1 E2 Hab) as (A & HA & F).
  pose proof (fg_V _ _ _ _ _ _ _ F) as HV. set (V := b / a) in *. clearbody V.
  destruct (sqrt_facts 2) as [W1 W2]; [lra|].
  assert (HA0 : A <> 0) by (intros ->; lra).
  set (c := (vnorm r1 + vnorm r2 - V) / (sqrt 2 * A)).
  assert (HC : vnorm r1 + vnorm r2 - V = sqrt 2 * A * c) by (unfold c; field; split; lra).
  rewrite (fg_energy _ _ _ _ _ _ _ c Hn Hm F HC) in HE.
  assert (Q : 0 < 1 - c * c).
  { destruct (Rlt_dec 0 (1 - c * c)) as [|N]; [assumption|exfalso].
    assert (0 <= - mu * (1 - c * c) / V); [|lra].
    apply Rmult_le_pos; [nra|]. left. now apply Rinv_0_lt_compat. }
  destruct (C0_inverse c) as (z & Hz & EC & Hz0); [nra|]. rewrite <- EC in HC.
  exists (tz mu A V z M). apply fg_lambert; auto. intros _. apply Hz0. nra.
Qed.

(** ** C42 *)

(** Whenever one of these ten solvers returns velocities of negative energy,
    they are the velocities of a two-body motion that starts at [r1] and
    arrives at [r2], whatever the root finder did; such a motion exists with
    every number of complete revolutions. *)
Theorem C42_elliptic_answers_are_transfers :
  forall s ev mu r1 r2 tof M prograde low_path maxiter atol rtol full_output o v1 v2 K,
  In s [Vallado; Izzo; Thorne; Delatorre; Jiang; McElreath; Negrete; Battin; Gooding; Arora] ->
  0 < mu -> non_collinear r1 r2 ->
  @run XR s ev (call mu r1 r2 tof M prograde low_path maxiter atol rtol full_output) = Ok o ->
  delivers o v1 v2 -> energy mu r1 v1 < 0 -> (0 <= K)%Z ->
  exists T, lambert_solution mu r1 v1 r2 v2 T K.
Proof.
  intros s ev mu r1 r2 tof M p l mi a r f o v1 v2 K Hs Hmu Hn H D HE HK.
  assert (G : In s [Vallado; Izzo; Thorne; Delatorre; Jiang; McElreath; Negrete; Gooding; Arora] ->
    godal mu p r1 r2 v1 v2).
  { clear Hs. intros [<-|[<-|[<-|[<-|[<-|[<-|[<-|[<-|[<-|[]]]]]]]]]]; cbn [run] in H;
      eauto using vallado_returns_godal, izzo_returns_godal, thorne_returns_godal,
        delatorre_returns_godal, jiang_returns_godal, mcelreath_returns_godal,
        negrete_returns_godal, gooding_returns_godal, arora_returns_godal. }
  cbn [In] in Hs, G.
  assert (B : s = Battin -> exists T, lambert_solution mu r1 v1 r2 v2 T K).
  { intros ->. cbn [run] in H. destruct (battin_returns_form _ _ _ _ _ _ _ _ _ _ _ _ _ _ Hn D _ H)
      as (a' & b' & E1 & E2 & E3). eapply ab_elliptic; eauto. }
  assert (G' : godal mu p r1 r2 v1 v2 -> exists T, lambert_solution mu r1 v1 r2 v2 T K).
  { intros (a' & b' & E1 & E2 & E3 & _). eapply ab_elliptic; eauto. }
  intuition.
Qed.
Print Assumptions C42_elliptic_answers_are_transfers.

(** der2011, away from the parabola. *)
Theorem C42_der : forall ev mu r1 r2 tof M prograde low_path maxiter atol rtol full_output o v1 v2 K,
  non_collinear r1 r2 ->
  (M = 0%Z -> ~ near_parabolic mu prograde r1 r2 tof atol rtol) ->
  @run XR Der ev (call mu r1 r2 tof M prograde low_path maxiter atol rtol full_output) = Ok o ->
  delivers o v1 v2 -> energy mu r1 v1 < 0 -> (0 <= K)%Z ->
  exists T, lambert_solution mu r1 v1 r2 v2 T K.
Proof.
  intros ev mu r1 r2 tof M p l mi a r f o v1 v2 K Hn NP H D HE HK. cbn [run] in H.
  assert (Hmu : 0 < mu).
  { unfold MDer.der2011 in H. apply validated_call in H. apply H. }
  assert (G : godal mu p r1 r2 v1 v2).
  { eapply der_returns_godal; eauto.
    intros sg S2 Sd Sq. destruct (Z.eqb_spec M 0) as [E|E]; [|reflexivity]. cbn [andb].
    destruct (np_isclose _ _ _ _) eqn:EN; [|reflexivity]. exfalso.
    apply (NP E). apply (der_parabolic_iff mu p r1 r2 tof a r sg); assumption. }
  destruct G as (a' & b' & E1 & E2 & E3 & _). eapply ab_elliptic; eauto.
Qed.
Print Assumptions C42_der.

(** pan2016, if scipy's root finder returns a point where the residual was
    evaluated without an exception. *)
Theorem C42_pan : forall ev mu r1 r2 tof M prograde low_path maxiter atol rtol full_output o v1 v2 K,
  non_collinear r1 r2 -> brentq_evaluates ev ->
  @run XR Pan ev (call mu r1 r2 tof M prograde low_path maxiter atol rtol full_output) = Ok o ->
  delivers o v1 v2 -> energy mu r1 v1 < 0 -> (0 <= K)%Z ->
  exists T, lambert_solution mu r1 v1 r2 v2 T K.
Proof.
  intros ev mu r1 r2 tof M p l mi a r f o v1 v2 K Hn HB H D HE HK. cbn [run] in H.
  assert (Hmu : 0 < mu).
  { unfold MPan.pan2016 in H. apply bind_ok in H. destruct H as (u & _ & H). apply validated_call in H. apply H. }
  assert (G : godal mu p r1 r2 v1 v2) by (eapply pan_returns_godal; eauto).
  destruct G as (a' & b' & E1 & E2 & E3 & _). eapply ab_elliptic; eauto.
Qed.
Print Assumptions C42_pan.

(** A case: for every geometry a run of izzo2015 meeting the hypotheses. *)
Example C42_case : forall ev mu r1 r2 p l rtol, 0 < mu -> non_collinear r1 r2 ->
  exists tof o v1 v2 T,
    @run XR Izzo ev (call mu r1 r2 tof 0 p l 35 (1 / 100000) rtol false) = Ok o /\
    delivers o v1 v2 /\ energy mu r1 v1 < 0 /\ lambert_solution mu r1 v1 r2 v2 T 3.
Proof.
  intros ev mu r1 r2 p l rt Hmu Hn. destruct (C16_case ev mu r1 r2 p l rt Hmu Hn) as (tof & o & v1 & v2 & _ & R & D & HE).
  destruct (C42_elliptic_answers_are_transfers Izzo _ _ _ _ _ _ _ _ _ _ _ _ _ _ _ 3 ltac:(cbn; tauto) Hmu Hn R D HE ltac:(lia)) as [T HT].
  exists tof, o, v1, v2, T. auto.
Qed.
