(** * Change of units: C30.

    In new units lengths are multiplied by [L] and times by [T], so the
    gravitational parameter is multiplied by [L^3 / T^2] and a velocity by
    [L / T]. *)
From Coq Require Import Reals ZArith String List Bool Lra Lia.
Import ListNotations.
From Verif Require Import Num XReal XRealLemmas MApi MAngles MGauss MBattin MGooding MDer MAvanzini MArora MVallado MIzzo
  MNegrete MDelatorre MInit Spec VecFacts VecXR AnglesXR CallXR ScaleXR GodalXR PropertiesAngles PropertiesMotion PropertiesOrbit
  PropertiesAvanzini UnitsOne UnitsTwo UnitsThree UnitsFour.
Local Open Scope R_scope.

Lemma in_units (P : R -> R -> R -> R -> Prop) L T : 0 < L -> 0 < T ->
  (forall a, 0 < a -> P (fac a T 6 (-2)) (fac a T 2 0) (fac a T 0 1) (fac a T 2 (-1))) ->
  P (L * L * L / (T * T)) L T (L / T).
Proof.
  intros HL HT H. pose proof (sqrt_lt_R0 L HL) as Ha. specialize (H _ Ha).
  rewrite <- fac_mu, <- fac_len, <- fac_time, <- fac_vel in H by assumption.
  rewrite sqrt_sqrt in H by lra. exact H.
Qed.

(** C30: eight solvers return, in any units, the same answer: the same
    velocities in the new units, the same count and the same timing, or the
    same exception. *)
Theorem C30_units : forall s ev L T mu r1 r2 tof M prograde low_path maxiter atol rtol full_output,
  In s [Gauss; Battin; Gooding; Der; Avanzini; Arora; Izzo; Negrete] -> 0 < L -> 0 < T ->
  @run XR s ev (call (L * L * L / (T * T) * mu) (vmult L r1) (vmult L r2) (T * tof) M prograde low_path maxiter atol rtol full_output)
  = res_scale (L / T) (@run XR s ev (call mu r1 r2 tof M prograde low_path maxiter atol rtol full_output)).
Proof.
  intros s ev L T mu r1 r2 tof M p l mi at_ rt f Hs HL HT.
  apply (in_units (fun km kl kt kv => @run XR s ev (call (km * mu) (vmult kl r1) (vmult kl r2) (kt * tof) M p l mi at_ rt f)
    = res_scale kv (@run XR s ev (call mu r1 r2 tof M p l mi at_ rt f))) L T HL HT).
  intros a Ha. cbn [In] in Hs.
  repeat match type of Hs with _ \/ _ => destruct Hs as [Hs|Hs] end; try contradiction; subst s; cbn [run].
  - apply gauss_units; assumption.
  - apply battin_units; assumption.
  - apply gooding_units; assumption.
  - apply der_units; assumption.
  - apply avanzini_units; assumption.
  - apply arora_units; assumption.
  - apply izzo_units; assumption.
  - apply negrete_units; assumption.
Qed.
Print Assumptions C30_units.

(** Finite answers are converted as real vectors. *)
Corollary C30_finite : forall s ev L T mu r1 r2 tof M prograde low_path maxiter atol rtol full_output o v1 v2,
  In s [Gauss; Battin; Gooding; Der; Avanzini; Arora; Izzo; Negrete] -> 0 < L -> 0 < T ->
  @run XR s ev (call mu r1 r2 tof M prograde low_path maxiter atol rtol full_output) = Ok o -> delivers o v1 v2 ->
  exists o',
    @run XR s ev (call (L * L * L / (T * T) * mu) (vmult L r1) (vmult L r2) (T * tof) M prograde low_path maxiter atol rtol full_output) = Ok o' /\
    delivers o' (vmult (L / T) v1) (vmult (L / T) v2).
Proof.
  intros s ev L T mu r1 r2 tof M p l mi a r f o v1 v2 Hs HL HT H [D1 D2].
  rewrite (C30_units s ev L T), H by assumption. cbn [res_scale]. eexists. split; [reflexivity|].
  destruct o; cbn [out_scale out_v1 out_v2] in *; rewrite D1, D2; split; reflexivity.
Qed.
Print Assumptions C30_finite.

Example C30_case : exists o v1 v2,
  @run XR Avanzini no_scipy (call 1 ex_r1 ex_r2 (PI / 2) 0 true true 35 (1 / 100000) (1 / 10000000) false) = Ok o /\
  delivers o v1 v2 /\ 0 < 1000 /\ 0 < 86400.
Proof.
  destruct ex_norms as (N1 & N2 & D0).
  assert (Hz : vz (vcross ex_r1 ex_r2) = 1) by (unfold ex_r1, ex_r2, vcross; cbn [vx vy vz]; ring).
  destruct (avanzini_quarter no_scipy true ex_r1 ex_r2 true 35 (1 / 100000) (1 / 10000000)) as (v1 & v2 & H & _); try assumption; try lra; try lia.
  { unfold short_way. lra. }
  eexists _, v1, v2. split; [exact H|]. split; [split; reflexivity|]. lra.
Qed.

(** delatorre2018 compares [atol] with times, so the tolerance has to be
    converted too; with revolutions it also compares [atol] with the
    dimensionless variable z. *)
Theorem C30_delatorre : forall ev L T mu r1 r2 tof M prograde low_path maxiter atol rtol full_output,
  0 < L -> 0 < T -> (M = 0%Z \/ atol = 0) ->
  @run XR Delatorre ev (call (L * L * L / (T * T) * mu) (vmult L r1) (vmult L r2) (T * tof) M prograde low_path maxiter (T * atol) rtol full_output)
  = res_scale (L / T) (@run XR Delatorre ev (call mu r1 r2 tof M prograde low_path maxiter atol rtol full_output)).
Proof.
  intros ev L T mu r1 r2 tof M p l mi at_ rt f HL HT HM.
  apply (in_units (fun km kl kt kv => @run XR Delatorre ev (call (km * mu) (vmult kl r1) (vmult kl r2) (kt * tof) M p l mi (kt * at_) rt f)
    = res_scale kv (@run XR Delatorre ev (call mu r1 r2 tof M p l mi at_ rt f))) L T HL HT).
  intros a Ha. cbn [run]. apply delatorre_units; assumption.
Qed.
Print Assumptions C30_delatorre.

(** vallado2013 does so on transfers of more than half a turn. *)
Theorem C30_vallado : forall ev L T mu r1 r2 tof M prograde low_path maxiter atol rtol full_output,
  0 < L -> 0 < T -> non_collinear r1 r2 -> ~ short_way prograde r1 r2 ->
  @run XR Vallado ev (call (L * L * L / (T * T) * mu) (vmult L r1) (vmult L r2) (T * tof) M prograde low_path maxiter atol rtol full_output)
  = res_scale (L / T) (@run XR Vallado ev (call mu r1 r2 tof M prograde low_path maxiter atol rtol full_output)).
Proof.
  intros ev L T mu r1 r2 tof M p l mi at_ rt f HL HT Hn Hs.
  apply (in_units (fun km kl kt kv => @run XR Vallado ev (call (km * mu) (vmult kl r1) (vmult kl r2) (kt * tof) M p l mi at_ rt f)
    = res_scale kv (@run XR Vallado ev (call mu r1 r2 tof M p l mi at_ rt f))) L T HL HT).
  intros a Ha. cbn [run]. apply vallado_units; try assumption.
  destruct (@get_transfer_angle XR (vfin r1) (vfin r2) p) as [th|] eqn:E; [|reflexivity].
  destruct (transfer_angle_facts r1 r2 p th Hn E) as (_ & _ & _ & S).
  apply xltb_Ff. destruct (Rlt_dec th PI) as [Q|Q]; [|lra]. exfalso. apply Hs. apply S. exact Q.
Qed.
Print Assumptions C30_vallado.

Example C30_vallado_case : non_collinear ex_r1 ex_r2 /\ ~ short_way false ex_r1 ex_r2.
Proof.
  split; [exact ex_non_collinear|]. unfold short_way, ex_r1, ex_r2, vcross. cbn [vx vy vz]. lra.
Qed.
