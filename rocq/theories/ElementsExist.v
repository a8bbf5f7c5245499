(** * Every state with an orbital plane has orbital elements. *)
From Coq Require Import Reals ZArith Bool Lra Lia Psatz.
From Verif Require Import Num XReal XRealLemmas Spec SpecElements VecFacts ElementsXR AnglesXR RoundTripXR.
Local Open Scope R_scope.

Lemma polar x y : exists k t, 0 <= k /\ k * cos t = x /\ k * sin t = y.
Proof.
  destruct (Req_dec (x * x + y * y) 0) as [Z|Z].
  - exists 0, 0. assert (x = 0) by nra. assert (y = 0) by nra. subst. repeat split; lra.
  - assert (P : 0 < x * x + y * y) by nra. pose proof (sqrt_lt_R0 _ P) as S. exists (sqrt (x * x + y * y)), (Ratan2 y x).
    destruct (Ratan2_cos_sin x y) as [C1 S1]. { destruct (Req_dec x 0); [right; nra|left; assumption]. }
    rewrite C1, S1. repeat split; [lra|field; lra|field; lra].
Qed.

Lemma plane_expand i o u : vdot u (frame_W i o) = 0 ->
  u = vplus (vmult (vdot u (frame_P i o 0)) (frame_P i o 0)) (vmult (vdot u (frame_Q i o 0)) (frame_Q i o 0)).
Proof.
  intros Z. pose proof (frame_PP i o 0) as PP. pose proof (frame_QQ i o 0) as QQ. pose proof (frame_PQ i o 0) as PQ. pose proof (frame_WW i o) as WW.
  rewrite <- (frame_cross i o 0) in Z, WW. set (A := frame_P i o 0) in *. set (B := frame_Q i o 0) in *. clearbody A B.
  transitivity (vcross (vcross A B) (vcross u (vcross A B))).
  - transitivity (vminus (vmult (vdot (vcross A B) (vcross A B)) u) (vmult (vdot u (vcross A B)) (vcross A B))).
    + rewrite WW, Z. unfold vminus, vmult. apply vec_eq; cbn [vx vy vz]; ring.
    + unfold vminus, vmult, vdot, vcross. apply vec_eq; cbn [vx vy vz]; ring.
  - transitivity (vplus (vmult (vdot u B) (vcross (vcross A B) A)) (vmult (- vdot u A) (vcross (vcross A B) B))).
    + unfold vplus, vmult, vdot, vcross. apply vec_eq; cbn [vx vy vz]; ring.
    + rewrite (vcross_PQ_P A B PP PQ). assert (E : vcross (vcross A B) B = vmult (-1) A).
      { rewrite <- (vcross_Q_PQ A B QQ PQ) at 2. unfold vmult, vcross. apply vec_eq; cbn [vx vy vz]; ring. }
      rewrite E. unfold vplus, vmult. apply vec_eq; cbn [vx vy vz]; ring.
Qed.

Lemma normal_exists u : vdot u u = 1 -> exists i o, 0 <= i <= PI /\ u = frame_W i o.
Proof.
  intros U. destruct u as [x y z]. unfold vdot in U. cbn [vx vy vz] in U.
  destruct (polar (- y) x) as (k & o & K0 & Kc & Ks).
  assert (KK : k * k = 1 - z * z). { pose proof (sc o) as S. transitivity (k * k * (sin o * sin o + cos o * cos o)); [rewrite S; ring|]. replace (k * k * (sin o * sin o + cos o * cos o)) with ((k * sin o) * (k * sin o) + (k * cos o) * (k * cos o)) by ring. rewrite Kc, Ks. lra. }
  assert (Z : -1 <= z <= 1) by nra. exists (acos z), o. split; [apply acos_bound|].
  assert (Ek : sin (acos z) = k). { rewrite sin_acos by lra. unfold Rsqr. rewrite <- KK. now apply sqrt_square. }
  unfold frame_W. rewrite Ek, cos_acos by lra. apply vec_eq; cbn [vx vy vz]; lra.
Qed.

Theorem elements_exist mu r v : 0 < mu -> momentum r v <> vzero ->
  exists p e i o w nu, 0 < p /\ 0 <= e /\ 0 <= i <= PI /\ 0 < 1 + e * cos nu /\
    r = conic_position p e i o w nu /\ v = conic_velocity mu p e i o w nu.
Proof.
  intros Hmu Hh. pose proof (vnorm_pos _ Hh) as HH. set (h := momentum r v) in *. set (H := vnorm h) in *.
  assert (U : vdot (vmult (/ H) h) (vmult (/ H) h) = 1). { rewrite vdot_mult_l, vdot_mult_r, <- vnorm_sq. fold H. field. lra. }
  destruct (normal_exists _ U) as (i & o & Hi & EW).
  assert (Eh : h = vmult H (frame_W i o)). { rewrite <- EW, vmult_mult. replace (H * / H) with 1 by (field; lra). now rewrite vmult_1. }
  assert (R0 : r <> vzero) by (apply (vcross_nonzero_l r v); exact Hh). pose proof (vnorm_pos r R0) as RN.
  assert (Zr : vdot r (frame_W i o) = 0). { rewrite <- EW, vdot_mult_r. unfold h, momentum. rewrite vdot_cross_l. ring. }
  assert (Zv : vdot v (frame_W i o) = 0). { rewrite <- EW, vdot_mult_r. unfold h, momentum. rewrite vdot_cross_r. ring. }
  pose proof (plane_expand i o r Zr) as Er. pose proof (plane_expand i o v Zv) as Ev.
  pose proof (frame_PP i o 0) as PP. pose proof (frame_QQ i o 0) as QQ. pose proof (frame_PQ i o 0) as PQ. pose proof (frame_cross i o 0) as PQW. pose proof (frame_WW i o) as WW.
  assert (FP : forall w, frame_P i o w = vplus (vmult (cos w) (frame_P i o 0)) (vmult (sin w) (frame_Q i o 0))) by (intros w; unfold vplus, vmult, frame_P, frame_Q; cbn [vx vy vz]; rewrite cos_0, sin_0; apply vec_eq; cbn [vx vy vz]; ring).
  assert (FQ : forall w, frame_Q i o w = vplus (vmult (- sin w) (frame_P i o 0)) (vmult (cos w) (frame_Q i o 0))) by (intros w; unfold vplus, vmult, frame_P, frame_Q; cbn [vx vy vz]; rewrite cos_0, sin_0; apply vec_eq; cbn [vx vy vz]; ring).
  destruct (polar (vdot r (frame_P i o 0)) (vdot r (frame_Q i o 0))) as (rn & th & Rn0 & Rc & Rs).
  set (va := vdot v (frame_P i o 0)) in *. set (vb := vdot v (frame_Q i o 0)) in *.
  set (A := frame_P i o 0) in *. set (B := frame_Q i o 0) in *. set (W := frame_W i o) in *. pose proof (sc th) as ST.
  assert (Rp : 0 < rn). { destruct (Rle_lt_or_eq_dec _ _ Rn0) as [L|L]; [exact L|exfalso]. apply R0. rewrite Er, <- Rc, <- Rs, <- L. unfold vplus, vmult, vzero. apply vec_eq; cbn [vx vy vz]; ring. }
  set (vr := va * cos th + vb * sin th). set (vt := vb * cos th - va * sin th).
  assert (VT : rn * vt = H).
  { assert (X : vmult (rn * vt) W = vmult H W).
    { rewrite <- Eh. unfold h, momentum. rewrite Er, Ev, <- Rc, <- Rs, <- PQW. unfold vt, vcross, vplus, vmult. clearbody A B. apply vec_eq; cbn [vx vy vz]; ring. }
    apply (f_equal (fun u => vdot u W)) in X. rewrite !vdot_mult_l, WW in X. lra. }
  set (p := H * H / mu). assert (Pp : 0 < p) by (unfold p; apply Rdiv_lt_0_compat; nra).
  destruct (polar (p / rn - 1) (vr * (H / mu))) as (e & nu & E0 & Ec & Es).
  exists p, e, i, o, (th - nu), nu. split; [exact Pp|]. split; [exact E0|]. split; [exact Hi|].
  assert (D : 1 + e * cos nu = p / rn) by lra. split; [rewrite D; now apply Rdiv_lt_0_compat|].
  assert (Q : sqrt (mu / p) = mu / H). { replace (mu / p) with (mu / H * (mu / H)) by (unfold p; field; lra). apply sqrt_square. apply Rlt_le, Rdiv_lt_0_compat; lra. }
  unfold conic_position, conic_velocity. rewrite D, Q, FP, FQ.
  assert (Ct : cos th = cos nu * cos (th - nu) - sin nu * sin (th - nu)) by (rewrite <- cos_plus; f_equal; ring).
  assert (St : sin th = sin nu * cos (th - nu) + cos nu * sin (th - nu)) by (rewrite <- sin_plus; f_equal; ring).
  set (cw := cos (th - nu)) in *. set (sw := sin (th - nu)) in *.
  assert (Va : va = vr * cos th - vt * sin th) by (unfold vr, vt; transitivity (va * (sin th * sin th + cos th * cos th)); [rewrite ST|]; ring).
  assert (Vb : vb = vr * sin th + vt * cos th) by (unfold vr, vt; transitivity (vb * (sin th * sin th + cos th * cos th)); [rewrite ST|]; ring).
  clearbody va vb vr vt. split.
  - rewrite Er, <- Rc, <- Rs. replace (p / (p / rn)) with rn by (field; lra). rewrite Ct, St. clearbody A B. unfold vplus, vmult. apply vec_eq; cbn [vx vy vz]; ring.
  - rewrite Ev. pose proof (sc nu) as SN.
    assert (Cw : cw = cos th * cos nu + sin th * sin nu) by (rewrite Ct, St; transitivity (cw * (sin nu * sin nu + cos nu * cos nu)); [rewrite SN|]; ring).
    assert (Sw : sw = sin th * cos nu - cos th * sin nu) by (rewrite Ct, St; transitivity (sw * (sin nu * sin nu + cos nu * cos nu)); [rewrite SN|]; ring).
    assert (V1 : va = mu / H * (- sin nu * cw + (e + cos nu) * - sw)).
    { transitivity (mu / H * ((e * sin nu) * cos th - (1 + e * cos nu) * sin th)).
      - rewrite D, Es, Va. unfold p. rewrite <- VT. field. repeat split; nra.
      - rewrite Cw, Sw. transitivity (mu / H * (e * sin nu * cos th - (sin nu * sin nu + cos nu * cos nu + e * cos nu) * sin th)); [rewrite SN; ring|ring]. }
    assert (V2 : vb = mu / H * (- sin nu * sw + (e + cos nu) * cw)).
    { transitivity (mu / H * ((e * sin nu) * sin th + (1 + e * cos nu) * cos th)).
      - rewrite D, Es, Vb. unfold p. rewrite <- VT. field. repeat split; nra.
      - rewrite Cw, Sw. transitivity (mu / H * (e * sin nu * sin th + (sin nu * sin nu + cos nu * cos nu + e * cos nu) * cos th)); [rewrite SN; ring|ring]. }
    rewrite V1, V2. clearbody A B. unfold vplus, vmult. apply vec_eq; cbn [vx vy vz]; ring.
Qed.
