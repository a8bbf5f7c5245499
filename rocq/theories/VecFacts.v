(** * Algebra of real vectors. *)
From Coq Require Import Reals Lra Psatz.
From Coquelicot Require Import Coquelicot.
From Verif Require Import Num Spec.
Local Open Scope R_scope.

Lemma vec_eq (u v : rvec) : vx u = vx v -> vy u = vy v -> vz u = vz v -> u = v.
Proof. destruct u, v; simpl; congruence. Qed.

Ltac vdes := repeat match goal with v : rvec |- _ => destruct v as [? ? ?]
                              | v : vec R |- _ => destruct v as [? ? ?] end.
Ltac vunf := unfold vplus, vminus, vmult, vdot, vcross, vzero in *; cbn [vx vy vz] in *.

Lemma vdot_pos v : 0 <= vdot v v.
Proof. vdes; vunf. nra. Qed.
Lemma vdot_zero v : vdot v v = 0 -> v = vzero.
Proof.
  destruct v as [a b c]; vunf; intros H.
  assert (a * a = 0) by nra. assert (b * b = 0) by nra. assert (c * c = 0) by nra.
  f_equal; nra.
Qed.
Lemma vdot_nonzero v : v <> vzero -> 0 < vdot v v.
Proof.
  intros H. destruct (Rle_lt_or_eq_dec _ _ (vdot_pos v)) as [|E]; [assumption|].
  destruct H. now apply vdot_zero.
Qed.
Lemma vnorm_sq v : vnorm v * vnorm v = vdot v v.
Proof. apply sqrt_sqrt, vdot_pos. Qed.
Lemma vnorm_nonneg v : 0 <= vnorm v.
Proof. apply sqrt_pos. Qed.
Lemma vnorm_pos v : v <> vzero -> 0 < vnorm v.
Proof. intros H. apply sqrt_lt_R0. now apply vdot_nonzero. Qed.
Lemma vnorm_zero v : vnorm v = 0 -> v = vzero.
Proof. intros H. apply vdot_zero. rewrite <- vnorm_sq, H. ring. Qed.
Lemma vzero_dec (v : rvec) : {v = vzero} + {v <> vzero}.
Proof.
  destruct (Req_EM_T (vdot v v) 0) as [E|E].
  - left. now apply vdot_zero.
  - right. intros ->. apply E. vunf. ring.
Qed.

(** Lagrange's identity. *)
Lemma lagrange u v :
  vdot (vcross u v) (vcross u v) = vdot u u * vdot v v - vdot u v * vdot u v.
Proof. vdes; vunf. ring. Qed.
Lemma cauchy_schwarz u v : vdot u v * vdot u v <= vdot u u * vdot v v.
Proof. pose proof (lagrange u v). pose proof (vdot_pos (vcross u v)). lra. Qed.
Lemma cauchy_strict u v :
  vcross u v <> vzero -> vdot u v * vdot u v < vdot u u * vdot v v.
Proof. intros H. pose proof (lagrange u v). pose proof (vdot_nonzero _ H). lra. Qed.
Lemma vcross_nonzero_l u v : vcross u v <> vzero -> u <> vzero.
Proof. intros H ->. apply H. vdes; vunf. f_equal; ring. Qed.
Lemma vcross_nonzero_r u v : vcross u v <> vzero -> v <> vzero.
Proof. intros H ->. apply H. vdes; vunf. f_equal; ring. Qed.
Lemma vdot_cross_l u v : vdot u (vcross u v) = 0.
Proof. vdes; vunf. ring. Qed.
Lemma vdot_cross_r u v : vdot v (vcross u v) = 0.
Proof. vdes; vunf. ring. Qed.
Lemma vdot_comm u v : vdot u v = vdot v u.
Proof. vdes; vunf. ring. Qed.
Lemma vcross_anti u v : vcross v u = vmult (-1) (vcross u v).
Proof. vdes; vunf. f_equal; ring. Qed.
Lemma vnorm_mult k v : vnorm (vmult k v) = Rabs k * vnorm v.
Proof.
  unfold vnorm. replace (vdot (vmult k v) (vmult k v)) with (Rsqr k * vdot v v).
  - rewrite sqrt_mult; [|apply Rle_0_sqr|apply vdot_pos]. now rewrite sqrt_Rsqr_abs.
  - vdes; vunf. unfold Rsqr. ring.
Qed.

(** Linear combinations. *)
Definition vcomb (f : R) (u : rvec) (g : R) (v : rvec) : rvec := vplus (vmult f u) (vmult g v).
Lemma vcomb_sq f u g v :
  vdot (vcomb f u g v) (vcomb f u g v)
  = f * f * vdot u u + 2 * f * g * vdot u v + g * g * vdot v v.
Proof. unfold vcomb; vdes; vunf; ring. Qed.
Lemma vcomb_dot f u g v f' g' :
  vdot (vcomb f u g v) (vcomb f' u g' v)
  = f * f' * vdot u u + (f * g' + g * f') * vdot u v + g * g' * vdot v v.
Proof. unfold vcomb; vdes; vunf; ring. Qed.
Lemma vcross_comb_r f u g v : vcross u (vcomb f u g v) = vmult g (vcross u v).
Proof. unfold vcomb; vdes; vunf; f_equal; ring. Qed.
Lemma vcross_comb_l f u g v : vcross (vcomb f u g v) v = vmult f (vcross u v).
Proof. unfold vcomb; vdes; vunf; f_equal; ring. Qed.
Lemma vcross_comb f u g v f' g' :
  vcross (vcomb f u g v) (vcomb f' u g' v) = vmult (f * g' - g * f') (vcross u v).
Proof. unfold vcomb; vdes; vunf; f_equal; ring. Qed.
Lemma vmult_zero k v : vmult k v = vzero -> v <> vzero -> k = 0.
Proof.
  intros H Hv. destruct (Req_EM_T k 0) as [|Hk]; [assumption|]. exfalso. apply Hv.
  destruct v as [a b c]; vunf. injection H; intros. f_equal; nra.
Qed.
Lemma vcross_zero_l v : vcross vzero v = vzero.
Proof. vdes; vunf; f_equal; ring. Qed.
Lemma vcross_zero_r v : vcross v vzero = vzero.
Proof. vdes; vunf; f_equal; ring. Qed.
Lemma vcomb_1_0 u v : vcomb 1 u 0 v = u.
Proof. unfold vcomb; vdes; vunf; f_equal; ring. Qed.
Lemma vcomb_0_1 u v : vcomb 0 u 1 v = v.
Proof. unfold vcomb; vdes; vunf; f_equal; ring. Qed.
Lemma vmult_mult k l v : vmult k (vmult l v) = vmult (k * l) v.
Proof. vdes; vunf; f_equal; ring. Qed.
Lemma vmult_1 v : vmult 1 v = v.
Proof. vdes; vunf; f_equal; ring. Qed.
Lemma vmult_0 v : vmult 0 v = vzero.
Proof. vdes; vunf; f_equal; ring. Qed.
Lemma vdot_mult_r u k v : vdot u (vmult k v) = k * vdot u v.
Proof. vdes; vunf; ring. Qed.
Lemma vdot_mult_l u k v : vdot (vmult k u) v = k * vdot u v.
Proof. vdes; vunf; ring. Qed.
