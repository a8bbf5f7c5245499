(** * The vector operations of the model on finite real vectors. *)
From Coq Require Import Reals ZArith Bool Lra Lia Psatz.
From Coquelicot Require Import Coquelicot.
From Verif Require Import Num XReal XRealLemmas MLinalg Spec VecFacts.
Local Open Scope R_scope.

Lemma nlit_half : 1 / 2 = / 2.
Proof. field. Qed.

Lemma dot_F u v : @dot XR (vfin u) (vfin v) = Fin (vdot u v).
Proof. reflexivity. Qed.
Lemma cross_F u v : @cross XR (vfin u) (vfin v) = vfin (vcross u v).
Proof. reflexivity. Qed.
Lemma norm_F u : @norm XR (vfin u) = Fin (vnorm u).
Proof.
  unfold norm. rewrite dot_F. xunf. apply xpow_half. apply vdot_pos.
Qed.
Lemma vsub_F u v : @vsub XR (vfin u) (vfin v) = vfin (vminus u v).
Proof. reflexivity. Qed.
Lemma vadd_F u v : @vadd XR (vfin u) (vfin v) = vfin (vplus u v).
Proof. reflexivity. Qed.
Lemma vscale_F k v : @vscale XR (Fin k) (vfin v) = vfin (vmult k v).
Proof. reflexivity. Qed.
Lemma vopp_F v : @vopp XR (vfin v) = vfin (vmult (-1) v).
Proof. destruct v; unfold vopp, vfin, vmap, vmult; cbn. now f_equal; f_equal; ring. Qed.
Lemma vdivs_F v k : k <> 0 -> @vdivs XR (vfin v) (Fin k) = vfin (vmult (/ k) v).
Proof.
  intros. destruct v; unfold vdivs, vfin, vmap, vmult; xunf. rewrite !xdiv_F by assumption.
  f_equal; f_equal; unfold Rdiv; ring.
Qed.
Lemma vfin_inj u v : vfin u = vfin v -> u = v.
Proof. destruct u, v; unfold vfin, vmap; cbn. congruence. Qed.

(** Division of a vector by something yields finite components only if the
    divisor is finite and non-zero. *)
Lemma vdivs_inv v k w :
  @vdivs XR v k = vfin w -> exists k', k = Fin k' /\ k' <> 0.
Proof.
  destruct v, w; unfold vdivs, vfin, vmap; xunf. intros H; inversion H.
  xinv. eauto.
Qed.
Lemma vnan_ext (w : vec xr) :
  (exists u, w = vfin u) \/ vx w = NaN \/ vy w = NaN \/ vz w = NaN.
Proof.
  destruct w as [[a|] [b|] [c|]]; cbn; auto. left. exists (V3 a b c). reflexivity.
Qed.

Ltac vF := repeat first
  [ rewrite dot_F | rewrite cross_F | rewrite norm_F | rewrite vsub_F | rewrite vadd_F
  | rewrite vscale_F | rewrite vopp_F ].
