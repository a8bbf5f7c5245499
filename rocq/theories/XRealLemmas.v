(** * Inversion and computation lemmas for [XR]. *)
From Coq Require Import Reals ZArith Bool Lra Lia.
From Coquelicot Require Import Coquelicot.
From Verif Require Import Num XReal.
Local Open Scope R_scope.

Lemma Fin_inj a b : Fin a = Fin b -> a = b.
Proof. congruence. Qed.

(** ** Inversion *)
Lemma xlift1_inv f x r : xlift1 f x = Fin r -> exists a, x = Fin a /\ r = f a.
Proof. destruct x; simpl; [intros H; inversion H; eauto | discriminate]. Qed.
Lemma xlift2_inv f x y r :
  xlift2 f x y = Fin r -> exists a b, x = Fin a /\ y = Fin b /\ r = f a b.
Proof. destruct x, y; simpl; try discriminate. intros H; inversion H; eauto 6. Qed.
Lemma xpart1_inv P dec f x r :
  @xpart1 P dec f x = Fin r -> exists a, x = Fin a /\ P a /\ r = f a.
Proof.
  destruct x; simpl; [|discriminate]. destruct (dec r0); [|discriminate].
  intros H; inversion H; eauto.
Qed.

Lemma xadd_inv x y r : xadd x y = Fin r -> exists a b, x = Fin a /\ y = Fin b /\ r = a + b.
Proof. apply xlift2_inv. Qed.
Lemma xsub_inv x y r : xsub x y = Fin r -> exists a b, x = Fin a /\ y = Fin b /\ r = a - b.
Proof. apply xlift2_inv. Qed.
Lemma xmul_inv x y r : xmul x y = Fin r -> exists a b, x = Fin a /\ y = Fin b /\ r = a * b.
Proof. apply xlift2_inv. Qed.
Lemma xdiv_inv x y r :
  xdiv x y = Fin r -> exists a b, x = Fin a /\ y = Fin b /\ b <> 0 /\ r = a / b.
Proof.
  destruct x, y; simpl; try discriminate. destruct (Req_EM_T r1 0); [discriminate|].
  intros H; inversion H; eauto 7.
Qed.
Lemma xopp_inv x r : xopp x = Fin r -> exists a, x = Fin a /\ r = - a.
Proof. apply xlift1_inv. Qed.
Lemma xabs_inv x r : xabs x = Fin r -> exists a, x = Fin a /\ r = Rabs a.
Proof. apply xlift1_inv. Qed.
Lemma xsqrt_inv x r : xsqrt x = Fin r -> exists a, x = Fin a /\ 0 <= a /\ r = sqrt a.
Proof. apply xpart1_inv. Qed.
Lemma xln_inv x r : xln x = Fin r -> exists a, x = Fin a /\ 0 < a /\ r = ln a.
Proof. apply xpart1_inv. Qed.
Lemma xtan_inv x r : xtan x = Fin r -> exists a, x = Fin a /\ cos a <> 0 /\ r = tan a.
Proof. apply xpart1_inv. Qed.
Lemma xacos_inv x r : xacos x = Fin r -> exists a, x = Fin a /\ -1 <= a <= 1 /\ r = acos a.
Proof. apply xpart1_inv. Qed.
Lemma xasin_inv x r : xasin x = Fin r -> exists a, x = Fin a /\ -1 <= a <= 1 /\ r = asin a.
Proof. apply xpart1_inv. Qed.
Lemma xacosh_inv x r : xacosh x = Fin r -> exists a, x = Fin a /\ 1 <= a /\ r = arcosh a.
Proof. apply xpart1_inv. Qed.
Lemma xatanh_inv x r : xatanh x = Fin r -> exists a, x = Fin a /\ -1 < a < 1 /\ r = artanh a.
Proof. apply xpart1_inv. Qed.
Lemma xpow_inv x y r :
  xpow x y = Fin r ->
  exists a b, x = Fin a /\ y = Fin b /\
    ((0 < a /\ r = Rpower a b) \/ (a = 0 /\ 0 < b /\ r = 0)).
Proof.
  destruct x, y; simpl; try discriminate.
  destruct (Rlt_dec 0 r0); [intros H; inversion H; eauto 8|].
  destruct (Req_EM_T r0 0); [|discriminate].
  destruct (Rlt_dec 0 r1); [|discriminate]. intros H; inversion H; eauto 10.
Qed.
Lemma xmod_inv x y r :
  xmod x y = Fin r ->
  exists a b, x = Fin a /\ y = Fin b /\ b <> 0 /\ r = a - b * Rfloor (a / b).
Proof.
  destruct x, y; simpl; try discriminate. destruct (Req_EM_T r1 0); [discriminate|].
  intros H; inversion H; eauto 7.
Qed.

(** ** Comparisons *)
Lemma xltb_true x y : xltb x y = true -> exists a b, x = Fin a /\ y = Fin b /\ a < b.
Proof. destruct x, y; simpl; try discriminate. destruct (Rlt_dec r r0); [eauto 6|discriminate]. Qed.
Lemma xleb_true x y : xleb x y = true -> exists a b, x = Fin a /\ y = Fin b /\ a <= b.
Proof. destruct x, y; simpl; try discriminate. destruct (Rle_dec r r0); [eauto 6|discriminate]. Qed.
Lemma xeqb_true x y : xeqb x y = true -> exists a, x = Fin a /\ y = Fin a.
Proof. destruct x, y; simpl; try discriminate. destruct (Req_EM_T r r0); [subst; eauto|discriminate]. Qed.
Lemma xltb_F a b : xltb (Fin a) (Fin b) = true <-> a < b.
Proof. simpl. destruct (Rlt_dec a b); split; intros; try lra; discriminate. Qed.
Lemma xleb_F a b : xleb (Fin a) (Fin b) = true <-> a <= b.
Proof. simpl. destruct (Rle_dec a b); split; intros; try lra; discriminate. Qed.
Lemma xeqb_F a b : xeqb (Fin a) (Fin b) = true <-> a = b.
Proof. simpl. destruct (Req_EM_T a b); split; intros; try lra; discriminate. Qed.
Lemma xltb_Ff a b : xltb (Fin a) (Fin b) = false <-> b <= a.
Proof. simpl. destruct (Rlt_dec a b); split; intros; try lra; discriminate. Qed.
Lemma xleb_Ff a b : xleb (Fin a) (Fin b) = false <-> b < a.
Proof. simpl. destruct (Rle_dec a b); split; intros; try lra; discriminate. Qed.
Lemma xeqb_Ff a b : xeqb (Fin a) (Fin b) = false <-> a <> b.
Proof. simpl. destruct (Req_EM_T a b); split; intros; try lra; try discriminate; congruence. Qed.

(** ** Computation *)
Lemma xdiv_F a b : b <> 0 -> xdiv (Fin a) (Fin b) = Fin (a / b).
Proof. intros; simpl. destruct (Req_EM_T b 0); [contradiction|reflexivity]. Qed.
Lemma xsqrt_F a : 0 <= a -> xsqrt (Fin a) = Fin (sqrt a).
Proof. intros; unfold xsqrt, xpart1. destruct (Rle_dec 0 a); [reflexivity|contradiction]. Qed.
Lemma xln_F a : 0 < a -> xln (Fin a) = Fin (ln a).
Proof. intros; unfold xln, xpart1. destruct (Rlt_dec 0 a); [reflexivity|contradiction]. Qed.
Lemma xtan_F a : cos a <> 0 -> xtan (Fin a) = Fin (tan a).
Proof. intros; unfold xtan, xpart1. destruct (tan_dom_dec a); [reflexivity|contradiction]. Qed.
Lemma xacos_F a : -1 <= a <= 1 -> xacos (Fin a) = Fin (acos a).
Proof. intros; unfold xacos, xpart1. destruct (unit_dec a); [reflexivity|contradiction]. Qed.
Lemma xasin_F a : -1 <= a <= 1 -> xasin (Fin a) = Fin (asin a).
Proof. intros; unfold xasin, xpart1. destruct (unit_dec a); [reflexivity|contradiction]. Qed.
Lemma xacosh_F a : 1 <= a -> xacosh (Fin a) = Fin (arcosh a).
Proof. intros; unfold xacosh, xpart1. destruct (Rle_dec 1 a); [reflexivity|contradiction]. Qed.
Lemma xatanh_F a : -1 < a < 1 -> xatanh (Fin a) = Fin (artanh a).
Proof. intros; unfold xatanh, xpart1. destruct (open_unit_dec a); [reflexivity|contradiction]. Qed.
Lemma xpow_F a b : 0 < a -> xpow (Fin a) (Fin b) = Fin (Rpower a b).
Proof. intros; simpl. destruct (Rlt_dec 0 a); [reflexivity|contradiction]. Qed.
Lemma xpow_0 b : 0 < b -> xpow (Fin 0) (Fin b) = Fin 0.
Proof.
  intros; simpl. destruct (Rlt_dec 0 0); [lra|].
  destruct (Req_EM_T 0 0); [|lra]. destruct (Rlt_dec 0 b); [reflexivity|contradiction].
Qed.
(** [x ** 0.5] is the square root. *)
Lemma xpow_half a : 0 <= a -> xpow (Fin a) (Fin (1 / 2)) = Fin (sqrt a).
Proof.
  intros [H|<-].
  - rewrite xpow_F by assumption. f_equal.
    replace (1 / 2) with (/ 2) by field. apply Rpower_sqrt; assumption.
  - rewrite xpow_0 by lra. now rewrite sqrt_0.
Qed.
Lemma xpow_half_inv x b r :
  b = 1 / 2 -> xpow x (Fin b) = Fin r -> exists a, x = Fin a /\ 0 <= a /\ r = sqrt a.
Proof.
  intros -> H. destruct (xpow_inv _ _ _ H) as (a & b & -> & Hb & _).
  inversion Hb; subst b.
  destruct (Rle_dec 0 a) as [Ha|Ha].
  - rewrite xpow_half in H by assumption. inversion H. eauto.
  - simpl in H. destruct (Rlt_dec 0 a); [lra|]. destruct (Req_EM_T a 0); [lra|discriminate].
Qed.
Lemma xmod_F a b : b <> 0 -> xmod (Fin a) (Fin b) = Fin (a - b * Rfloor (a / b)).
Proof. intros; simpl. destruct (Req_EM_T b 0); [contradiction|reflexivity]. Qed.

(** ** Limits *)
Lemma xlim_is_lim u v l :
  (forall n, u n = Fin (v n)) -> is_lim_seq v (Finite l) -> xlim u = Fin l.
Proof.
  intros Hu Hl. unfold xlim. destruct (LPO _ _) as [[n Hn]|_].
  - rewrite Hu in Hn. discriminate.
  - assert (E : forall n, xget (u n) = v n) by (intros n; now rewrite Hu).
    destruct (ex_finite_lim_seq_dec _) as [_|Hn].
    + f_equal. rewrite (Lim_seq_ext _ _ E). now rewrite (is_lim_seq_unique _ _ Hl).
    + destruct Hn. exists l. apply is_lim_seq_ext with v; auto.
Qed.
Lemma xlim_fin u l :
  xlim u = Fin l ->
  (forall n, u n = Fin (xget (u n))) /\ is_lim_seq (fun n => xget (u n)) (Finite l).
Proof.
  unfold xlim. destruct (LPO _ _) as [_|Hn]; [discriminate|].
  destruct (ex_finite_lim_seq_dec _) as [[l' Hl]|_]; [|discriminate].
  intros H. inversion H. split.
  - intros n. specialize (Hn n). destruct (u n); [reflexivity|now destruct Hn].
  - now rewrite (is_lim_seq_unique _ _ Hl).
Qed.

(** ** Tactics *)

(** Unfold the operations of [XR] (only). *)
Ltac xunf :=
  cbn [num nofZ nlit nadd nsub nmul ndiv nopp nabs neqb nltb nleb nisfinite npi
       nsqrt npow nexp nln ncos nsin ntan nacos nasin natan natan2 ncosh nsinh
       ntanh nacosh nasinh natanh nfloor nmod nuntil_stable XR
       vx vy vz vmap vmap2 vall vadd vsub vopp vscale vdivs sq cube] in *.

Ltac xclean :=
  repeat match goal with
  | H : Fin _ = Fin ?b |- _ => apply Fin_inj in H; try (is_var b; subst b)
  | H : NaN = Fin _ |- _ => discriminate H
  | H : Fin _ = NaN |- _ => discriminate H
  | H : exists _, _ |- _ => destruct H
  | H : _ /\ _ |- _ => destruct H
  | H : ?x = Fin _ |- _ => is_var x; subst x
  end.

(** Break [expr = Fin r] hypotheses down to their leaves. *)
Ltac xinv1 :=
  match goal with
  | H : xadd _ _ = Fin _ |- _ => apply xadd_inv in H
  | H : xsub _ _ = Fin _ |- _ => apply xsub_inv in H
  | H : xmul _ _ = Fin _ |- _ => apply xmul_inv in H
  | H : xdiv _ _ = Fin _ |- _ => apply xdiv_inv in H
  | H : xopp _ = Fin _ |- _ => apply xopp_inv in H
  | H : xabs _ = Fin _ |- _ => apply xabs_inv in H
  | H : xsqrt _ = Fin _ |- _ => apply xsqrt_inv in H
  | H : xln _ = Fin _ |- _ => apply xln_inv in H
  | H : xtan _ = Fin _ |- _ => apply xtan_inv in H
  | H : xacos _ = Fin _ |- _ => apply xacos_inv in H
  | H : xasin _ = Fin _ |- _ => apply xasin_inv in H
  | H : xacosh _ = Fin _ |- _ => apply xacosh_inv in H
  | H : xatanh _ = Fin _ |- _ => apply xatanh_inv in H
  | H : xpow _ (Fin (1 / 2)) = Fin _ |- _ => apply (xpow_half_inv _ _ _ eq_refl) in H
  | H : xmod _ _ = Fin _ |- _ => apply xmod_inv in H
  | H : xlift1 _ _ = Fin _ |- _ => apply xlift1_inv in H
  | H : xlift2 _ _ _ = Fin _ |- _ => apply xlift2_inv in H
  | H : xltb (Fin _) (Fin _) = true |- _ => apply xltb_F in H
  | H : xleb (Fin _) (Fin _) = true |- _ => apply xleb_F in H
  | H : xeqb (Fin _) (Fin _) = true |- _ => apply xeqb_F in H
  | H : xltb (Fin _) (Fin _) = false |- _ => apply xltb_Ff in H
  | H : xleb (Fin _) (Fin _) = false |- _ => apply xleb_Ff in H
  | H : xeqb (Fin _) (Fin _) = false |- _ => apply xeqb_Ff in H
  | H : xltb _ _ = true |- _ => apply xltb_true in H
  | H : xleb _ _ = true |- _ => apply xleb_true in H
  | H : xeqb _ _ = true |- _ => apply xeqb_true in H
  end.
Ltac xinv := xclean; repeat (xinv1; xclean).

(** Evaluate an [XR] expression whose leaves are finite; side conditions are
    left as goals (after an attempt with [tac]). *)
Ltac xeval_with tac :=
  repeat first
    [ rewrite xdiv_F by tac
    | rewrite xsqrt_F by tac
    | rewrite xln_F by tac
    | rewrite xtan_F by tac
    | rewrite xacos_F by tac
    | rewrite xasin_F by tac
    | rewrite xacosh_F by tac
    | rewrite xatanh_F by tac
    | rewrite xpow_half by tac
    | rewrite xpow_F by tac
    | progress cbn [xadd xsub xmul xopp xabs xlift1 xlift2] ].

Lemma vfin_eta (v : vec xr) a b c :
  vx v = Fin a -> vy v = Fin b -> vz v = Fin c -> v = vfin (V3 a b c).
Proof. destruct v; cbn. now intros -> -> ->. Qed.
