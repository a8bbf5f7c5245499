(** * C27 for arora2013: derivatives of W and of the time of flight, Halley's step. *)
From Coq Require Import String ZArith List Bool Lia Reals Lra Psatz.
From Coquelicot Require Import Coquelicot.
From Verif Require Import Num XReal XRealLemmas MApi Loops MScipy MArora RDerive LambertUV LambertRev LambertZ UniversalKepler DelatorreXR DerXR StumpffSmooth AroraW
  PropertiesArora PropertiesDerivIzzo.
Local Open Scope R_scope.

(** ** Closed forms *)
Definition Ge (M : Z) (s : R) : R := (2 * s - sin (2 * s) + 2 * PI * IZR M) / (2 * sqrt 2 * (sin s * sin s * sin s)).
Definition We (M : Z) (k : R) : R := Ge M (acos (k / sqrt 2)).
Definition Gh (s : R) : R := (sinh (2 * s) - 2 * s) / (2 * sqrt 2 * (sinh s * sinh s * sinh s)).
Definition Wh (k : R) : R := Gh (arcosh (k / sqrt 2)).
Definition Dw (W k : R) : R := (- (2) + 3 * W * k) / (2 - k * k).
Definition D2w (W k : R) : R := (5 * Dw W k * k + 3 * W) / (2 - k * k).

Lemma k_over k : - sqrt 2 < k < sqrt 2 -> -1 < k / sqrt 2 < 1.
Proof.
  destruct sqrt2_facts as [W1 W2]. intros H. split; apply Rmult_lt_reg_r with (sqrt 2); try assumption;
    unfold Rdiv; rewrite Rmult_assoc, Rinv_l by lra; lra.
Qed.

Lemma ell_s k : - sqrt 2 < k < sqrt 2 -> let s := acos (k / sqrt 2) in 0 < s < PI /\ k = sqrt 2 * cos s /\ 0 < sin s.
Proof.
  intros H s. destruct sqrt2_facts as [W1 W2]. pose proof (k_over k H) as K.
  assert (C : cos s = k / sqrt 2) by (apply cos_acos; lra).
  destruct (acos_bound (k / sqrt 2)) as [A1 A2]. fold s in A1, A2.
  assert (S1 : 0 < s) by (destruct A1 as [|E]; [assumption|exfalso; rewrite <- E, cos_0 in C; lra]).
  assert (S2 : s < PI) by (destruct A2 as [|E]; [assumption|exfalso; rewrite E, cos_PI in C; lra]).
  split; [lra|]. split; [rewrite C; field; lra|]. apply sin_gt_0; assumption.
Qed.

Lemma Ge_derive M s : 0 < sin s ->
  is_derive (Ge M) s ((4 * (sin s * sin s * sin s) - 3 * cos s * (2 * s - sin (2 * s) + 2 * PI * IZR M)) / (2 * sqrt 2 * (sin s * sin s * sin s * sin s))).
Proof.
  intros S. destruct sqrt2_facts as [W1 W2].
  assert (P3 : 0 < sin s * sin s * sin s) by (apply Rmult_lt_0_compat; [apply Rmult_lt_0_compat|]; assumption).
  assert (DS : is_derive sin s (cos s)) by (apply is_derive_Reals, derivable_pt_lim_sin).
  assert (D2 : is_derive (fun s => sin (2 * s)) s (2 * cos (2 * s))).
  { eapply rd_eq; [apply (rd_comp sin (fun s => 2 * s)); [apply is_derive_Reals, derivable_pt_lim_sin|rd_step idtac]|]. req. ring. }
  unfold Ge. eapply rd_eq; [rd_step ltac:(idtac; first [exact DS|exact D2])|].
  { apply Rgt_not_eq. apply Rmult_lt_0_compat; lra. }
  req. rewrite cos_2a_sin. field. split; lra.
Qed.

Lemma We_derive M k : - sqrt 2 < k < sqrt 2 -> is_derive (We M) k (Dw (We M k) k).
Proof.
  intros H. destruct sqrt2_facts as [W1 W2]. destruct (ell_s k H) as (S1 & S2 & S3). pose proof (k_over k H) as K.
  assert (DA : is_derive (fun k => acos (k / sqrt 2)) k (- / (sqrt 2 * sin (acos (k / sqrt 2))))).
  { eapply rd_eq; [apply (rd_comp acos (fun k => k / sqrt 2)); [apply acos_derive; exact K|rd_step idtac; lra]|].
    assert (E : sqrt (1 - k / sqrt 2 * (k / sqrt 2)) = sin (acos (k / sqrt 2))).
    { rewrite sin_acos by lra. reflexivity. }
    req. rewrite E. field. split; lra. }
  unfold We at 1. eapply rd_eq; [apply (rd_comp (Ge M) (fun k => acos (k / sqrt 2))); [apply Ge_derive; exact S3|exact DA]|].
  req. unfold Dw, We, Ge. set (s := acos (k / sqrt 2)) in *. clearbody s. clear DA K.
  pose proof (sin2_cos2 s) as SC. unfold Rsqr in SC.
  assert (M2 : 2 - k * k = 2 * (sin s * sin s)).
  { rewrite S2. transitivity (2 - (sqrt 2 * sqrt 2) * (cos s * cos s)); [ring|]. rewrite W2. lra. }
  rewrite M2. set (N := 2 * s - sin (2 * s) + 2 * PI * IZR M). clearbody N. rewrite S2 at 1.
  set (q := sqrt 2) in *. clearbody q. set (n := sin s) in *. set (c := cos s) in *. clearbody n c. clear S2 M2 H S1 SC.
  transitivity ((4 * (n * n * n) - 3 * c * N) * (- / (2 * (q * q) * (n * n * n * n * n)))); [field; split; lra|]. rewrite W2. field. split; lra.
Qed.

Lemma Gh_derive s : 0 < sinh s ->
  is_derive Gh s ((4 * (sinh s * sinh s * sinh s) - 3 * cosh s * (sinh (2 * s) - 2 * s)) / (2 * sqrt 2 * (sinh s * sinh s * sinh s * sinh s))).
Proof.
  intros S. destruct sqrt2_facts as [W1 W2].
  assert (P3 : 0 < sinh s * sinh s * sinh s) by (apply Rmult_lt_0_compat; [apply Rmult_lt_0_compat|]; assumption).
  assert (DS : is_derive sinh s (cosh s)) by (apply is_derive_Reals, derivable_pt_lim_sinh).
  assert (D2 : is_derive (fun s => sinh (2 * s)) s (2 * cosh (2 * s))).
  { eapply rd_eq; [apply (rd_comp sinh (fun s => 2 * s)); [apply is_derive_Reals, derivable_pt_lim_sinh|rd_step idtac]|]. req. ring. }
  unfold Gh. eapply rd_eq; [rd_step ltac:(idtac; first [exact DS|exact D2])|].
  { apply Rgt_not_eq. apply Rmult_lt_0_compat; lra. }
  req. rewrite cosh_double. field. split; lra.
Qed.

Lemma arcosh_derive x : 1 < x -> is_derive arcosh x (/ sqrt (x * x - 1)).
Proof.
  intros H. assert (Q : 0 < x * x - 1) by nra. destruct (sqrt_facts _ Q) as [Q1 Q2].
  unfold arcosh. eapply is_derive_ext; [intros t; replace (t ^ 2 - 1) with (t * t - 1) by ring; reflexivity|].
  eapply rd_eq; [apply (rd_comp ln (fun x => x + sqrt (x * x - 1))); [apply is_derive_Reals, derivable_pt_lim_ln; lra|rd_step idtac; lra]|].
  req. field. split; lra.
Qed.

Lemma hyp_s k : sqrt 2 < k -> let s := arcosh (k / sqrt 2) in 0 < s /\ k = sqrt 2 * cosh s /\ 0 < sinh s /\ 1 < k / sqrt 2.
Proof.
  intros H s. destruct sqrt2_facts as [W1 W2].
  assert (K : 1 < k / sqrt 2) by (apply Rmult_lt_reg_r with (sqrt 2); [assumption|]; unfold Rdiv; rewrite Rmult_assoc, Rinv_l by lra; lra).
  destruct (cosh_arcosh (k / sqrt 2)) as [C P]; [lra|]. fold s in C, P.
  assert (S : 0 < s) by (destruct P as [|E]; [assumption|exfalso; rewrite <- E, cosh_0 in C; lra]).
  split; [exact S|]. split; [rewrite C; field; lra|]. split; [|exact K]. pose proof (sinh_ge s). lra.
Qed.

Lemma Wh_derive k : sqrt 2 < k -> is_derive Wh k (Dw (Wh k) k).
Proof.
  intros H. destruct sqrt2_facts as [W1 W2]. destruct (hyp_s k H) as (S1 & S2 & S3 & K).
  assert (DA : is_derive (fun k => arcosh (k / sqrt 2)) k (/ (sqrt 2 * sinh (arcosh (k / sqrt 2))))).
  { eapply rd_eq; [apply (rd_comp arcosh (fun k => k / sqrt 2)); [apply arcosh_derive; exact K|rd_step idtac; lra]|].
    assert (E : sinh (arcosh (k / sqrt 2)) = sqrt (k / sqrt 2 * (k / sqrt 2) - 1)) by (apply (sinh_arcosh (1 / 2)); lra).
    rewrite <- E. req. field. split; lra. }
  unfold Wh at 1. eapply rd_eq; [apply (rd_comp Gh (fun k => arcosh (k / sqrt 2))); [apply Gh_derive; exact S3|exact DA]|].
  req. unfold Dw, Wh, Gh. set (s := arcosh (k / sqrt 2)) in *. clearbody s. clear DA K.
  pose proof (cosh_sinh_sq s) as SC.
  assert (M2 : 2 - k * k = - (2 * (sinh s * sinh s))).
  { rewrite S2. transitivity (2 - (sqrt 2 * sqrt 2) * (cosh s * cosh s)); [ring|]. rewrite W2. lra. }
  rewrite M2. set (N := sinh (2 * s) - 2 * s). clearbody N. rewrite S2 at 1.
  set (q := sqrt 2) in *. clearbody q. set (n := sinh s) in *. set (c := cosh s) in *. clearbody n c. clear S2 M2 H S1 SC.
  transitivity ((4 * (n * n * n) - 3 * c * N) * (/ (2 * (q * q) * (n * n * n * n * n)))); [field; split; lra|]. rewrite W2. field. split; lra.
Qed.

(** Both closed forms satisfy the same differential equation, which gives the
    second derivative. *)
Lemma Dw_derive W k : 2 - k * k <> 0 -> is_derive W k (Dw (W k) k) -> is_derive (fun k => Dw (W k) k) k (D2w (W k) k).
Proof.
  intros H D. unfold Dw at 1. eapply rd_eq; [rd_step ltac:(idtac; exact D); exact H|]. req. unfold D2w, Dw. field. exact H.
Qed.

(** ** The code's W, pieced together *)
Definition Wser2 (k : R) : R :=
  let v := k - sqrt 2 in
  sqrt 2 * (4 / 35) - v * (12 / 63) + sqrt 2 * (v * v) * (24 / 231) - v * (v * v) * (40 / 429)
  + sqrt 2 * (v * (v * (v * v))) * (240 / 6435) - v * (v * (v * (v * v))) * (336 / 12155)
  + sqrt 2 * (v * (v * (v * (v * (v * v))))) * (448 / 46189).
Lemma Wser'_derive k : is_derive Wser' k (Wser2 k).
Proof. unfold Wser', Wser2. rd idtac. field. Qed.

Definition piece (M : Z) (e h : R -> R) (p : R -> R) (k : R) : R :=
  if Z_lt_dec 0 M then e k else if Rlt_dec k (sqrt 2 - 1 / 50) then e k else if Rlt_dec (sqrt 2 + 1 / 50) k then h k else p k.
Definition aroW (M : Z) := piece M (We M) Wh Wser.
Definition aroW1 (M : Z) := piece M (fun k => Dw (We M k) k) (fun k => Dw (Wh k) k) Wser'.
Definition aroW2 (M : Z) := piece M (fun k => D2w (We M k) k) (fun k => D2w (Wh k) k) Wser2.

(** Values of [k] inside one of the ranges of the code. *)
Definition aro_domain (M : Z) (k : R) : Prop :=
  - sqrt 2 < k /\ ((0 < M)%Z -> k < sqrt 2) /\ (M = 0%Z -> k <> sqrt 2 - 1 / 50 /\ k <> sqrt 2 + 1 / 50).

Lemma piece_derive M e h p e' h' p' k : (0 <= M)%Z -> aro_domain M k ->
  (- sqrt 2 < k < sqrt 2 -> is_derive e k (e' k)) -> (sqrt 2 < k -> is_derive h k (h' k)) -> is_derive p k (p' k) ->
  is_derive (piece M e h p) k (piece M e' h' p' k).
Proof.
  intros HM (K1 & K2 & K3) De Dh Dp. unfold piece. destruct (Z_lt_dec 0 M) as [L|L].
  - apply De. split; [exact K1|auto].
  - assert (M = 0%Z) by lia. destruct (K3 H) as [N1 N2].
    destruct (Rlt_dec k (sqrt 2 - 1 / 50)) as [A|A].
    + eapply is_derive_ext_loc; [|apply De; lra]. generalize (open_lt (sqrt 2 - 1 / 50) k A). apply filter_imp. intros t Ht.
      destruct (Rlt_dec t (sqrt 2 - 1 / 50)); [reflexivity|lra].
    + assert (A' : sqrt 2 - 1 / 50 < k) by lra. pose proof (open_gt (sqrt 2 - 1 / 50) k A') as O1.
      destruct (Rlt_dec (sqrt 2 + 1 / 50) k) as [B|B].
      * eapply is_derive_ext_loc; [|apply Dh; lra]. generalize (open_gt (sqrt 2 + 1 / 50) k B). apply filter_imp. intros t Ht.
        destruct (Rlt_dec t (sqrt 2 - 1 / 50)); [lra|]. destruct (Rlt_dec (sqrt 2 + 1 / 50) t); [reflexivity|lra].
      * assert (B' : k < sqrt 2 + 1 / 50) by lra. pose proof (open_lt (sqrt 2 + 1 / 50) k B') as O2.
        eapply is_derive_ext_loc; [|apply Dp]. generalize (filter_and _ _ O1 O2). apply filter_imp. intros t [Ht1 Ht2].
        destruct (Rlt_dec t (sqrt 2 - 1 / 50)); [lra|]. destruct (Rlt_dec (sqrt 2 + 1 / 50) t); [lra|reflexivity].
Qed.

Lemma m_nz k : - sqrt 2 < k -> k <> sqrt 2 -> 2 - k * k <> 0.
Proof. destruct sqrt2_facts as [W1 W2]. intros H1 H2 Z. assert ((sqrt 2 - k) * (sqrt 2 + k) = 0) by nra. apply Rmult_integral in H. lra. Qed.

Lemma aroW_derive M k : (0 <= M)%Z -> aro_domain M k -> is_derive (aroW M) k (aroW1 M k) /\ is_derive (aroW1 M) k (aroW2 M k).
Proof.
  intros HM D. pose proof D as (K1 & _). split; apply piece_derive; auto.
  - apply We_derive.
  - apply Wh_derive.
  - apply Wser_derive.
  - intros H. apply Dw_derive; [apply m_nz; lra|]. now apply We_derive.
  - intros H. apply Dw_derive; [apply m_nz; lra|]. now apply Wh_derive.
  - apply Wser'_derive.
Qed.

(** ** The model computes these functions *)
Lemma aro_eps_F : @aro_eps XR = Fin (1 / 50).
Proof. unfold aro_eps. xunf. f_equal. field. Qed.

Lemma aro_W_elliptic_F k M : - sqrt 2 < k < sqrt 2 -> @aro_W_elliptic XR (Fin k) M = Fin (We M k).
Proof.
  intros H. destruct sqrt2_facts as [W1 W2]. destruct (ell_s k H) as (S1 & S2 & S3).
  unfold aro_W_elliptic. destruct (xsign_cases k) as (g & EG & G1 & G0 & G2). rewrite EG. cbv zeta.
  assert (P : 0 < 2 - k * k) by nra.
  assert (P3 : 0 < (2 - k * k) * (2 - k * k) * (2 - k * k)) by (apply Rmult_lt_0_compat; [apply Rmult_lt_0_compat|]; assumption).
  assert (P4 : sqrt ((2 - k * k) * (2 - k * k) * (2 - k * k)) <> 0) by (apply Rgt_not_eq, sqrt_lt_R0; assumption).
  unfold sq, cube. xunf. cbn [xmul xsub xadd xlift2]. rewrite xacos_F by nra. rewrite xsqrt_F by lra. cbn [xmul xsub xadd xlift2].
  rewrite !xdiv_F by lra. cbn [xmul xsub xadd xlift2]. f_equal. unfold We, Ge. apply (W_closed_ell k _ M S1 S2 g G1 G0 G2).
Qed.

Lemma aro_W_hyperbolic_F k : sqrt 2 < k -> @aro_W_hyperbolic XR (Fin k) = Fin (Wh k).
Proof.
  intros H. destruct sqrt2_facts as [W1 W2]. destruct (hyp_s k H) as (S1 & S2 & S3 & S4).
  assert (P : 0 < k * k - 2) by nra.
  assert (P3 : 0 < - ((2 - k * k) * (2 - k * k) * (2 - k * k))).
  { replace (- ((2 - k * k) * (2 - k * k) * (2 - k * k))) with ((k * k - 2) * (k * k - 2) * (k * k - 2)) by ring.
    apply Rmult_lt_0_compat; [apply Rmult_lt_0_compat|]; assumption. }
  assert (P4 : sqrt (- ((2 - k * k) * (2 - k * k) * (2 - k * k))) <> 0) by (apply Rgt_not_eq, sqrt_lt_R0; assumption).
  unfold aro_W_hyperbolic. cbv zeta. unfold sq, cube. xunf. cbn [xmul xsub xadd xopp xlift1 xlift2]. rewrite xacosh_F by nra. rewrite xsqrt_F by lra.
  cbn [xmul xsub xadd xopp xlift1 xlift2]. rewrite !xdiv_F by lra. cbn [xmul xsub xadd xlift2]. f_equal. unfold Wh, Gh. apply (W_closed_hyp k _ S1 S2).
Qed.

Lemma aro_Wsprime_F k : @aro_Wsprime XR (Fin k) = Fin (Wser' k).
Proof.
  unfold aro_Wsprime. rewrite aro_sq2_F. xunf. rewrite !xdiv_F by lra.
  cbn [npown]. cbn [nmul XR xmul xsub xadd xopp xlift1 xlift2]. rewrite xdiv_F by lra. cbn [xsub xadd xlift2]. unfold Wser'. reflexivity.
Qed.
Lemma aro_Ws2prime_F k : @aro_Ws2prime XR (Fin k) = Fin (Wser2 k).
Proof.
  unfold aro_Ws2prime. rewrite aro_sq2_F. xunf. rewrite !xdiv_F by lra.
  cbn [npown]. cbn [nmul XR xmul xsub xadd xopp xlift1 xlift2]. unfold Wser2. reflexivity.
Qed.

Ltac bdec := repeat first
  [ match goal with |- context [@nleb XR ?a ?b] => first
      [replace (@nleb XR a b) with true by (symmetry; xunf; cbn [xsub xadd xopp xlift1 xlift2]; apply xleb_F; lra)
      |replace (@nleb XR a b) with false by (symmetry; xunf; cbn [xsub xadd xopp xlift1 xlift2]; apply xleb_Ff; lra)] end
  | match goal with |- context [@nltb XR ?a ?b] => first
      [replace (@nltb XR a b) with true by (symmetry; xunf; cbn [xsub xadd xopp xlift1 xlift2]; apply xltb_F; lra)
      |replace (@nltb XR a b) with false by (symmetry; xunf; cbn [xsub xadd xopp xlift1 xlift2]; apply xltb_Ff; lra)] end ].

Lemma aro_W_F M k : (0 <= M)%Z -> aro_domain M k -> @aro_W XR (Fin k) M = Ok (Fin (aroW M k)).
Proof.
  intros HM (K1 & K2 & K3). destruct sqrt2_facts as [W1 W2]. unfold aro_W, aroW, piece. rewrite aro_sq2_F, aro_eps_F.
  destruct (Z_lt_dec 0 M) as [L|L].
  - specialize (K2 L). replace (0 <? M)%Z with true by (symmetry; now apply Z.ltb_lt).
    replace (@nleb XR (@nopp XR (Fin (sqrt 2))) (Fin k)) with true by (symmetry; xunf; cbn [xopp xlift1]; apply xleb_F; lra).
    replace (@nltb XR (Fin k) (Fin (sqrt 2))) with true by (symmetry; apply xltb_F; lra). cbn [andb]. rewrite orb_true_r.
    rewrite aro_W_elliptic_F by lra. reflexivity.
  - assert (M = 0%Z) by lia. destruct (K3 H) as [N1 N2]. subst M. cbn [Z.ltb Z.eqb Z.compare andb]. rewrite orb_false_r.
    destruct (Rlt_dec k (sqrt 2 - 1 / 50)) as [A|A]; [bdec; cbn [andb]; rewrite aro_W_elliptic_F by lra; reflexivity|].
    destruct (Rlt_dec (sqrt 2 + 1 / 50) k) as [B|B]; bdec; cbn [andb]; [rewrite aro_W_hyperbolic_F by lra|rewrite aro_W_series_F]; reflexivity.
Qed.

Lemma Dw_F k W : 2 - k * k <> 0 ->
  @ndiv XR (@nadd XR (@nopp XR (nofZ 2)) (@nmul XR (@nmul XR (nofZ 3) (Fin W)) (Fin k))) (@nsub XR (nofZ 2) (@sq XR (Fin k))) = Fin (Dw W k).
Proof. intros H. unfold sq. xunf. cbn [xmul xsub xadd xopp xlift1 xlift2]. rewrite xdiv_F by assumption. reflexivity. Qed.

Lemma D2w_F k W : 2 - k * k <> 0 ->
  @ndiv XR (@nadd XR (@nmul XR (@nmul XR (nofZ 5) (Fin (Dw W k))) (Fin k)) (@nmul XR (nofZ 3) (Fin W))) (@nsub XR (nofZ 2) (@sq XR (Fin k))) = Fin (D2w W k).
Proof. intros H. unfold sq. xunf. cbn [xmul xsub xadd xopp xlift1 xlift2]. rewrite xdiv_F by assumption. reflexivity. Qed.

Lemma aro_Wprime_F M k : (0 <= M)%Z -> aro_domain M k -> @aro_Wprime XR (Fin k) (Fin (aroW M k)) M = Fin (aroW1 M k).
Proof.
  intros HM (K1 & K2 & K3). destruct sqrt2_facts as [W1 W2]. unfold aro_Wprime, aroW, aroW1, piece. rewrite aro_sq2_F, aro_eps_F. cbv zeta.
  destruct (Z_lt_dec 0 M) as [L|L].
  - specialize (K2 L). replace (0 <? M)%Z with true by (symmetry; now apply Z.ltb_lt).
    replace (@nltb XR (Fin k) (Fin (sqrt 2))) with true by (symmetry; apply xltb_F; lra). cbn [andb]. rewrite orb_true_r.
    apply Dw_F. apply m_nz; lra.
  - assert (M = 0%Z) by lia. destruct (K3 H) as [N1 N2]. subst M. cbn [Z.ltb Z.eqb Z.compare andb]. rewrite orb_false_r.
    destruct (Rlt_dec k (sqrt 2 - 1 / 50)) as [A|A]; [bdec; apply Dw_F, m_nz; lra|].
    destruct (Rlt_dec (sqrt 2 + 1 / 50) k) as [B|B]; bdec; cbn [andb]; [apply Dw_F, m_nz; lra|apply aro_Wsprime_F].
Qed.

Lemma aro_W2prime_F M k : (0 <= M)%Z -> aro_domain M k -> @aro_W2prime XR (Fin k) (Fin (aroW M k)) (Fin (aroW1 M k)) M = Fin (aroW2 M k).
Proof.
  intros HM (K1 & K2 & K3). destruct sqrt2_facts as [W1 W2]. unfold aro_W2prime, aroW, aroW1, aroW2, piece. rewrite aro_sq2_F, aro_eps_F. cbv zeta.
  destruct (Z_lt_dec 0 M) as [L|L].
  - specialize (K2 L). replace (0 <? M)%Z with true by (symmetry; now apply Z.ltb_lt).
    replace (@nltb XR (Fin k) (Fin (sqrt 2))) with true by (symmetry; apply xltb_F; lra). cbn [andb]. rewrite orb_true_r.
    apply D2w_F. apply m_nz; lra.
  - assert (M = 0%Z) by lia. destruct (K3 H) as [N1 N2]. subst M. cbn [Z.ltb Z.eqb Z.compare andb]. rewrite orb_false_r.
    destruct (Rlt_dec k (sqrt 2 - 1 / 50)) as [A|A]; [bdec; apply D2w_F, m_nz; lra|].
    destruct (Rlt_dec (sqrt 2 + 1 / 50) k) as [B|B]; bdec; cbn [andb]; [apply D2w_F, m_nz; lra|apply aro_Ws2prime_F].
Qed.

(** ** The time of flight *)
Section Time.
Context (M : Z) (HM : (0 <= M)%Z) (tau S : R) (Ht : tau <> 0).
Let W := aroW M.
Definition aroT (k : R) : R := S * sqrt (1 - k * tau) * (tau + (1 - k * tau) * aroW M k).
Definition aroT1 (k : R) : R :=
  let c := (1 - k * tau) / tau in - aroT k / (2 * c) + S * tau * sqrt (1 - k * tau) * (aroW1 M k * c - aroW M k).
Definition aroT2 (k : R) : R :=
  let c := (1 - k * tau) / tau in
  - aroT k / (4 * (c * c)) + S * tau * sqrt (1 - k * tau) * (aroW M k / c + c * aroW2 M k - 3 * aroW1 M k).

Lemma aroT_derive k : aro_domain M k -> 0 < 1 - k * tau -> is_derive aroT k (aroT1 k).
Proof.
  intros D U. destruct (aroW_derive M k HM D) as [D1 _]. destruct (sqrt_facts _ U) as [Q1 Q2].
  unfold aroT at 1. eapply rd_eq; [rd_step ltac:(idtac; exact D1); lra|]. req. unfold aroT1, aroT.
  set (q := sqrt (1 - k * tau)) in *. clearbody q. set (w := aroW M k). set (w1 := aroW1 M k). clearbody w w1. rewrite <- Q2.
  field. repeat split; lra.
Qed.

Lemma aroT1_derive k : aro_domain M k -> 0 < 1 - k * tau -> is_derive aroT1 k (aroT2 k).
Proof.
  intros D U. destruct (aroW_derive M k HM D) as [D1 D2]. pose proof (aroT_derive k D U) as D3. destruct (sqrt_facts _ U) as [Q1 Q2].
  unfold aroT1 at 1. cbv zeta. eapply rd_eq; [rd_step ltac:(idtac; first [exact D1|exact D2|exact D3])| ].
  all: try assumption.
  { intros Z. assert (1 - k * tau = 0); [|lra]. apply Rmult_eq_reg_r with (2 / tau); [|apply Rmult_integral_contrapositive_currified; [lra|now apply Rinv_neq_0_compat]].
    rewrite Rmult_0_l, <- Z. field. assumption. }
  req. unfold aroT2, aroT1, aroT.
  set (q := sqrt (1 - k * tau)) in *. clearbody q. set (w := aroW M k). set (w1 := aroW1 M k). set (w2 := aroW2 M k). clearbody w w1 w2. cbv zeta. rewrite <- Q2.
  field. repeat split; lra.
Qed.
End Time.

(** ** The step of the loop *)
Lemma aro_TOF_F M tau S k : 0 < 1 - k * tau ->
  @aro_TOF XR (Fin k) (Fin tau) (Fin S) (Fin (aroW M k)) = Fin (aroT M tau S k).
Proof. intros H. unfold aro_TOF. xunf. cbn [xmul xsub xlift2]. rewrite xsqrt_F by lra. reflexivity. Qed.

(** The formulas arora2013 uses for the first and second derivative of W and of
    the time of flight with respect to [k] are these derivatives, everywhere
    inside the three ranges (ellipse, series, hyperbola), and the update is
    Halley's step for the equation [T k = tof].  [aro_bound] is the code's
    clamping of the new iterate. *)
Theorem C27_arora_derivatives : forall (M : Z) (tau S : R), (0 <= M)%Z -> tau <> 0 ->
  exists W W' W'' T T' T'' : R -> R, forall k : R,
    - sqrt 2 < k -> ((0 < M)%Z -> k < sqrt 2) -> (M = 0%Z -> k <> sqrt 2 - 1 / 50 /\ k <> sqrt 2 + 1 / 50) ->
    @aro_W XR (Fin k) M = Ok (Fin (W k)) /\
    is_derive W k (W' k) /\ is_derive W' k (W'' k) /\
    @aro_Wprime XR (Fin k) (Fin (W k)) M = Fin (W' k) /\
    @aro_W2prime XR (Fin k) (Fin (W k)) (Fin (W' k)) M = Fin (W'' k) /\
    (0 < 1 - k * tau ->
      @aro_TOF XR (Fin k) (Fin tau) (Fin S) (Fin (W k)) = Fin (T k) /\
      is_derive T k (T' k) /\ is_derive T' k (T'' k) /\
      forall dpos tof tof_p atol n, T' k <> 0 ->
        T' k - (T k - tof) * T'' k / (2 * T' k) <> 0 ->
        @aro_body XR dpos (Fin tof) (Fin tof_p) (Fin tau) (Fin S) M (Fin atol) n (Fin k) =
          if Rle_dec (Rabs (tof - T k)) atol then Break (n, Fin k)
          else Next (@aro_bound XR dpos (Fin tof) (Fin tof_p) (Fin tau)
                 (Fin (k - (T k - tof) / (T' k - (T k - tof) * T'' k / (2 * T' k)))))).
Proof.
  intros M tau S HM Ht. exists (aroW M), (aroW1 M), (aroW2 M), (aroT M tau S), (aroT1 M tau S), (aroT2 M tau S).
  intros k K1 K2 K3. assert (D : aro_domain M k) by (repeat split; try assumption; now apply K3).
  destruct (aroW_derive M k HM D) as [D1 D2].
  split; [now apply aro_W_F|]. split; [exact D1|]. split; [exact D2|].
  split; [now apply aro_Wprime_F|]. split; [now apply aro_W2prime_F|]. intros U.
  split; [now apply aro_TOF_F|]. split; [now apply aroT_derive|]. split; [now apply aroT1_derive|].
  intros dpos tof tof_p atol n N1 N2. unfold aro_body. rewrite aro_W_F by assumption.
  rewrite aro_Wprime_F, aro_W2prime_F, aro_TOF_F by assumption. cbv zeta.
  assert (C : @nleb XR (@nabs XR (@nsub XR (Fin tof) (Fin (aroT M tau S k)))) (Fin atol) = if Rle_dec (Rabs (tof - aroT M tau S k)) atol then true else false)
    by reflexivity.
  rewrite C. destruct (Rle_dec _ _) as [_|_]; [reflexivity|]. clear C.
  set (c := (1 - k * tau) / tau).
  assert (Hc : c <> 0) by (apply Rmult_integral_contrapositive_currified; [lra|now apply Rinv_neq_0_compat]).
  assert (EC : @ndiv XR (@nsub XR (nofZ 1) (@nmul XR (Fin k) (Fin tau))) (Fin tau) = Fin c).
  { xunf. cbn [xmul xsub xlift2]. now rewrite xdiv_F. }
  rewrite EC. assert (ECT : c * tau = 1 - k * tau) by (unfold c; field; assumption).
  assert (Hcc : c * c <> 0) by now apply Rmult_integral_contrapositive_currified.
  assert (E1 : @nadd XR (@ndiv XR (@nopp XR (Fin (aroT M tau S k))) (@nmul XR (nofZ 2) (Fin c)))
      (@nmul XR (@nmul XR (@nmul XR (Fin S) (Fin tau)) (@nsqrt XR (@nmul XR (Fin c) (Fin tau)))) (@nsub XR (@nmul XR (Fin (aroW1 M k)) (Fin c)) (Fin (aroW M k))))
    = Fin (aroT1 M tau S k)).
  { xunf. cbn [xmul xsub xadd xopp xlift1 xlift2]. rewrite ECT. rewrite xdiv_F by lra. rewrite xsqrt_F by lra. reflexivity. }
  assert (E2 : @nadd XR (@ndiv XR (@nopp XR (Fin (aroT M tau S k))) (@nmul XR (nofZ 4) (@sq XR (Fin c))))
      (@nmul XR (@nmul XR (@nmul XR (Fin S) (Fin tau)) (@nsqrt XR (@nmul XR (Fin c) (Fin tau))))
        (@nsub XR (@nadd XR (@ndiv XR (Fin (aroW M k)) (Fin c)) (@nmul XR (Fin c) (Fin (aroW2 M k)))) (@nmul XR (nofZ 3) (Fin (aroW1 M k)))))
    = Fin (aroT2 M tau S k)).
  { unfold sq. xunf. cbn [xmul xsub xadd xopp xlift1 xlift2]. rewrite ECT. rewrite !xdiv_F by lra. rewrite xsqrt_F by lra. reflexivity. }
  rewrite E1, E2. do 2 f_equal. clear E1 E2 EC. xunf. cbn [xmul xsub xadd xopp xlift1 xlift2].
  rewrite (xdiv_F _ (2 * _)) by lra. cbn [xsub xlift2]. rewrite xdiv_F by assumption. cbn [xadd xlift2]. f_equal. unfold Rdiv. ring.
Qed.
Print Assumptions C27_arora_derivatives.

(** A case: the parabola [k = sqrt 2] with [tau = 1/2], where the time falls with
    [k], so that the step is defined for a request of exactly that time. *)
Example C27_arora_case : let k := sqrt 2 in aro_domain 0 k /\ 0 < 1 - k * (1 / 2) /\
  aroT1 0 (1 / 2) 1 k <> 0 /\ aroT1 0 (1 / 2) 1 k - (aroT 0 (1 / 2) 1 k - aroT 0 (1 / 2) 1 k) * aroT2 0 (1 / 2) 1 k / (2 * aroT1 0 (1 / 2) 1 k) <> 0.
Proof.
  intros k. destruct sqrt2_facts as [W1 W2]. assert (B : 1.4 < k < 1.5) by (unfold k; nra).
  assert (D : aro_domain 0 k) by (unfold aro_domain; fold k; repeat split; intros; lra || lia).
  split; [exact D|]. split; [lra|].
  assert (EW : aroW 0 k = sqrt 2 / 3).
  { unfold aroW, piece. destruct (Z_lt_dec 0 0) as [L|_]; [lia|]. destruct (Rlt_dec k _) as [L|_]; [unfold k in L; lra|].
    destruct (Rlt_dec _ k) as [L|_]; [unfold k in L; lra|]. unfold Wser, k. cbv zeta. replace (sqrt 2 - sqrt 2) with 0 by ring. field. }
  assert (EW1 : aroW1 0 k = - 1 / 5).
  { unfold aroW1, piece. destruct (Z_lt_dec 0 0) as [L|_]; [lia|]. destruct (Rlt_dec k _) as [L|_]; [unfold k in L; lra|].
    destruct (Rlt_dec _ k) as [L|_]; [unfold k in L; lra|]. unfold Wser', k. cbv zeta. replace (sqrt 2 - sqrt 2) with 0 by ring. field. }
  assert (Q : 0 < sqrt (1 - k * (1 / 2))) by (apply sqrt_lt_R0; lra).
  assert (N : aroT1 0 (1 / 2) 1 k < 0).
  { unfold aroT1, aroT. rewrite EW, EW1. fold k. set (q := sqrt (1 - k * (1 / 2))) in *.
    assert (P : 0 < 1 * q * (1 / 2 + (1 - k * (1 / 2)) * (k / 3))) by (apply Rmult_lt_0_compat; nra).
    assert (0 < 1 * q * (1 / 2 + (1 - k * (1 / 2)) * (k / 3)) / (2 * ((1 - k * (1 / 2)) / (1 / 2)))) by (apply Rdiv_lt_0_compat; lra).
    unfold Rdiv in *. nra. }
  split; [lra|]. rewrite (Rminus_diag_eq (aroT 0 (1 / 2) 1 k)) by reflexivity. unfold Rdiv. rewrite !Rmult_0_l, Rminus_0_r. lra.
Qed.
