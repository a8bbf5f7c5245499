(** * The zero-revolution time of flight strictly increases with [z]. *)
From Coq Require Import Reals ZArith Lra Lia Psatz.
From Coquelicot Require Import Coquelicot.
From Verif Require Import Num Spec VecFacts UniversalKepler LambertUV LambertRev RDerive StumpffXR DelatorreXR StumpffSmooth.
Local Open Scope R_scope.

(** ** Auxiliary inequalities *)
Lemma pos_from_derive (f f' : R -> R) X :
  0 < X -> f 0 = 0 -> (forall x, 0 <= x <= X -> is_derive f x (f' x)) ->
  (forall x, 0 < x <= X -> 0 < f' x) -> 0 < f X.
Proof.
  intros HX H0 Hd Hp.
  destruct (MVT_gen f 0 X (fun x => if Req_EM_T x 0 then 1 else f' x)) as (c & Hc & E).
  - intros x Hx. rewrite Rmin_left, Rmax_right in Hx by lra.
    destruct (Req_EM_T x 0); [lra|]. apply Hd. lra.
  - intros x Hx. rewrite Rmin_left, Rmax_right in Hx by lra.
    apply continuity_pt_filterlim. apply (ex_derive_continuous f). exists (f' x). now apply Hd.
  - rewrite Rmin_left, Rmax_right in Hc by lra. rewrite H0, Rminus_0_r in E. rewrite E.
    apply Rmult_lt_0_compat; [|lra]. destruct (Req_EM_T c 0); [lra|]. apply Hp. lra.
Qed.

Lemma sign_sq a : (a = 1 \/ a = -1) -> a * a = 1. Proof. intros [-> | ->]; ring. Qed.

Section Aux.
Variables (a : R) (X : R).
Hypothesis (Ha : a = 1 \/ a = -1) (HX : 0 < X) (HX1 : a = 1 -> X < PI).
Notation s := (U1 a). Notation c := (U0 a).

Lemma aa : a * a = 1. Proof. exact (sign_sq a Ha). Qed.
Lemma cs_sq x : c x * c x + a * (s x * s x) = 1.
Proof. rewrite U1_sq, U0_U2. ring. Qed.
Lemma cs_pos x : 0 < x <= X -> 0 < s x /\ 0 < 1 + c x /\ 0 < a * (1 - c x).
Proof.
  intros Hx. unfold U0, U1. destruct Ha as [E|E]; rewrite E in *.
  - destruct (Rlt_dec 0 1); [|lra]. rewrite sqrt_1, Rmult_1_l. specialize (HX1 eq_refl).
    assert (0 < sin x) by (apply sin_gt_0; lra). pose proof (sin2_cos2 x) as Q. unfold Rsqr in Q.
    split; [lra|]. split; nra.
  - destruct (Rlt_dec 0 (-1)); [lra|]. destruct (Rlt_dec (-1) 0); [|lra].
    replace (- -1) with 1 by ring. rewrite sqrt_1, Rmult_1_l.
    assert (0 < sinh x) by (apply sinh_pos; lra).
    pose proof (cosh_sinh_sq x) as Q. assert (0 < cosh x) by (unfold cosh; pose proof (exp_pos x); pose proof (exp_pos (-x)); lra).
    split; [lra|]. split; nra.
Qed.
Definition ee x := a * (x - s x * c x).
Ltac us := idtac; lazymatch goal with
  | |- is_derive (U1 _) _ _ => apply U1_derive
  | |- is_derive (U0 _) _ _ => apply U0_derive
  | |- is_derive (fun y => U1 _ y) _ _ => apply U1_derive
  | |- is_derive (fun y => U0 _ y) _ _ => apply U0_derive
  end.
Lemma ee_derive x : is_derive ee x (2 * (s x * s x)).
Proof.
  unfold ee. pose proof (cs_sq x) as Q. pose proof aa as Q2. rd us. cbv beta.
  replace (c x * c x) with (1 - a * (s x * s x)) by lra.
  transitivity (2 * (a * a) * (s x * s x)); [ring|]. rewrite Q2. ring.
Qed.
Ltac ue := idtac; lazymatch goal with
  | |- is_derive ee _ _ => apply ee_derive
  | |- is_derive (fun y => ee y) _ _ => apply ee_derive
  | _ => us end.
Lemma U0_0 : c 0 = 1. Proof. apply U_at_0. Qed.
Lemma U1_0 : s 0 = 0. Proof. apply U_at_0. Qed.
Lemma ee_pos x : 0 < x <= X -> 0 < ee x.
Proof.
  intros Hx. apply (pos_from_derive ee (fun x => 2 * (s x * s x))); try lra.
  - unfold ee. rewrite U1_0. ring.
  - intros. apply ee_derive.
  - intros y Hy. destruct (cs_pos y) as [P _]; [lra|]. nra.
Qed.
(** The derivative of [k] is positive. *)
Lemma aux1 : 0 < a * (2 * (s X * s X * s X) - 3 * ee X * c X).
Proof.
  apply (pos_from_derive (fun x => a * (2 * (s x * s x * s x) - 3 * ee x * c x)) (fun x => 3 * (ee x * s x))); try lra.
  - rewrite U1_0. unfold ee. rewrite U1_0. ring.
  - intros x _. pose proof aa as Q2.
    rd ue. cbv beta. transitivity (3 * (a * a) * (ee x * s x)); [ring|rewrite Q2; ring].
  - intros x Hx. destruct (cs_pos x) as [P _]; [lra|]. pose proof (ee_pos x Hx). nra.
Qed.
Lemma aux2 : 0 < 3 * ee X - 2 * a * (s X * (1 - c X)).
Proof.
  apply (pos_from_derive (fun x => 3 * ee x - 2 * a * (s x * (1 - c x))) (fun x => a * (1 - c x) * (4 + 2 * c x))); try lra.
  - unfold ee. rewrite U1_0. ring.
  - intros x _. pose proof (cs_sq x) as Q. pose proof aa as Q2.
    rd ue. cbv beta.
    assert (Es : s x * s x = a * (1 - c x * c x)) by (replace (1 - c x * c x) with (a * (s x * s x)) by lra; rewrite <- Rmult_assoc, Q2; ring).
    transitivity (6 * (s x * s x) - 2 * (a * a) * (s x * s x) - 2 * a * (c x * (1 - c x))); [ring|].
    rewrite Q2, Es. ring.
  - intros x Hx. destruct (cs_pos x) as (P1 & P2 & P3); [lra|]. apply Rmult_lt_0_compat; lra.
Qed.
Lemma aux3 : 0 < 4 * (s X * (1 - c X)) - 3 * a * ee X + s X * ((1 - c X) * (1 - c X)) / (1 + c X).
Proof.
  apply (pos_from_derive (fun x => 4 * (s x * (1 - c x)) - 3 * a * ee x + s x * ((1 - c x) * (1 - c x)) / (1 + c x))
    (fun x => (1 - c x) * (1 - c x) / (1 + c x))); try lra.
  - unfold ee. rewrite U1_0. unfold Rdiv. ring.
  - intros x Hx.
    assert (P : 1 + c x <> 0).
    { destruct (Req_dec x 0) as [->|]; [rewrite U0_0; lra|]. destruct (cs_pos x) as (_ & P & _); lra. }
    pose proof (cs_sq x) as Q. pose proof aa as Q2.
    rd ue; [exact P|]. cbv beta.
    assert (Es : a * (s x * s x) = 1 - c x * c x) by lra.
    set (u := s x) in *. set (v := c x) in *. set (w := ee x) in *. clearbody u v w.
    transitivity (4 * (v * (1 - v)) - 2 * (a * (u * u)) +
      ((v * ((1 - v) * (1 - v)) + 2 * (a * (u * u)) * (1 - v)) * (1 + v) + (a * (u * u)) * ((1 - v) * (1 - v))) / ((1 + v) * (1 + v))).
    + field. assumption.
    + rewrite Es. field. assumption.
  - intros x Hx. destruct (cs_pos x) as (P1 & P2 & P3); [lra|]. apply Rdiv_lt_0_compat; [|assumption].
    assert (1 - c x <> 0) by (intros E; rewrite E in P3; lra). nra.
Qed.
End Aux.

(** ** In terms of [z] *)
Lemma z_forms a x : (a = 1 \/ a = -1) -> 0 < x ->
  C0 (a * (x * x)) = U0 a x /\ S1 (a * (x * x)) = U1 a x / x /\
  S3 (4 * (a * (x * x))) = ee a x / (4 * (x * x * x)).
Proof.
  intros Ha Hx. pose proof (sign_sq a Ha) as Q2.
  assert (E0 : C0 (a * (x * x)) = U0 a x) by (rewrite C0_S2, U0_U2, U2_scale by assumption; ring).
  assert (E1 : S1 (a * (x * x)) = U1 a x / x) by (rewrite U1_scale by assumption; field; lra).
  split; [assumption|]. split; [assumption|].
  assert (E3 : U1 a (2 * x) = 2 * U1 a x * U0 a x).
  { rewrite (U1_scale a (2 * x)) by lra. replace (a * (2 * x * (2 * x))) with (4 * (a * (x * x))) by ring.
    rewrite S1_double, E0, E1. field. lra. }
  rewrite U1_U3 in E3. rewrite (U3_scale a (2 * x)) in E3 by lra.
  replace (a * (2 * x * (2 * x))) with (4 * (a * (x * x))) in E3 by ring.
  set (w := S3 (4 * (a * (x * x)))) in *. unfold ee.
  assert (E4 : a * (a * (2 * x * (2 * x) * (2 * x) * w)) = a * (2 * x - 2 * U1 a x * U0 a x)) by (f_equal; lra).
  rewrite <- Rmult_assoc, Q2 in E4.
  assert (Px : 0 < x * x * x) by (repeat apply Rmult_lt_0_compat; lra).
  apply Rmult_eq_reg_r with (4 * (x * x * x)); [|lra].
  replace (a * (x - U1 a x * U0 a x) / (4 * (x * x * x)) * (4 * (x * x * x))) with (a * (x - U1 a x * U0 a x)) by (field; lra). lra.
Qed.

Lemma z_split z : z <> 0 -> z < PI * PI -> exists a x, (a = 1 \/ a = -1) /\ 0 < x /\ (a = 1 -> x < PI) /\ z = a * (x * x).
Proof.
  intros H0 H. destruct (Rlt_dec 0 z) as [P|P].
  - exists 1, (sqrt z). destruct (sqrt_below_PI z P H). rewrite sqrt_sqrt by lra. repeat split; auto; lra.
  - exists (-1), (sqrt (- z)). assert (0 < sqrt (- z)) by (apply sqrt_lt_R0; lra). rewrite sqrt_sqrt by lra.
    repeat split; auto; lra.
Qed.

(** Derivative of [S3 (4 z)] off zero. *)
Lemma cS_shift k z : cS k z = 1 / INR (fact k) - z * cS (2 + k) z.
Proof.
  assert (L : forall m, is_lim_seq (ser m (- z)) (cS m z)).
  { intros m. apply is_lim_seq_ext with (sum_n (fun n => sa m n * z ^ n)).
    - intros n. rewrite sum_n_Reals. unfold ser. apply sum_eq. intros i _. unfold sa.
      replace (- z) with (-1 * z) by ring. rewrite Rpow_mult_distr. unfold Rdiv. ring.
    - apply (is_pseries_R (sa m) z (cS m z)). apply cS_pseries. }
  { assert (L1 : is_lim_seq (fun n => ser k (- z) (S n)) (cS k z)) by (apply (is_lim_seq_incr_1 (ser k (- z))), L).
    assert (L2 : is_lim_seq (fun n => ser k (- z) (S n)) (1 / INR (fact k) - z * cS (2 + k) z)).
    { apply is_lim_seq_ext with (fun n => 1 / INR (fact k) + - z * ser (2 + k) (- z) n); [intros; now rewrite ser_shift|].
      replace (1 / INR (fact k) - z * cS (2 + k) z) with (1 / INR (fact k) + - z * cS (2 + k) z) by ring.
      apply (is_lim_seq_plus' _ _ (1 / INR (fact k)) (- z * cS (2 + k) z)); [apply is_lim_seq_const|].
      apply (is_lim_seq_scal_l _ (- z) (Finite (cS (2 + k) z))), L. }
    apply is_lim_seq_unique in L1. apply is_lim_seq_unique in L2. rewrite L1 in L2. congruence. }
Qed.
Lemma S3_derive z : z <> 0 -> is_derive S3 z ((S2 z - 3 * S3 z) / (2 * z)).
Proof.
  intros Hz. apply (rd_ext (cS 3)); [intros; symmetry; apply S3_cS|].
  eapply rd_eq; [apply cS_derive|]. req. rewrite S2_cS, S3_cS, (cS_shift 2), (cS_shift 3).
  change (2 + 2)%nat with 4%nat. change (2 + 3)%nat with 5%nat. change (3 + 2)%nat with 5%nat. change (3 + 1)%nat with 4%nat.
  replace (INR (fact 2)) with 2 by (simpl; ring). replace (INR (fact 3)) with 6 by (simpl; ring).
  replace (INR 3) with 3 by (simpl; ring). field. assumption.
Qed.
Lemma S1_derive' z : z <> 0 -> is_derive S1 z ((C0 z - S1 z) / (2 * z)).
Proof.
  intros Hz. eapply rd_eq; [apply S1_derive|]. req. rewrite C0_S2. unfold S1. field. assumption.
Qed.

Definition kz (z : R) : R := S3 (4 * z) / (S1 z * S1 z * S1 z).
Definition kz' (z : R) : R := (S1 z * S1 z * S1 z - 6 * S3 (4 * z) * C0 z) / (4 * z * (S1 z * S1 z * S1 z * S1 z)).
Lemma kz_derive z : z <> 0 -> S1 z <> 0 -> is_derive kz z (kz' z).
Proof.
  intros Hz H1. unfold kz.
  assert (D3 : is_derive (fun y => S3 (4 * y)) z (4 * ((S2 (4 * z) - 3 * S3 (4 * z)) / (2 * (4 * z))))).
  { eapply rd_eq; [apply (rd_comp S3 (fun y => 4 * y))|].
    - apply S3_derive. lra.
    - rd idtac. reflexivity.
    - req. ring. }
  pose proof (S1_derive' z Hz) as D1.
  eapply rd_eq; [apply (rd_div (fun y => S3 (4 * y)) (fun y => S1 y * S1 y * S1 y)); [exact D3|rd_step ltac:(exact D1)|]|].
  - repeat apply Rmult_integral_contrapositive_currified; assumption.
  - cbv beta. req. rewrite S2_double. unfold kz'. set (u := S1 z) in *. set (v := C0 z). set (w := S3 (4 * z)). field. split; assumption.
Qed.
Lemma kz_continuous z : S1 z <> 0 -> continuity_pt kz z.
Proof.
  intros H1. destruct (S3_ex_derive (4 * z)) as [d D].
  eapply rd_continuous. unfold kz.
  apply (rd_div (fun y => S3 (4 * y)) (fun y => S1 y * S1 y * S1 y)).
  - apply (rd_comp S3 (fun y => 4 * y)); [exact D|]. rd idtac. reflexivity.
  - rd_step ltac:(apply S1_derive).
  - repeat apply Rmult_integral_contrapositive_currified; assumption.
Qed.

(** The three facts behind monotonicity. *)
Lemma k_facts z : z <> 0 -> z < PI * PI ->
  0 < S1 z /\ 0 < 1 + C0 z /\ 0 < kz z /\ 0 < kz' z /\ 1 / (1 + C0 z) < 6 * kz z /\
  0 < 2 * kz' z - 3 / 2 * S1 z * kz z / (1 + C0 z) + S1 z / 8 / ((1 + C0 z) * (1 + C0 z)).
Proof.
  intros H0 H. destruct (z_split z H0 H) as (a & x & Ha & Hx & Hpi & ->).
  destruct (z_forms a x Ha Hx) as (E0 & E1 & E3). unfold kz', kz. rewrite E0, E1, E3.
  destruct (cs_pos a x Ha Hpi x) as (P1 & P2 & P3); [lra|].
  pose proof (ee_pos a x Ha Hpi x) as Pe. pose proof (aux1 a x Ha Hx Hpi) as A1.
  pose proof (aux2 a x Ha Hx Hpi) as A2. pose proof (aux3 a x Ha Hx Hpi) as A3.
  pose proof (cs_sq a x) as Q. pose proof (sign_sq a Ha) as Q2.
  specialize (Pe ltac:(lra)).
  set (s := U1 a x) in *. set (c := U0 a x) in *. set (e := ee a x) in *. clearbody s c e.
  assert (Px : 0 < x * x * x) by (repeat apply Rmult_lt_0_compat; lra).
  assert (Ps : 0 < s * s * s) by (repeat apply Rmult_lt_0_compat; lra).
  assert (Es : s * s = a * ((1 - c) * (1 + c))).
  { replace ((1 - c) * (1 + c)) with (a * (s * s)) by lra. rewrite <- Rmult_assoc, Q2. ring. }
  assert (Hax : a <> 0) by lra.
  split; [now apply Rdiv_lt_0_compat|]. split; [assumption|].
  assert (Ek : e / (4 * (x * x * x)) / (s / x * (s / x) * (s / x)) = e / (4 * (s * s * s))) by (field; lra).
  assert (Ek' : (s / x * (s / x) * (s / x) - 6 * (e / (4 * (x * x * x))) * c) /
    (4 * (a * (x * x)) * (s / x * (s / x) * (s / x) * (s / x))) =
    (a * a) * (2 * (s * s * s) - 3 * e * c) / (a * 8 * x * (s * s * s * s))).
  { rewrite Q2. field. repeat split; lra. }
  rewrite Ek, Ek'. 
  assert (Ek2 : a * a * (2 * (s * s * s) - 3 * e * c) / (a * 8 * x * (s * s * s * s)) =
    a * (2 * (s * s * s) - 3 * e * c) / (8 * x * (s * s * s * s))) by (field; repeat split; lra).
  rewrite Ek2. clear Ek Ek' Ek2.
  assert (Ps4 : 0 < s * s * s * s) by (apply Rmult_lt_0_compat; lra).
  split; [apply Rdiv_lt_0_compat; lra|].
  split; [apply Rdiv_lt_0_compat; [assumption|]; apply Rmult_lt_0_compat; lra|].
  split.
  - apply Rmult_lt_reg_r with (4 * (s * s * s) * (1 + c)); [apply Rmult_lt_0_compat; lra|].
    replace (1 / (1 + c) * (4 * (s * s * s) * (1 + c))) with (4 * (s * s * s)) by (field; lra).
    replace (6 * (e / (4 * (s * s * s))) * (4 * (s * s * s) * (1 + c))) with (6 * e * (1 + c)) by (field; lra).
    assert (E : s * s * s = a * (s * (1 - c)) * (1 + c)) by (rewrite Es; ring). rewrite E. nra.
  - match goal with |- 0 < ?goal => replace goal with
      ((1 + c) * (4 * (s * (1 - c)) - 3 * a * e + s * ((1 - c) * (1 - c)) / (1 + c)) / (8 * x * (s * s * s * s))) end.
    + apply Rdiv_lt_0_compat; [apply Rmult_lt_0_compat; assumption|]. apply Rmult_lt_0_compat; lra.
    + transitivity ((2 * a * (2 * s * (s * s) - 3 * e * c) - 3 * e * (s * s) / (1 + c) + s * (s * s) * (s * s) / ((1 + c) * (1 + c))) / (8 * x * (s * s * s * s))).
      2:{ field. repeat split; lra. }
      set (d := 8 * x * (s * s * s * s)). f_equal. clearbody d. rewrite Es.
      transitivity ((a * a) * 4 * s * ((1 - c) * (1 + c)) - 6 * a * e * c - 3 * a * e * (1 - c) + (a * a) * s * ((1 - c) * (1 - c))).
      * rewrite Q2. field. lra.
      * field. lra.
Qed.

(** ** Monotonicity *)
Definition Gz (P Q z : R) : R := 2 * ((P - Q * C0 z) * sqrt (P - Q * C0 z)) * kz z + Q / 2 * sqrt (P - Q * C0 z).
Definition Gz' (P Q z : R) : R :=
  let V := P - Q * C0 z in
  (2 * kz' z * (V * V) + 3 / 2 * S1 z * kz z * V * Q + S1 z / 8 * (Q * Q)) / sqrt V.

Lemma Gz_derive P Q z : z <> 0 -> S1 z <> 0 -> 0 < P - Q * C0 z -> is_derive (Gz P Q) z (Gz' P Q z).
Proof.
  intros Hz H1 HV. unfold Gz. pose proof (kz_derive z Hz H1) as Dk.
  assert (DV : is_derive (fun z => P - Q * C0 z) z (Q * S1 z / 2)).
  { rd ltac:(apply C0_derive). field. }
  pose proof (rd_sqrt (fun z => P - Q * C0 z) z _ DV HV) as Ds. cbv beta in Ds.
  eapply rd_eq.
  - apply (rd_plus (fun z => 2 * ((P - Q * C0 z) * sqrt (P - Q * C0 z)) * kz z) (fun z => Q / 2 * sqrt (P - Q * C0 z))).
    + apply (rd_mult (fun z => 2 * ((P - Q * C0 z) * sqrt (P - Q * C0 z))) kz); [|exact Dk].
      apply (rd_mult (fun _ => 2)); [apply rd_const|].
      apply (rd_mult (fun z => P - Q * C0 z) (fun z => sqrt (P - Q * C0 z))); [exact DV|exact Ds].
    + apply (rd_mult (fun _ => Q / 2)); [apply rd_const|exact Ds].
  - req. cbv beta. unfold Gz'. cbv zeta. set (V := P - Q * C0 z) in *.
    destruct (sqrt_pos_facts V HV) as [V1 V2]. set (r := sqrt V) in *. clearbody r V. rewrite <- V2. field. lra.
Qed.
Lemma Gz_continuous P Q z : S1 z <> 0 -> 0 < P - Q * C0 z -> continuity_pt (Gz P Q) z.
Proof.
  intros H1 HV. pose proof (kz_continuous z H1) as Ck.
  assert (CV : continuity_pt (fun z => P - Q * C0 z) z).
  { eapply rd_continuous. rd_step ltac:(apply C0_derive). }
  assert (Cs : continuity_pt (fun z => sqrt (P - Q * C0 z)) z).
  { apply (continuity_pt_comp (fun z => P - Q * C0 z) sqrt); [exact CV|]. apply continuity_pt_sqrt. cbv beta. lra. }
  unfold Gz. apply continuity_pt_plus.
  - apply (continuity_pt_mult (fun z => 2 * ((P - Q * C0 z) * sqrt (P - Q * C0 z))) kz); [|exact Ck].
    apply (continuity_pt_mult (fun _ => 2)); [apply continuity_pt_const; now intros ? ?|].
    apply (continuity_pt_mult (fun z => P - Q * C0 z) (fun z => sqrt (P - Q * C0 z))); assumption.
  - apply (continuity_pt_mult (fun _ => Q / 2)); [apply continuity_pt_const; now intros ? ?|exact Cs].
Qed.

Lemma Gz_derive_pos P Q z :
  Rabs Q < P -> z <> 0 -> z < PI * PI -> 0 < P - Q * C0 z -> 0 < Gz' P Q z.
Proof.
  intros HQ H0 H HV. destruct (k_facts z H0 H) as (P1 & P2 & P3 & P4 & P5 & P6).
  assert (HQ2 : - P < Q < P) by (apply Rabs_def2 in HQ; lra).
  unfold Gz'. cbv zeta. set (V := P - Q * C0 z) in *.
  apply Rdiv_lt_0_compat; [|now apply sqrt_lt_R0].
  set (c1 := S1 z) in *. set (c0 := C0 z) in *. set (k := kz z) in *. set (k' := kz' z) in *. clearbody c1 k k'.
  destruct (Rle_dec 0 Q) as [Qp|Qn].
  - assert (0 < k' * (V * V)) by (apply Rmult_lt_0_compat; [|apply Rmult_lt_0_compat]; assumption).
    assert (0 <= c1 * k * V * Q) by (repeat apply Rmult_le_pos; lra).
    assert (0 <= c1 * (Q * Q)) by (repeat apply Rmult_le_pos; lra). lra.
  - (* [t = Q/V] lies above [t0 = -1/(1+c0)]. *)
    set (t0 := - (1 / (1 + c0))).
    assert (Et : Q * (1 + c0) + V > 0) by (unfold V; nra).
    set (t := Q / V). assert (EQ : Q = t * V) by (unfold t; field; lra).
    assert (Ht : t0 < t).
    { apply Rmult_lt_reg_r with ((1 + c0) * V); [nra|]. unfold t0, t.
      replace (- (1 / (1 + c0)) * ((1 + c0) * V)) with (- V) by (field; lra).
      replace (Q / V * ((1 + c0) * V)) with (Q * (1 + c0)) by (field; lra). lra. }
    rewrite EQ.
    replace (2 * k' * (V * V) + 3 / 2 * c1 * k * V * (t * V) + c1 / 8 * (t * V * (t * V))) with
      ((V * V) * (2 * k' + 3 / 2 * c1 * k * t + c1 / 8 * (t * t))) by field.
    apply Rmult_lt_0_compat; [nra|].
    replace (3 / 2 * c1 * k / (1 + c0)) with (- (3 / 2 * c1 * k * t0)) in P6 by (unfold t0; field; lra).
    replace (c1 / 8 / ((1 + c0) * (1 + c0))) with (c1 / 8 * (t0 * t0)) in P6 by (unfold t0; field; lra).
    replace (1 / (1 + c0)) with (- t0) in P5 by (unfold t0; ring).
    clearbody t t0. assert (0 < (t - t0) * (3 / 2 * k + (t + t0) / 8)) by (apply Rmult_lt_0_compat; lra). nra.
Qed.

(** [V] stays positive between two points where it is positive. *)
Lemma C0_decreasing x y : x < y -> y < PI * PI -> C0 y < C0 x.
Proof.
  intros Hxy Hy.
  destruct (MVT_gen C0 x y (fun z => - S1 z / 2)) as (c & Hc & E).
  - intros z _. apply C0_derive.
  - intros z _. eapply rd_continuous, C0_derive.
  - rewrite Rmin_left, Rmax_right in Hc by lra. pose proof (S1_pos c ltac:(lra)). nra.
Qed.

Theorem Gz_increasing P Q x y :
  Rabs Q < P -> x < y -> y < PI * PI -> 0 < P - Q * C0 x -> 0 < P - Q * C0 y -> Gz P Q x < Gz P Q y.
Proof.
  intros HQ Hxy Hy Vx Vy.
  assert (HV : forall z, x <= z <= y -> 0 < P - Q * C0 z).
  { intros z Hz. assert (C0 z <= C0 x) by (destruct (Req_dec x z) as [->|]; [lra|left; apply C0_decreasing; lra]).
    assert (C0 y <= C0 z) by (destruct (Req_dec y z) as [->|]; [lra|left; apply C0_decreasing; lra]).
    destruct (Rle_dec 0 Q); nra. }
  assert (Step : forall u v, x <= u -> u < v -> v <= y -> (v <= 0 \/ 0 <= u) -> Gz P Q u < Gz P Q v).
  { intros u v Hu Huv Hv Hs.
    destruct (MVT_gen (Gz P Q) u v (fun z => if Req_EM_T z 0 then 1 else Gz' P Q z)) as (c & Hc & E).
    - intros z Hz. rewrite Rmin_left, Rmax_right in Hz by lra. destruct (Req_EM_T z 0); [lra|].
      apply Gz_derive; [assumption| |apply HV; lra]. pose proof (S1_pos z ltac:(lra)). lra.
    - intros z Hz. rewrite Rmin_left, Rmax_right in Hz by lra. 
      apply Gz_continuous; [|apply HV; lra]. pose proof (S1_pos z ltac:(lra)). lra.
    - rewrite Rmin_left, Rmax_right in Hc by lra.
      assert (0 < if Req_EM_T c 0 then 1 else Gz' P Q c).
      { destruct (Req_EM_T c 0); [lra|]. apply Gz_derive_pos; auto; [lra|apply HV; lra]. }
      nra. }
  destruct (Rle_dec y 0); [apply Step; lra|]. destruct (Rle_dec 0 x); [apply Step; lra|].
  apply Rlt_trans with (Gz P Q 0); apply Step; lra.
Qed.

(** The time of flight of [LambertRev] in terms of [Gz]. *)
Lemma tz_Gz mu A P z :
  0 < mu -> 0 <= P - sqrt 2 * A * C0 z ->
  tz mu A (P - sqrt 2 * A * C0 z) z 0 = sqrt 2 / sqrt mu * Gz P (sqrt 2 * A) z.
Proof.
  intros Hmu HV. unfold tz, Gz, kz. set (V := P - sqrt 2 * A * C0 z) in *.
  rewrite sqrt_mult by lra. destruct (sqrt_pos_facts mu Hmu) as [N1 N2].
  assert (W2 : sqrt 2 * sqrt 2 = 2) by (apply sqrt_sqrt; lra).
  set (w := sqrt 2) in *. unfold Rdiv. rewrite !Rmult_0_l, Rplus_0_r. set (k := / (S1 z * S1 z * S1 z)). clearbody k.
  transitivity ((2 * S3 (4 * z) * V * (w * sqrt V) * k + (w * w) * / 2 * A * sqrt V) * / sqrt mu).
  - rewrite W2. field. lra.
  - field. lra.
Qed.
