(** * pan2016's search for an interval of the argument of periapsis: C63. *)
From Coq Require Import Reals Ranalysis5 ZArith Bool Lra Lia Psatz.
From Verif Require Import Num XReal XRealLemmas MApi MPan.
Local Open Scope R_scope.

(** The margin at the ends, the square root of the machine epsilon [2^-52], and
    the [i]-th of the 721 equally spaced angles. *)
Definition margin : R := sqrt (/ 2 ^ 52).
Definition angle (i : Z) : R := - PI + margin + IZR i * ((2 * PI - 2 * margin) / 720).

Lemma margin_val : margin = / 2 ^ 26.
Proof. unfold margin. replace (/ 2 ^ 52) with (/ 2 ^ 26 * / 2 ^ 26) by field. apply sqrt_square. lra. Qed.
Lemma eps_F : @pan_eps XR = Fin margin.
Proof.
  unfold pan_eps, eps_machine. change (@nlit XR 1 4503599627370496) with (Fin (1 / 4503599627370496)). change (@nsqrt XR) with xsqrt.
  rewrite xsqrt_F by lra. f_equal. unfold margin. f_equal. lra.
Qed.

Theorem C63_samples : forall i, (0 <= i <= 720)%Z -> @pan_sample XR i = Fin (angle i) /\ - PI < angle i < PI /\ (forall j, (i < j)%Z -> angle i < angle j).
Proof.
  intros i Hi. pose proof margin_val as M. assert (M0 : 0 < margin < 1 / 1000) by (rewrite M; lra). clear M. pose proof PI2_3_2 as P.
  assert (I : 0 <= IZR i <= 720) by (split; apply IZR_le; lia).
  split; [|split].
  - unfold pan_sample. rewrite eps_F. change (@nadd XR (@nopp XR npi) (Fin margin)) with (Fin (- PI + margin)). change (@nsub XR npi (Fin margin)) with (Fin (PI - margin)).
    destruct (i =? 720)%Z eqn:E.
    + apply Z.eqb_eq in E. subst i. unfold angle. f_equal. field.
    + change (@nsub XR (Fin (PI - margin)) (Fin (- PI + margin))) with (Fin (PI - margin - (- PI + margin))). change (@ndiv XR) with xdiv. change (@nofZ XR 720) with (Fin 720). rewrite xdiv_F by lra.
      change (@nofZ XR i) with (Fin (IZR i)). change (Fin (IZR i * ((PI - margin - (- PI + margin)) / 720) + (- PI + margin)) = Fin (angle i)). unfold angle. f_equal. field.
  - unfold angle. split; nra.
  - intros j Hj. apply IZR_lt in Hj. unfold angle. nra.
Qed.
Print Assumptions C63_samples.

(** The values at the ends of interval [i] are real and the interval qualifies:
    a zero at its left end or a change of sign. *)
Definition qualifies (value : xr -> xr) (i : Z) : Prop :=
  exists l r, value (Fin (angle i)) = Fin l /\ value (Fin (angle (i + 1))) = Fin r /\ (l = 0 \/ l * r < 0).

Lemma bracket_step value k i : (0 <= i < 720)%Z ->
  (qualifies value i /\ exists l r, value (Fin (angle i)) = Fin l /\ value (Fin (angle (i + 1))) = Fin r /\
     ((l = 0 /\ @pan_first_bracket XR (S k) i value = Some (Fin (angle i - margin), Fin (angle i + margin))) \/
      (l * r < 0 /\ @pan_first_bracket XR (S k) i value = Some (Fin (angle i), Fin (angle (i + 1)))))) \/
  (~ qualifies value i /\ @pan_first_bracket XR (S k) i value = @pan_first_bracket XR k (i + 1) value).
Proof.
  intros Hi. cbn [pan_first_bracket]. rewrite (proj1 (C63_samples i ltac:(lia))), (proj1 (C63_samples (i + 1) ltac:(lia))). rewrite eps_F.
  destruct (value (Fin (angle i))) as [l|] eqn:El.
  2:{ right. split; [intros (l & r & E & _); congruence|reflexivity]. }
  destruct (value (Fin (angle (i + 1)))) as [r|] eqn:Er.
  2:{ right. split; [intros (l' & r & _ & E & _); congruence|reflexivity]. }
  change (negb (@nisfinite XR (Fin l)) || negb (@nisfinite XR (Fin r))) with false. cbv iota.
  change (@neqb XR (Fin l) (nofZ 0)) with (xeqb (Fin l) (Fin 0)). destruct (Req_dec l 0) as [L|L].
  - left. rewrite (proj2 (xeqb_F l 0) L). split; [exists l, r; repeat split; try assumption; now left|]. exists l, r. split; [reflexivity|]. split; [reflexivity|]. left. split; [exact L|reflexivity].
  - rewrite (proj2 (xeqb_Ff l 0) L). change (@nltb XR (@nmul XR (Fin l) (Fin r)) (nofZ 0)) with (xltb (Fin (l * r)) (Fin 0)). destruct (Rlt_dec (l * r) 0) as [Q|Q].
    + left. rewrite (proj2 (xltb_F _ _) Q). split; [exists l, r; repeat split; try assumption; now right|]. exists l, r. split; [reflexivity|]. split; [reflexivity|]. right. split; [exact Q|reflexivity].
    + right. rewrite (proj2 (xltb_Ff _ _)) by lra. split; [|reflexivity]. intros (l' & r' & E1 & E2 & E3). assert (l' = l) by congruence. assert (r' = r) by congruence. subst. lra.
Qed.

(** The search returns the first qualifying interval; it fails exactly when none
    of the 720 qualifies. *)
Theorem C63_first_bracket : forall value : xr -> xr,
  match @pan_first_bracket XR 720 0 value with
  | Some (lower, upper) => exists i l r, (0 <= i < 720)%Z /\
      value (Fin (angle i)) = Fin l /\ value (Fin (angle (i + 1))) = Fin r /\
      ((l = 0 /\ lower = Fin (angle i - margin) /\ upper = Fin (angle i + margin)) \/
       (l * r < 0 /\ lower = Fin (angle i) /\ upper = Fin (angle (i + 1)))) /\
      forall j, (0 <= j < i)%Z -> ~ qualifies value j
  | None => forall j, (0 <= j < 720)%Z -> ~ qualifies value j
  end.
Proof.
  intros value.
  assert (G : forall k i, (0 <= i)%Z -> (i + Z.of_nat k = 720)%Z -> (forall j, (0 <= j < i)%Z -> ~ qualifies value j) ->
    match @pan_first_bracket XR k i value with
    | Some (lower, upper) => exists i l r, (0 <= i < 720)%Z /\
        value (Fin (angle i)) = Fin l /\ value (Fin (angle (i + 1))) = Fin r /\
        ((l = 0 /\ lower = Fin (angle i - margin) /\ upper = Fin (angle i + margin)) \/
         (l * r < 0 /\ lower = Fin (angle i) /\ upper = Fin (angle (i + 1)))) /\
        forall j, (0 <= j < i)%Z -> ~ qualifies value j
    | None => forall j, (0 <= j < 720)%Z -> ~ qualifies value j
    end).
  { intros k. induction k as [|k IH]; intros i Hi E Hb.
    - cbn [pan_first_bracket]. intros j Hj. apply Hb. lia.
    - destruct (bracket_step value k i ltac:(lia)) as [[_ (l & r & El & Er & [[Q EB]|[Q EB]])]|[NQ EB]]; rewrite EB.
      + exists i, l, r. split; [lia|]. split; [exact El|]. split; [exact Er|]. split; [left; repeat split; exact Q|exact Hb].
      + exists i, l, r. split; [lia|]. split; [exact El|]. split; [exact Er|]. split; [right; repeat split; exact Q|exact Hb].
      + apply IH; [lia|lia|]. intros j Hj. destruct (Z.eq_dec j i) as [->|]; [exact NQ|]. apply Hb. lia. }
  apply (G 720%nat 0%Z); [lia|lia|]. intros j Hj. lia.
Qed.
Print Assumptions C63_first_bracket.

(** A bracket found by a change of sign of a continuous residual contains an
    argument of periapsis whose conic takes exactly the requested time. *)
Theorem C63_bracket_root : forall mu g tof lower upper f,
  @pan_first_bracket XR 720 0 (fun omega => pan_safe_residual mu g omega (Fin tof)) = Some (Fin lower, Fin upper) ->
  lower < upper /\ upper - lower < PI / 300 /\
  ((forall w, lower <= w <= upper -> @pan_residual XR mu g (Fin tof) (Fin w) = Ok (Fin (f w)) /\ continuity_pt f w) ->
   exists w, lower <= w <= upper /\ @pan_tof_at_omega XR mu g (Fin w) = Ok (Fin tof)).
Proof.
  intros mu g tof lo up f H. pose proof (C63_first_bracket (fun omega => @pan_safe_residual XR mu g omega (Fin tof))) as F.
  match type of F with match ?B with _ => _ end => replace B with (Some (Fin lo, Fin up)) in F by (symmetry; exact H) end.
  destruct F as (i & l & r & Hi & El & Er & C & _). pose proof margin_val as M. assert (M0 : 0 < margin < 1 / 1000) by (rewrite M; lra). clear M. pose proof PI2_3_2 as P.
  assert (ST : angle (i + 1) = angle i + (2 * PI - 2 * margin) / 720) by (unfold angle; rewrite plus_IZR; field).
  assert (V : forall w v, @pan_residual XR mu g (Fin tof) (Fin w) = Ok (Fin (f w)) -> @pan_safe_residual XR mu g (Fin w) (Fin tof) = Fin v -> f w = v).
  { intros w v E1 E2. unfold pan_safe_residual in E2. rewrite E1 in E2. now injection E2. }
  assert (T : forall w, @pan_residual XR mu g (Fin tof) (Fin w) = Ok (Fin 0) -> @pan_tof_at_omega XR mu g (Fin w) = Ok (Fin tof)).
  { intros w E. unfold pan_residual in E. destruct (pan_tof_at_omega mu g (Fin w)) as [t|e]; [|discriminate E]. cbn [bind] in E. injection E as E.
    destruct t as [t|]; [|discriminate E]. change (Fin (t - tof) = Fin 0) in E. injection E as E. repeat f_equal. lra. }
  destruct C as [(L & E1 & E2)|(L & E1 & E2)]; injection E1 as ->; injection E2 as ->.
  - split; [lra|]. split; [lra|]. intros HF. exists (angle i). split; [lra|]. apply T. destruct (HF (angle i) ltac:(lra)) as [R _]. rewrite R. now rewrite (V _ _ R El), L.
  - split; [lra|]. split; [lra|]. intros HF. destruct (HF (angle i) ltac:(lra)) as [RL _]. destruct (HF (angle (i + 1)) ltac:(lra)) as [RR _].
    pose proof (V _ _ RL El) as VL. pose proof (V _ _ RR Er) as VR.
    destruct (Rlt_dec l 0) as [N|N].
    + destruct (IVT_interv f (angle i) (angle (i + 1))) as (w & W & W0); [intros; apply HF; assumption|lra|rewrite VL; exact N|rewrite VR; clear - N L; nra|]. exists w. split; [exact W|]. apply T. rewrite <- W0. apply HF. exact W.
    + assert (LP : 0 < l) by (destruct (Req_dec l 0) as [Z|Z]; [rewrite Z in L; lra|clear - N Z; lra]). assert (RN : r < 0) by (clear - LP L; nra).
      destruct (IVT_interv (fun w => - f w) (angle i) (angle (i + 1))) as (w & W & W0); [intros a Ha; apply continuity_pt_opp, HF; assumption|lra|rewrite VL; lra|rewrite VR; lra|].
      exists w. split; [exact W|]. apply T. replace 0 with (f w) by lra. apply HF. exact W.
Qed.
Print Assumptions C63_bracket_root.

(** For the identity the angle number 360 is the first to qualify, being zero. *)
Example C63_case : @pan_first_bracket XR 720 0 (fun x => x) = Some (Fin (0 - margin), Fin (0 + margin)).
Proof.
  assert (Z0 : angle 360 = 0) by (unfold angle; field).
  assert (NQ : forall j, (0 <= j < 720)%Z -> qualifies (fun x => x) j -> j = 360%Z).
  { intros j Hj (l & r & E1 & E2 & Q). injection E1 as <-. injection E2 as <-.
    destruct (Z.lt_trichotomy j 360) as [L|[L|L]]; [exfalso|exact L|exfalso].
    - destruct (C63_samples j ltac:(lia)) as (_ & _ & MJ). pose proof (MJ 360%Z L) as A1.
      assert (A2 : angle (j + 1) <= 0). { destruct (Z.eq_dec (j + 1) 360) as [->|N]; [lra|]. destruct (C63_samples (j + 1) ltac:(lia)) as (_ & _ & MK). specialize (MK 360%Z ltac:(lia)). lra. }
      rewrite Z0 in A1. destruct Q as [Q|Q]; nra.
    - destruct (C63_samples 360 ltac:(lia)) as (_ & _ & MJ). pose proof (MJ j L) as A1. pose proof (MJ (j + 1)%Z ltac:(lia)) as A2. rewrite Z0 in *. destruct Q as [Q|Q]; nra. }
  pose proof (C63_first_bracket (fun x => x)) as F.
  match type of F with match ?B with _ => _ end => change (B = Some (Fin (0 - margin), Fin (0 + margin))); destruct B as [[lo up]|] end.
  - destruct F as (i & l & r & Hi & El & Er & C & _). assert (Qi : qualifies (fun x => x) i) by (exists l, r; repeat split; try assumption; tauto).
    pose proof (NQ i Hi Qi) as ->. injection El as <-. rewrite Z0 in *. destruct C as [(_ & -> & ->)|(L & _)]; [reflexivity|lra].
  - exfalso. apply (F 360%Z ltac:(lia)). exists (angle 360), (angle (360 + 1)). repeat split. left. exact Z0.
Qed.
