(** * Kepler motion in universal variables.

    For every initial state with non-zero angular momentum the motion is given
    explicitly as a function of the universal anomaly; inverting the strictly
    increasing time map turns it into a function of time. *)
From Coq Require Import Reals Lra Psatz Ranalysis5.
From Coquelicot Require Import Coquelicot.
From Verif Require Import Num Spec VecFacts.
Local Open Scope R_scope.

(** ** Universal functions *)
Definition U0 (a x : R) : R :=
  if Rlt_dec 0 a then cos (sqrt a * x)
  else if Rlt_dec a 0 then cosh (sqrt (- a) * x) else 1.
Definition U1 (a x : R) : R :=
  if Rlt_dec 0 a then sin (sqrt a * x) / sqrt a
  else if Rlt_dec a 0 then sinh (sqrt (- a) * x) / sqrt (- a) else x.
Definition U2 (a x : R) : R :=
  if Rlt_dec 0 a then (1 - cos (sqrt a * x)) / a
  else if Rlt_dec a 0 then (cosh (sqrt (- a) * x) - 1) / (- a) else x ^ 2 / 2.
Definition U3 (a x : R) : R :=
  if Rlt_dec 0 a then (sqrt a * x - sin (sqrt a * x)) / (a * sqrt a)
  else if Rlt_dec a 0 then (sinh (sqrt (- a) * x) - sqrt (- a) * x) / (- a * sqrt (- a))
       else x ^ 3 / 6.

(** [field] and [ring] on goals whose type is a Coquelicot structure over R. *)
Ltac req := cbv beta; match goal with |- @eq _ ?a ?b => change (@eq R a b) end.

Ltac ucase a :=
  destruct (Rlt_dec 0 a); [|destruct (Rlt_dec a 0)].

Lemma sqrt_pos_facts a : 0 < a -> 0 < sqrt a /\ sqrt a * sqrt a = a.
Proof. intros; split; [now apply sqrt_lt_R0 | apply sqrt_sqrt; lra]. Qed.

Lemma is_derive_cosh x : is_derive cosh x (sinh x).
Proof. apply is_derive_Reals. apply derivable_pt_lim_cosh. Qed.
Lemma is_derive_sinh x : is_derive sinh x (cosh x).
Proof. apply is_derive_Reals. apply derivable_pt_lim_sinh. Qed.

Lemma U0_derive a x : is_derive (U0 a) x (- a * U1 a x).
Proof.
  unfold U0, U1. ucase a.
  - destruct (sqrt_pos_facts a) as [H1 H2]; [assumption|].
    auto_derive; [trivial|]. set (s := sqrt a) in *. set (w := sin _).
    rewrite <- H2. field. lra.
  - destruct (sqrt_pos_facts (- a)) as [H1 H2]; [lra|].
    evar_last.
    + apply is_derive_comp with (f := cosh); [apply is_derive_cosh|].
      auto_derive; trivial.
    + cbn. unfold scal; cbn; unfold mult; cbn. set (s := sqrt (- a)) in *.
      replace (- a) with (s * s) by lra. field. lra.
  - replace a with 0 by lra. evar_last; [apply @is_derive_const|]. cbn. unfold zero; cbn. ring.
Qed.

Lemma U1_derive a x : is_derive (U1 a) x (U0 a x).
Proof.
  unfold U0, U1. ucase a.
  - destruct (sqrt_pos_facts a) as [H1 H2]; [assumption|].
    auto_derive; [lra|]. field. lra.
  - destruct (sqrt_pos_facts (- a)) as [H1 H2]; [lra|].
    evar_last.
    + apply is_derive_ext with (f := fun x => / sqrt (- a) * sinh (sqrt (- a) * x)).
      { intros t. req. field. lra. }
      apply is_derive_scal. apply is_derive_comp with (f := sinh); [apply is_derive_sinh|].
      auto_derive; trivial.
    + cbn. unfold scal; cbn; unfold mult; cbn. field. lra.
  - evar_last; [apply @is_derive_id|]. reflexivity.
Qed.

Lemma U2_derive a x : is_derive (U2 a) x (U1 a x).
Proof.
  unfold U2, U1. ucase a.
  - destruct (sqrt_pos_facts a) as [H1 H2]; [assumption|].
    auto_derive; [trivial|]. set (s := sqrt a) in *. set (w := sin _).
    rewrite <- H2. field. lra.
  - destruct (sqrt_pos_facts (- a)) as [H1 H2]; [lra|].
    evar_last.
    + apply is_derive_ext with (f := fun x => / (- a) * cosh (sqrt (- a) * x) + / a).
      { intros t. req. field. lra. }
      apply @is_derive_plus; [|apply @is_derive_const].
      apply is_derive_scal. apply is_derive_comp with (f := cosh); [apply is_derive_cosh|].
      auto_derive; trivial.
    + cbn. unfold scal, plus, zero; cbn; unfold mult; cbn. set (s := sqrt (- a)) in *.
      replace (- a) with (s * s) by lra. field. lra.
  - auto_derive; [trivial|]. field.
Qed.

Lemma U3_derive a x : is_derive (U3 a) x (U2 a x).
Proof.
  unfold U3, U2. ucase a.
  - destruct (sqrt_pos_facts a) as [H1 H2]; [assumption|].
    auto_derive; [trivial|]. set (s := sqrt a) in *. set (w := cos _).
    replace a with (s * s) by lra. field. lra.
  - destruct (sqrt_pos_facts (- a)) as [H1 H2]; [lra|].
    evar_last.
    + apply is_derive_ext with
        (f := fun x => / (- a * sqrt (- a)) * (sinh (sqrt (- a) * x) - sqrt (- a) * x)).
      { intros t. req. field. lra. }
      apply is_derive_scal. apply @is_derive_minus.
      * apply is_derive_comp with (f := sinh); [apply is_derive_sinh|].
        auto_derive; trivial.
      * auto_derive; trivial.
    + cbn. unfold scal, minus, plus, opp; cbn; unfold mult; cbn. set (s := sqrt (- a)) in *.
      replace (- a) with (s * s) by lra. field. lra.
  - auto_derive; [trivial|]. field.
Qed.

Lemma U0_U2 a x : U0 a x = 1 - a * U2 a x.
Proof. unfold U0, U2. ucase a; try (field; lra). replace a with 0 by lra. ring. Qed.
Lemma U1_U3 a x : U1 a x = x - a * U3 a x.
Proof.
  unfold U1, U3. ucase a.
  - destruct (sqrt_pos_facts a); [assumption|]. field. lra.
  - destruct (sqrt_pos_facts (- a)) as [H1 H2]; [lra|].
    set (s := sqrt (- a)) in *. field. lra.
  - replace a with 0 by lra. ring.
Qed.
Lemma cosh_sinh_sq x : cosh x * cosh x - sinh x * sinh x = 1.
Proof.
  unfold cosh, sinh. replace (exp (- x)) with (/ exp x) by (symmetry; apply exp_Ropp).
  pose proof (exp_pos x). field. lra.
Qed.
Lemma U1_sq a x : U1 a x * U1 a x = U2 a x * (2 - a * U2 a x).
Proof.
  unfold U1, U2. ucase a.
  - destruct (sqrt_pos_facts a) as [H1 H2]; [assumption|].
    pose proof (sin2_cos2 (sqrt a * x)) as E. unfold Rsqr in E.
    replace (sin (sqrt a * x) / sqrt a * (sin (sqrt a * x) / sqrt a))
      with ((1 - cos (sqrt a * x) * cos (sqrt a * x)) / a).
    + field. lra.
    + set (s := sqrt a) in *. set (w := sin _) in *. set (k := cos _) in *.
      rewrite <- E. replace a with (s * s). field. lra.
  - destruct (sqrt_pos_facts (- a)) as [H1 H2]; [lra|].
    pose proof (cosh_sinh_sq (sqrt (- a) * x)) as E.
    set (s := sqrt (- a)) in *. set (ch := cosh (s * x)) in *. set (sh := sinh (s * x)) in *.
    replace (sh / s * (sh / s)) with ((sh * sh) / (s * s)) by (field; lra).
    rewrite H2. replace (sh * sh) with (ch * ch - 1) by lra. field. lra.
  - replace a with 0 by lra. field.
Qed.
Lemma U_at_0 a : U0 a 0 = 1 /\ U1 a 0 = 0 /\ U2 a 0 = 0 /\ U3 a 0 = 0.
Proof.
  unfold U0, U1, U2, U3. ucase a.
  - destruct (sqrt_pos_facts a); [assumption|].
    rewrite Rmult_0_r, cos_0, sin_0. repeat split; field; lra.
  - destruct (sqrt_pos_facts (- a)) as [H1 H2]; [lra|].
    rewrite Rmult_0_r, cosh_0, sinh_0. repeat split; try (field; lra).
  - repeat split; field.
Qed.

(** ** The motion as a function of the universal anomaly *)
Section Motion.
Variables (mu : R) (r0v v0v : rvec).
Hypothesis Hmu : 0 < mu.
Hypothesis Hh : vcross r0v v0v <> vzero.

Let r0 := vnorm r0v.
Let sm := sqrt mu.
Let sg := vdot r0v v0v / sm.
Let al := 2 / r0 - vdot v0v v0v / mu.

Lemma r0_pos : 0 < r0.
Proof. apply vnorm_pos. eapply vcross_nonzero_l; eauto. Qed.
Lemma sm_pos : 0 < sm.
Proof. now apply sqrt_lt_R0. Qed.
Lemma sm_sq : sm * sm = mu.
Proof. apply sqrt_sqrt; lra. Qed.

Definition uf (x : R) : R := 1 - U2 al x / r0.
Definition ug (x : R) : R := (r0 * U1 al x + sg * U2 al x) / sm.
Definition ur (x : R) : R := r0 * U0 al x + sg * U1 al x + U2 al x.
Definition ut (x : R) : R := (r0 * U1 al x + sg * U2 al x + U3 al x) / sm.
Definition ufd (x : R) : R := - sm * U1 al x / (ur x * r0).
Definition ugd (x : R) : R := 1 - U2 al x / ur x.

Definition upos (x : R) : rvec := vcomb (uf x) r0v (ug x) v0v.
Definition uvel (x : R) : rvec := vcomb (ufd x) r0v (ugd x) v0v.

Lemma v0_sq : vdot v0v v0v = mu * (2 / r0 - al).
Proof. unfold al. pose proof r0_pos. field. lra. Qed.
Lemma r0v0 : vdot r0v v0v = sg * sm.
Proof. unfold sg. pose proof sm_pos. field. lra. Qed.

Lemma upos_sq x : vdot (upos x) (upos x) = ur x * ur x.
Proof.
  unfold upos. rewrite vcomb_sq.
  rewrite <- (vnorm_sq r0v). fold r0. rewrite r0v0, v0_sq.
  unfold uf, ug, ur. rewrite U0_U2. pose proof (U1_sq al x) as E.
  set (u1 := U1 al x) in *. set (u2 := U2 al x) in *.
  pose proof r0_pos. pose proof sm_pos. rewrite <- sm_sq.
  apply Rminus_diag_uniq.
  match goal with |- ?l - ?r = 0 =>
    replace (l - r) with ((u1 * u1 - u2 * (2 - al * u2)) * (- sg * sg + r0 * r0 * (2 / r0 - al)))
      by (field; lra) end.
  rewrite E. ring.
Qed.

Lemma ur_nonzero x : ur x <> 0.
Proof.
  intros Hr. pose proof (upos_sq x) as E. rewrite Hr in E.
  assert (Hp : upos x = vzero) by (apply vdot_zero; lra).
  pose proof r0_pos. pose proof sm_pos.
  (* pos = f r0 + g v0 = 0 with r0, v0 independent forces f = g = 0 *)
  assert (Hg : ug x = 0).
  { apply (vmult_zero _ (vcross r0v v0v)); [|assumption].
    rewrite <- (vcross_comb_r (uf x)). fold (upos x). rewrite Hp. apply vcross_zero_r. }
  assert (Hf : uf x = 0).
  { apply (vmult_zero _ (vcross r0v v0v)); [|assumption].
    rewrite <- (vcross_comb_l _ _ (ug x)). fold (upos x). rewrite Hp. apply vcross_zero_l. }
  assert (E2 : U2 al x = r0).
  { unfold uf in Hf. apply (f_equal (fun z => z * r0)) in Hf.
    replace ((1 - U2 al x / r0) * r0) with (r0 - U2 al x) in Hf by (field; lra). lra. }
  assert (E1 : U1 al x = - sg).
  { unfold ug in Hg. rewrite E2 in Hg. apply (f_equal (fun z => z * sm / r0)) in Hg.
    replace ((r0 * U1 al x + sg * r0) / sm * sm / r0) with (U1 al x + sg) in Hg by (field; lra).
    lra. }
  pose proof (U1_sq al x) as E3. rewrite E1, E2 in E3.
  pose proof (cauchy_strict _ _ Hh) as C. rewrite r0v0, v0_sq, <- (vnorm_sq r0v) in C.
  fold r0 in C. rewrite <- sm_sq in C.
  assert (X : sg * sm * (sg * sm) = r0 * r0 * (sm * sm * (2 / r0 - al))).
  { replace (sg * sm * (sg * sm)) with ((- sg * - sg) * (sm * sm)) by ring.
    rewrite E3. field. lra. }
  lra.
Qed.

Lemma ur_derive x : is_derive ur x (r0 * (- al * U1 al x) + sg * U0 al x + U1 al x).
Proof.
  unfold ur. apply @is_derive_plus; [apply @is_derive_plus|].
  - apply is_derive_scal. apply U0_derive.
  - apply is_derive_scal. apply U1_derive.
  - apply U2_derive.
Qed.

Lemma ur_continuity : continuity ur.
Proof.
  intros x. apply continuity_pt_filterlim. apply (ex_derive_continuous ur).
  eexists. apply ur_derive.
Qed.

Lemma ur_pos x : 0 < ur x.
Proof.
  destruct (Rlt_dec 0 (ur x)) as [|Hn]; [assumption|]. exfalso.
  assert (Hx : ur x < 0) by (pose proof (ur_nonzero x); lra).
  assert (H0 : ur 0 = r0).
  { unfold ur. destruct (U_at_0 al) as (-> & -> & -> & _). ring. }
  pose proof r0_pos.
  destruct (Rtotal_order x 0) as [Hlt|[->|Hgt]]; [|lra|].
  - destruct (IVT ur x 0 ur_continuity Hlt Hx ltac:(lra)) as [z [_ Hz]].
    exact (ur_nonzero z Hz).
  - destruct (IVT (fun y => - ur y) 0 x) as [z [_ Hz]]; try lra.
    + intros y. apply (continuity_opp ur ur_continuity y).
    + apply (ur_nonzero z). lra.
Qed.

Lemma upos_norm x : vnorm (upos x) = ur x.
Proof. unfold vnorm. rewrite upos_sq. apply sqrt_square. left. apply ur_pos. Qed.

Lemma ut_derive x : is_derive ut x (ur x / sm).
Proof.
  unfold ut. evar_last.
  - apply is_derive_ext with
      (f := fun x => / sm * (r0 * U1 al x + sg * U2 al x + U3 al x)).
    { intros t. req. field. pose proof sm_pos; lra. }
    apply is_derive_scal. apply @is_derive_plus; [apply @is_derive_plus|].
    + apply is_derive_scal. apply U1_derive.
    + apply is_derive_scal. apply U2_derive.
    + apply U3_derive.
  - cbn. unfold plus; cbn. unfold ur. field. pose proof sm_pos; lra.
Qed.

Lemma uf_derive x : is_derive uf x (ufd x * (ur x / sm)).
Proof.
  unfold uf, ufd. pose proof r0_pos. pose proof sm_pos. pose proof (ur_pos x).
  evar_last.
  - apply is_derive_ext with (f := fun x => 1 + (- / r0) * U2 al x).
    { intros t. req. field. lra. }
    apply @is_derive_plus; [apply @is_derive_const|]. apply is_derive_scal. apply U2_derive.
  - cbn. unfold plus, zero; cbn. field. repeat split; lra.
Qed.
Lemma ug_derive x : is_derive ug x (ugd x * (ur x / sm)).
Proof.
  unfold ug, ugd. pose proof r0_pos. pose proof sm_pos. pose proof (ur_pos x).
  evar_last.
  - apply is_derive_ext with (f := fun x => / sm * (r0 * U1 al x + sg * U2 al x)).
    { intros t. req. field. lra. }
    apply is_derive_scal. apply @is_derive_plus;
      [apply is_derive_scal; apply U1_derive | apply is_derive_scal; apply U2_derive].
  - cbn. unfold plus; cbn.
    replace ((1 - U2 al x / ur x) * (ur x / sm)) with ((ur x - U2 al x) / sm) by (field; lra).
    unfold ur. field. lra.
Qed.
Lemma ufd_derive x : is_derive ufd x (- mu / ur x ^ 3 * uf x * (ur x / sm)).
Proof.
  unfold ufd. pose proof r0_pos. pose proof sm_pos. pose proof (ur_pos x).
  evar_last.
  - apply is_derive_ext with (f := fun x => (- sm / r0) * (U1 al x / ur x)).
    { intros t. pose proof (ur_pos t). req. field. lra. }
    apply is_derive_scal. apply is_derive_div; [apply U1_derive | apply ur_derive | lra].
  - cbn. unfold uf.
    match goal with |- - sm / r0 * (?a / ?b) = _ =>
      replace a with (r0 - U2 al x) end.
    + rewrite <- sm_sq. field. repeat split; lra.
    + unfold ur. pose proof (U1_sq al x) as E. rewrite U0_U2.
      set (u1 := U1 al x) in *. set (u2 := U2 al x) in *.
      match goal with |- _ = ?r =>
        replace r with (r0 * (1 - al * u2) * (1 - al * u2) + al * r0 * (u1 * u1)
                        + (1 - al * u2) * u2 - u1 * u1) by ring end.
      rewrite E. ring.
Qed.
Lemma ugd_derive x : is_derive ugd x (- mu / ur x ^ 3 * ug x * (ur x / sm)).
Proof.
  unfold ugd. pose proof r0_pos. pose proof sm_pos. pose proof (ur_pos x).
  evar_last.
  - apply @is_derive_minus; [apply @is_derive_const|].
    apply is_derive_div; [apply U2_derive | apply ur_derive | lra].
  - cbn. unfold minus, plus, opp, zero; cbn. unfold ug.
    match goal with |- 0 + - (?a / ?b) = _ =>
      replace a with (r0 * U1 al x + sg * U2 al x) end.
    + rewrite <- sm_sq. field. repeat split; lra.
    + unfold ur. pose proof (U1_sq al x) as E. rewrite U0_U2.
      set (u1 := U1 al x) in *. set (u2 := U2 al x) in *.
      match goal with |- _ = ?r =>
        replace r with (r0 * u1 + sg * (u1 * u1) - sg * (1 - al * u2) * u2) by ring end.
      rewrite E. ring.
Qed.

Lemma lin_derive (f g : R -> R) x df dg (a b : R) :
  is_derive f x df -> is_derive g x dg ->
  is_derive (fun s => f s * a + g s * b) x (df * a + dg * b).
Proof.
  intros Hf Hg. apply @is_derive_plus.
  - apply is_derive_ext with (f := fun s => a * f s); [intros; req; ring|].
    evar_last; [apply is_derive_scal; exact Hf | ring].
  - apply is_derive_ext with (f := fun s => b * g s); [intros; req; ring|].
    evar_last; [apply is_derive_scal; exact Hg | ring].
Qed.

Lemma upos_derive x : vderive upos x (vmult (ur x / sm) (uvel x)).
Proof.
  unfold vderive, upos, uvel, vcomb, vplus, vmult; cbn [vx vy vz].
  (split; [|split]); (evar_last;
    [apply lin_derive; [apply uf_derive | apply ug_derive] | req; ring]).
Qed.
Lemma uvel_derive x :
  vderive uvel x (vmult (ur x / sm) (vmult (- mu / vnorm (upos x) ^ 3) (upos x))).
Proof.
  rewrite upos_norm. unfold vderive, upos, uvel, vcomb, vplus, vmult; cbn [vx vy vz].
  (split; [|split]); (evar_last;
    [apply lin_derive; [apply ufd_derive | apply ugd_derive] | req; ring]).
Qed.

Lemma upos_0 : upos 0 = r0v.
Proof.
  unfold upos. replace (uf 0) with 1; [replace (ug 0) with 0|].
  - apply vcomb_1_0.
  - unfold ug. destruct (U_at_0 al) as (_ & -> & -> & _). pose proof sm_pos. field. lra.
  - unfold uf. destruct (U_at_0 al) as (_ & _ & -> & _). pose proof r0_pos. field. lra.
Qed.
Lemma uvel_0 : uvel 0 = v0v.
Proof.
  pose proof (ur_pos 0). pose proof r0_pos.
  unfold uvel. replace (ufd 0) with 0; [replace (ugd 0) with 1|].
  - apply vcomb_0_1.
  - unfold ugd. destruct (U_at_0 al) as (_ & _ & -> & _). field. lra.
  - unfold ufd. destruct (U_at_0 al) as (_ & -> & _ & _). field. lra.
Qed.
Lemma ut_0 : ut 0 = 0.
Proof.
  unfold ut. destruct (U_at_0 al) as (_ & -> & -> & ->). pose proof sm_pos. field. lra.
Qed.

Lemma ut_increasing x y : x < y -> ut x < ut y.
Proof.
  intros Hxy.
  destruct (MVT_gen ut x y (fun z => ur z / sm)) as [c [Hc E]].
  - intros z _. apply ut_derive.
  - intros z _. apply continuity_pt_filterlim. apply (ex_derive_continuous ut).
    eexists; apply ut_derive.
  - assert (0 < ur c / sm) by (apply Rdiv_lt_0_compat; [apply ur_pos | apply sm_pos]).
    nra.
Qed.
Lemma ut_inj x y : ut x = ut y -> x = y.
Proof.
  intros E. destruct (Rtotal_order x y) as [H|[H|H]]; [|assumption|];
    apply ut_increasing in H; lra.
Qed.
Lemma ut_continuity : continuity ut.
Proof.
  intros x. apply continuity_pt_filterlim. apply (ex_derive_continuous ut).
  eexists; apply ut_derive.
Qed.

(** Inverse of the time map on a bounded range. *)
Section Inverse.
Variables lo hi : R.
Hypothesis Hlohi : lo < hi.

Lemma inv_exists t : ut lo < t -> t < ut hi -> {x | lo < x < hi /\ ut x = t}.
Proof.
  intros H1 H2. destruct (IVT (fun x => ut x - t) lo hi) as [z [Hz E]]; try lra.
  - intros x. apply (continuity_minus ut (fun _ => t) ut_continuity
                       (continuity_const (fun _ => t) (fun _ _ => eq_refl)) x).
  - exists z. split; [|lra].
    destruct Hz as [[Ha|Ha] [Hb|Hb]]; subst; lra.
Qed.
Definition ut_inv (t : R) : R :=
  match Rlt_dec (ut lo) t, Rlt_dec t (ut hi) with
  | left H1, left H2 => proj1_sig (inv_exists t H1 H2)
  | _, _ => 0
  end.
Lemma ut_inv_spec t : ut lo < t < ut hi -> lo < ut_inv t < hi /\ ut (ut_inv t) = t.
Proof.
  intros [H1 H2]. unfold ut_inv. destruct (Rlt_dec (ut lo) t); [|lra].
  destruct (Rlt_dec t (ut hi)); [|lra]. apply (proj2_sig (inv_exists _ _ _)).
Qed.
Lemma ut_inv_ut x : lo < x < hi -> ut_inv (ut x) = x.
Proof.
  intros H. apply ut_inj. apply ut_inv_spec. split; apply ut_increasing; lra.
Qed.
Lemma ut_inv_derive t :
  ut lo < t < ut hi -> is_derive ut_inv t (sm / ur (ut_inv t)).
Proof.
  intros H. pose proof (ut_inv_spec t H) as [Hx E]. set (x := ut_inv t) in *.
  assert (Hc : continuity_pt ut_inv t).
  { apply continuity_pt_filterlim.
    intros P [eps HP].
    set (a := Rmax lo (x - eps / 2)). set (b := Rmin hi (x + eps / 2)).
    pose proof (cond_pos eps).
    assert (Ha : lo <= a /\ a < x /\ x - eps < a).
    { unfold a, Rmax. destruct (Rle_dec _ _); lra. }
    assert (Hb : b <= hi /\ x < b /\ b < x + eps).
    { unfold b, Rmin. destruct (Rle_dec _ _); lra. }
    assert (Hta : ut a < t) by (rewrite <- E; apply ut_increasing; lra).
    assert (Htb : t < ut b) by (rewrite <- E; apply ut_increasing; lra).
    assert (Hd : 0 < Rmin (t - ut a) (ut b - t)) by (apply Rmin_pos; lra).
    exists (mkposreal _ Hd). intros s Hs.
    assert (Hs' : Rabs (s - t) < Rmin (t - ut a) (ut b - t)) by exact Hs.
    assert (ut a < s < ut b).
    { apply Rabs_def2 in Hs'. pose proof (Rmin_l (t - ut a) (ut b - t)).
      pose proof (Rmin_r (t - ut a) (ut b - t)). lra. }
    assert (ut lo <= ut a).
    { destruct (proj1 Ha) as [Q|Q]; [apply ut_increasing in Q; lra | rewrite <- Q; lra]. }
    assert (ut b <= ut hi).
    { destruct (proj1 Hb) as [Q|Q]; [apply ut_increasing in Q; lra | rewrite Q; lra]. }
    destruct (ut_inv_spec s) as [_ Es]; [lra|].
    apply HP. change (Rabs (ut_inv s - ut_inv t) < eps). fold x.
    assert (a < ut_inv s < b).
    { split.
      - destruct (Rlt_dec a (ut_inv s)); [assumption|]. exfalso.
        destruct (Rle_lt_or_eq_dec (ut_inv s) a) as [Q|Q]; [lra| |].
        + apply ut_increasing in Q. lra.
        + rewrite Q in Es. lra.
      - destruct (Rlt_dec (ut_inv s) b); [assumption|]. exfalso.
        destruct (Rle_lt_or_eq_dec b (ut_inv s)) as [Q|Q]; [lra| |].
        + apply ut_increasing in Q. lra.
        + rewrite <- Q in Es. lra. }
    apply Rabs_def1; lra. }
  pose proof (ur_pos x). pose proof sm_pos.
  assert (Df : forall a, derivable_pt ut a).
  { intros a. exists (ur a / sm). apply is_derive_Reals. apply ut_derive. }
  assert (Dv : forall a D, derive_pt ut a D = ur a / sm).
  { intros a D. apply derive_pt_eq_0. apply is_derive_Reals. apply ut_derive. }
  set (lb := (ut lo + t) / 2). set (ub := (t + ut hi) / 2).
  assert (Hlb : ut lo < lb < t) by (unfold lb; lra).
  assert (Hub : t < ub < ut hi) by (unfold ub; lra).
  assert (Hm : ut_inv lb <= ut_inv t <= ut_inv ub).
  { destruct (ut_inv_spec lb) as [_ El]; [lra|]. destruct (ut_inv_spec ub) as [_ Eu]; [lra|].
    fold x. split.
    - destruct (Rle_dec (ut_inv lb) x) as [|Hn]; [assumption|].
      assert (Q : x < ut_inv lb) by lra. apply ut_increasing in Q. lra.
    - destruct (Rle_dec x (ut_inv ub)) as [|Hn]; [assumption|].
      assert (Q : ut_inv ub < x) by lra. apply ut_increasing in Q. lra. }
  apply is_derive_Reals.
  pose proof (derivable_pt_lim_recip_interv ut ut_inv lb ub t (fun a _ => Df a) Hc
                ltac:(lra) ltac:(lra) Hm) as K.
  rewrite Dv in K. fold x in K.
  replace (sm / ur x) with (1 / (ur x / sm)) by (field; lra).
  apply K.
  - intros s Hs. unfold comp, id. apply ut_inv_spec; lra.
  - apply Rgt_not_eq. apply Rdiv_lt_0_compat; lra.
Qed.
End Inverse.

(** Reaching the universal anomaly [x > 0] takes the time [ut x]. *)
Theorem universal_transfer x :
  0 < x -> transfer mu r0v v0v (upos x) (uvel x) (ut x).
Proof.
  intros Hx. pose proof ut_0 as E0.
  assert (HT : 0 < ut x) by (rewrite <- E0; now apply ut_increasing).
  split; [assumption|].
  set (lo := -1). set (hi := x + 1).
  assert (Hlohi : lo < hi) by (unfold lo, hi; lra).
  assert (L : ut lo < 0) by (rewrite <- E0; apply ut_increasing; unfold lo; lra).
  assert (G : ut x < ut hi) by (apply ut_increasing; unfold hi; lra).
  exists (fun t => upos (ut_inv lo hi Hlohi t)), (fun t => uvel (ut_inv lo hi Hlohi t)).
  assert (I0 : ut_inv lo hi Hlohi 0 = 0).
  { rewrite <- E0 at 1. apply ut_inv_ut. unfold lo, hi; lra. }
  assert (IX : ut_inv lo hi Hlohi (ut x) = x).
  { apply ut_inv_ut. unfold lo, hi; lra. }
  split; [|rewrite I0, IX, upos_0, uvel_0; auto].
  intros t Ht. assert (Hr : ut lo < t < ut hi) by lra.
  pose proof (ut_inv_derive lo hi Hlohi t Hr) as D.
  set (i := ut_inv lo hi Hlohi) in *.
  pose proof (ur_pos (i t)) as Hp. pose proof sm_pos.
  split; [|split].
  - intros Q. pose proof (upos_norm (i t)) as W. rewrite Q in W.
    unfold vnorm, vzero, vdot in W; cbn in W.
    replace (0 * 0 + 0 * 0 + 0 * 0) with 0 in W by ring. rewrite sqrt_0 in W. lra.
  - destruct (upos_derive (i t)) as (D1 & D2 & D3). 
    unfold vderive; split; [|split].
    + evar_last; [apply (is_derive_comp (fun s => vx (upos s)) i t); [exact D1 | exact D]|].
      unfold scal; cbn; unfold mult; cbn. field; lra.
    + evar_last; [apply (is_derive_comp (fun s => vy (upos s)) i t); [exact D2 | exact D]|].
      unfold scal; cbn; unfold mult; cbn. field; lra.
    + evar_last; [apply (is_derive_comp (fun s => vz (upos s)) i t); [exact D3 | exact D]|].
      unfold scal; cbn; unfold mult; cbn. field; lra.
  - destruct (uvel_derive (i t)) as (D1 & D2 & D3).
    unfold vderive; split; [|split].
    + evar_last; [apply (is_derive_comp (fun s => vx (uvel s)) i t); [exact D1 | exact D]|].
      rewrite upos_norm; unfold scal; cbn; unfold mult; cbn. field; lra.
    + evar_last; [apply (is_derive_comp (fun s => vy (uvel s)) i t); [exact D2 | exact D]|].
      rewrite upos_norm; unfold scal; cbn; unfold mult; cbn. field; lra.
    + evar_last; [apply (is_derive_comp (fun s => vz (uvel s)) i t); [exact D3 | exact D]|].
      rewrite upos_norm; unfold scal; cbn; unfold mult; cbn. field; lra.
Qed.
End Motion.
