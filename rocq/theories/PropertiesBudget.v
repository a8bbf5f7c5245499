(** * The iteration budget: C18, C19, C20.

    Everything here holds in every number system [N] and for every environment,
    except the counterexamples, which are runs in binary64. *)
From Coq Require Import String ZArith List Bool Lia.
Import ListNotations.
From Verif Require Import Num MApi ApiFacts MLinalg MScipy MAssertions MAngles MVallado MGauss MIzzo MBattin
  MArora MDelatorre MGooding MJiang MPan MDer MThorne MAvanzini MMcelreath MNegrete MInit Loops
  PropertiesFlags.

Section Budget.
Context {N : Num}.

Definition with_maxiter (m : Z) (a : args) : args :=
  Args (a_mu a) (a_r1 a) (a_r2 a) (a_tof a) (a_M a) (a_is_prograde a) (a_is_low_path a)
    m (a_atol a) (a_rtol a) (a_full_output a).

Ltac opn := cbn [with_maxiter a_mu a_r1 a_r2 a_tof a_M a_is_prograde a_is_low_path
   a_maxiter a_atol a_rtol a_full_output e_clock e_fuel e_brentq e_minimize].

(** ** Reported iteration counts *)

(** [r] reports only iteration counts satisfying [P]. *)
Definition counts (P : Z -> Prop) (r : res out) : Prop :=
  forall v1 v2 n t, r = Ok (Full v1 v2 n t) -> P n.

Lemma counts_err P e : counts P (Err e).
Proof. intros v1 v2 n t H. discriminate. Qed.
Lemma counts_bind {A} P (m : res A) k : (forall x, m = Ok x -> counts P (k x)) -> counts P (bind m k).
Proof. destruct m; cbn [bind]; intros H; [exact (H _ eq_refl)|apply counts_err]. Qed.
Lemma counts_out (P : Z -> Prop) b v1 v2 n t : P n -> counts P (Ok (mk_out b v1 v2 n t)).
Proof. intros HP w1 w2 m u. destruct b; cbn; intros H; inversion H; subst; assumption. Qed.
Lemma counts_validated P a k : (forall r1 r2, counts P (k r1 r2)) -> counts P (validated a k).
Proof. intros H. unfold validated. apply counts_bind. intros _ _. apply counts_bind. intros r1 _. apply counts_bind. intros r2 _. apply H. Qed.

Lemma counts_weaken (P Q : Z -> Prop) r : (forall n, P n -> Q n) -> counts P r -> counts Q r.
Proof. intros H C v1 v2 n t E. exact (H _ (C _ _ _ _ E)). Qed.

Definition within (lo hi n : Z) : Prop := (lo <= n <= hi)%Z.

Lemma cnt_gauss c a : counts (within 1 (a_maxiter a)) (gauss1809 c a).
Proof.
  unfold gauss1809. apply counts_validated. intros r1 r2. cbv zeta.
  apply counts_bind. intros _ _. apply counts_bind. intros _ _.
  destruct (for_range _ _ _ _) as [[[n x] y]|?|?] eqn:E; try apply counts_err. apply gau_counted in E. cbn [fst] in E.
  apply counts_bind. intros t _. apply counts_bind. intros d _. destruct (gau_velocities _ _ _ _ _ _ _). apply counts_out. unfold within. lia.
Qed.
Lemma cnt_battin c a : counts (within 1 (a_maxiter a)) (battin1984 c a).
Proof.
  unfold battin1984. apply counts_validated. intros r1 r2. cbv zeta.
  destruct (for_range _ _ _ _) as [[[n x] y]|?|?] eqn:E; try apply counts_err. apply bat_counted in E. cbn [fst] in E.
  apply counts_bind. intros t _. destruct (bat_velocities _ _ _ _ _ _ _ _ _ _). apply counts_out. unfold within. lia.
Qed.
Lemma cnt_vallado c fuel a : counts (within 1 (a_maxiter a)) (vallado2013 c fuel a).
Proof.
  unfold vallado2013. apply counts_validated. intros r1 r2. cbv zeta.
  destruct (neqb _ _); [apply counts_err|].
  destruct (for_range _ _ _ _) as [[[n x] y]|?|?] eqn:E; try apply counts_err. apply val_counted in E. cbn [fst] in E.
  apply counts_bind. intros t _. destruct (val_velocities _ _ _ _ _ _ _). apply counts_out. unfold within. lia.
Qed.
Lemma cnt_arora ev a : counts (within 1 (a_maxiter a)) (arora2013 ev a).
Proof.
  unfold arora2013. apply counts_validated. intros r1 r2. cbv zeta.
  apply counts_bind. intros _ _. apply counts_bind. intros k0 _.
  destruct (for_range _ _ _ _) as [[n k]|?|?] eqn:E; try apply counts_err. apply aro_counted in E. cbn [fst] in E.
  apply counts_bind. intros t _. destruct (aro_velocities _ _ _ _ _ _ _ _ _ _). apply counts_out. unfold within. lia.
Qed.
Lemma cnt_avanzini ev a : counts (within 1 (a_maxiter a)) (avanzini2008 ev a).
Proof.
  unfold avanzini2008. apply counts_bind. intros _ _. apply counts_validated. intros r1 r2.
  apply counts_bind. intros g _. cbv zeta. apply counts_bind. intros [x n] E.
  assert (H : within 1 (a_maxiter a) n).
  { revert E. unfold ava_secant. intros E. apply bind_ok in E. destruct E as (f0 & _ & E). apply bind_ok in E. destruct E as (f1 & _ & E).
    destruct (for_range _ _ _ _) as [r|?|?] eqn:L; try discriminate. apply ava_counted in L. apply ok_inj in E. subst r. cbn [snd] in L.
    unfold within. lia. }
  apply counts_bind. intros t _. apply counts_bind. intros [v1 v2] _. apply counts_out. exact H.
Qed.

Lemma jia_solve_counted f lo up m atol rtol r :
  jia_solve_semimajor_axis f lo up m atol rtol = Ok r -> within 1 m (snd r).
Proof.
  unfold jia_solve_semimajor_axis. destruct (for_range _ _ _ _) as [r'|?|?] eqn:L; try discriminate.
  apply jia_counted in L. intros E. apply ok_inj in E. subst r'. unfold within. lia.
Qed.
Lemma cnt_jiang ev a : counts (fun n => n = 0 \/ 1 <= n <= a_maxiter a)%Z (jiang2016 ev a).
Proof.
  unfold jiang2016. apply counts_bind. intros _ _. apply counts_validated. intros r1 r2. cbv zeta.
  apply counts_bind. intros _ _. apply counts_bind. intros _ _. apply counts_bind. intros [p n] E.
  assert (H : (n = 0 \/ 1 <= n <= a_maxiter a)%Z).
  { revert E. unfold jia_solve_p. cbv zeta. destruct (np_isclose _ _ _ _); [intros E; apply ok_inj in E; inversion E; auto|].
    destruct (nltb _ _).
    - intros E. apply bind_ok in E. destruct E as ([sma k] & E & E'). apply ok_inj in E'. inversion E'; subst.
      unfold jia_find_and_solve_elliptic in E. apply bind_ok in E. destruct E as ([lo up] & _ & E). apply jia_solve_counted in E. right. exact E.
    - intros E. apply bind_ok in E. destruct E as ([sma k] & E & E'). apply ok_inj in E'. inversion E'; subst.
      unfold jia_find_and_solve_hyperbolic in E. apply bind_ok in E. destruct E as ([lo up] & _ & E). apply jia_solve_counted in E. right. exact E. }
  apply counts_bind. intros t _. destruct (jia_velocities _ _ _ _ _ _ _). apply counts_out. exact H.
Qed.

Lemma tor_find_within fuel P Q mu tof M lp mi atol rtol x n :
  tor_find_z fuel P Q mu tof M lp mi atol rtol = Ok (x, n) -> within 1 (Z.max 1 mi) n.
Proof.
  unfold tor_find_z. intros H. apply bind_ok in H. destruct H as ([lo hi] & _ & H). unfold tor_solve_bracketed in H. cbv zeta in H. unfold within.
  destruct (neqb _ _); [inversion H; lia|]. destruct (neqb _ _); [inversion H; lia|]. destruct (nltb _ _); [discriminate|].
  destruct (for_range _ _ _ _) as [r|?|?] eqn:E; try discriminate. apply tor_counted in E.
  inversion H; subst r. cbn [snd] in E. lia.
Qed.
Lemma cnt_delatorre ev a : counts (within 1 (Z.max 1 (a_maxiter a))) (delatorre2018 ev a).
Proof.
  unfold delatorre2018. apply counts_validated. intros r1 r2. cbv zeta.
  apply counts_bind. intros [z n] E. apply tor_find_within in E. destruct (tor_velocities _ _ _ _ _ _ _ _ _).
  apply counts_bind. intros t _. apply counts_out. exact E.
Qed.

Lemma mce_find_within tof n1 n2 m th M lp mi atol rtol x n :
  mce_find_x tof n1 n2 m th M lp mi atol rtol = Ok (x, n) -> within 1 (Z.max 1 (2 * mi)) n.
Proof.
  unfold within. unfold mce_find_x. destruct (M =? 0)%Z.
  - unfold mce_find_single_revolution_x. cbv zeta. destruct (nleb _ _); [intros H; inversion H; lia|].
    match goal with |- match ?t with _ => _ end = _ -> _ => destruct t as [[x0 lo] hi] end. unfold mce_solve_desired_x.
    destruct (for_range _ _ _ _) as [r|?|?] eqn:E; try discriminate. apply mce_desired_counted in E.
    intros H; inversion H; subst r. cbn [snd] in E. lia.
  - unfold mce_find_multi_revolution_x. cbv zeta. intros H. apply bind_ok in H. destruct H as ([xm mi0] & H0 & H).
    unfold mce_solve_minimum_x in H0. cbv zeta in H0. destruct (for_range _ _ _ _) as [r|?|?] eqn:E in H0; try discriminate. apply mce_minimum_counted in E.
    apply ok_inj in H0. subst r. cbn [snd] in E.
    destruct (nltb _ (_ - _)%num); [discriminate|]. destruct (nleb _ _).
    + apply ok_inj in H. inversion H. destruct (mi0 <? 1)%Z eqn:E'; lia.
    + destruct (mce_initial_guesses _ _ _ _ _ _ _) as [g1 g2]. apply bind_ok in H. destruct H as ([x' d] & Hd & H).
      unfold mce_solve_desired_x in Hd. cbv zeta in Hd. destruct (for_range _ _ _ _) as [r|?|?] eqn:E2 in Hd; try discriminate. apply mce_desired_counted in E2.
      apply ok_inj in Hd. subst r. cbn [snd] in E2.
      apply ok_inj in H. inversion H. destruct (mi0 + d <? 1)%Z eqn:E'; lia.
Qed.
Lemma cnt_mcelreath ev a : counts (within 1 (Z.max 1 (2 * a_maxiter a))) (mcelreath2025 ev a).
Proof.
  unfold mcelreath2025. apply counts_validated. intros r1 r2. cbv zeta.
  apply counts_bind. intros _ _. apply counts_bind. intros _ _. apply counts_bind. intros [x n] E. apply mce_find_within in E.
  apply counts_bind. intros t _. destruct (mce_velocities _ _ _ _ _ _ _ _). apply counts_out. exact E.
Qed.

Lemma cnt_negrete ev a : counts (fun n => n = Z.max 4 (a_maxiter a)) (negrete2024 ev a).
Proof.
  unfold negrete2024. apply counts_validated. intros r1 r2. cbv zeta.
  apply counts_bind. intros _ _. apply counts_bind. intros _ _. apply counts_bind. intros z _.
  apply counts_bind. intros t _. destruct (neg_velocities _ _ _ _ _ _ _). apply counts_out. reflexivity.
Qed.

Lemma der_find_within ev sigma tau tau_p M lp mi atol rtol r :
  der_find_path_parameter ev sigma tau tau_p M lp mi atol rtol = Ok r -> (snd r = 1 \/ snd r <= mi)%Z.
Proof.
  unfold der_find_path_parameter. destruct (_ && _); [intros H; apply ok_inj in H; subst r; left; reflexivity|]. cbv zeta.
  assert (EB : forall x0, der_solve_elliptic_bracketed ev sigma tau M x0 mi atol rtol = Ok r -> snd r = mi).
  { intros x0. unfold der_solve_elliptic_bracketed. destruct (if nltb x0 _ then _ else _) as [lo hi].
    intros H. apply bind_ok in H. destruct H as ([x k] & _ & H). apply ok_inj in H. subst r. reflexivity. }
  assert (HB : der_solve_hyperbolic_bracketed ev sigma tau mi atol rtol = Ok r -> snd r = mi).
  { unfold der_solve_hyperbolic_bracketed. cbv zeta. destruct (while_true _ _ _); try discriminate.
    intros H. apply bind_ok in H. destruct H as ([x k] & _ & H). apply ok_inj in H. subst r. reflexivity. }
  match goal with |- (if ?b then _ else _) = _ -> _ => destruct b end.
  - unfold der_solve_elliptic. match goal with |- context [for_range ?b ?n ?i ?s] => destruct (for_range b n i s) as [[r'|]|?|?] eqn:L end.
    + intros H; apply ok_inj in H; subst r'. apply der_elliptic_counted in L. right; lia.
    + intros H; right; rewrite (EB _ H); lia.
    + intros H; right; rewrite (EB _ H); lia.
    + intros H; right; rewrite (EB _ H); lia.
  - unfold der_solve_hyperbolic. match goal with |- context [for_range ?b ?n ?i ?s] => destruct (for_range b n i s) as [[r'|]|?|?] eqn:L end.
    + intros H; apply ok_inj in H; subst r'. apply der_hyperbolic_counted in L. right; lia.
    + intros H; right; rewrite (HB H); lia.
    + intros H; right; rewrite (HB H); lia.
    + intros H; right; rewrite (HB H); lia.
Qed.
Lemma cnt_der ev a : counts (fun n => n = 1 \/ n <= a_maxiter a)%Z (der2011 ev a).
Proof.
  unfold der2011. apply counts_validated. intros r1 r2. cbv zeta.
  apply counts_bind. intros _ _. apply counts_bind. intros _ _. apply counts_bind. intros _ _. apply counts_bind. intros _ _.
  apply counts_bind. intros [[x y] n] E. apply der_find_within in E. cbn [snd] in E. apply counts_bind. intros t _.
  destruct (der_velocities _ _ _ _ _ _ _ _ _ _). apply counts_out. exact E.
Qed.
End Budget.

(** ** C18 *)

(** If a solver reports an iteration count, it is within these bounds. *)
Theorem C18_count {N : Num} (s : solver) (ev : env) (a : args) v1 v2 n t :
  run s ev a = Ok (Full v1 v2 n t) ->
  match s with
  | Gauss | Battin | Vallado | Arora | Avanzini => (1 <= n <= a_maxiter a)%Z
  | Jiang => (n = 0 \/ 1 <= n <= a_maxiter a)%Z
  | Delatorre => (1 <= n <= Z.max 1 (a_maxiter a))%Z
  | McElreath => (1 <= n <= Z.max 1 (2 * a_maxiter a))%Z
  | Der => (n = 1 \/ n <= a_maxiter a)%Z
  | Negrete => n = Z.max 4 (a_maxiter a)
  | Izzo => False
  | Gooding | Pan | Thorne => True
  end.
Proof.
  destruct s; cbn [run]; intros H; try exact I.
  - exact (cnt_gauss _ _ _ _ _ _ H).
  - exact (cnt_battin _ _ _ _ _ _ H).
  - exact (cnt_jiang _ _ _ _ _ _ H).
  - exact (cnt_der _ _ _ _ _ _ H).
  - exact (cnt_avanzini _ _ _ _ _ _ H).
  - exact (cnt_arora _ _ _ _ _ _ H).
  - exact (cnt_vallado _ _ _ _ _ _ _ H).
  - revert H. unfold izzo2015. intros H. apply bind_ok in H. destruct H as (u & _ & H). apply bind_ok in H. destruct H as (r1 & _ & H).
    apply bind_ok in H. destruct H as (r2 & _ & H). cbv zeta in H. destruct (izzo_geometry _ _ _) as [[[[[[n1 n2] cn] sp] ll] it1] it2].
    apply bind_ok in H. destruct H as ([x y] & _ & H). destruct (izzo_velocities _ _ _ _ _ _ _ _ _ _ _ _). discriminate.
  - exact (cnt_negrete _ _ _ _ _ _ H).
  - exact (cnt_mcelreath _ _ _ _ _ _ H).
  - exact (cnt_delatorre _ _ _ _ _ _ H).
Qed.
Print Assumptions C18_count.

(** Without iterations there is no answer. *)
Theorem C18_no_budget {N : Num} (s : solver) (ev : env) (a : args) :
  In s [Gauss; Battin; Vallado; Arora; Avanzini; Izzo] -> (a_maxiter a <= 0)%Z ->
  forall o, run s ev a <> Ok o.
Proof.
  intros Hs Hm o H. assert (Z0 : Z.to_nat (a_maxiter a) = 0%nat) by lia.
  cbn in Hs. destruct Hs as [<-|[<-|[<-|[<-|[<-|[<-|[]]]]]]]; cbn [run] in H; revert H.
  - unfold gauss1809, validated. cbv zeta. rewrite Z0. cbn [for_range]. intros H. repeat (apply bind_ok in H; destruct H as (? & _ & H)). discriminate.
  - unfold battin1984, validated. cbv zeta. rewrite Z0. cbn [for_range]. intros H. repeat (apply bind_ok in H; destruct H as (? & _ & H)). discriminate.
  - unfold vallado2013, validated. cbv zeta. rewrite Z0. cbn [for_range]. intros H. repeat (apply bind_ok in H; destruct H as (? & _ & H)).
    destruct (neqb _ _); discriminate.
  - unfold arora2013, validated. cbv zeta. rewrite Z0. cbn [for_range]. intros H. repeat (apply bind_ok in H; destruct H as (? & _ & H)). discriminate.
  - unfold avanzini2008, validated. cbv zeta. unfold ava_secant. rewrite Z0. cbn [for_range]. intros H.
    do 5 (apply bind_ok in H; destruct H as (? & _ & H)). apply bind_ok in H. destruct H as (? & E & _).
    repeat (apply bind_ok in E; destruct E as (? & _ & E)). discriminate.
  - unfold izzo2015. intros H. apply bind_ok in H. destruct H as (u & _ & H). apply bind_ok in H. destruct H as (r1 & _ & H).
    apply bind_ok in H. destruct H as (r2 & _ & H). cbv zeta in H. destruct (izzo_geometry _ _ _) as [[[[[[n1 n2] cn] sp] ll] it1] it2].
    apply bind_ok in H. destruct H as ([x y] & E & _). unfold izzo_find_xy in E. destruct (negb _); [discriminate|]. cbv zeta in E.
    apply bind_ok in E. destruct E as (mm & _ & E). destruct (nltb _ _); [discriminate|]. apply bind_ok in E. destruct E as (x' & E & _).
    unfold izzo_householder in E. rewrite Z0 in E. discriminate.
Qed.
Print Assumptions C18_no_budget.

(** What is accepted passed the documented test, and the velocities are those of
    the accepted iterate.  (vallado2013: C13; arora2013: C14; delatorre2018: C15.) *)
Theorem C18_gauss_converged {N : Num} (ev : env) (a : args) (o : out) :
  run Gauss ev a = Ok o ->
  exists r1 r2 y0 dA,
    as_vec (a_r1 a) = Ok r1 /\ as_vec (a_r2 a) = Ok r2 /\
    let th := get_transfer_angle r1 r2 (a_is_prograde a) in
    let s := gau_get_s (norm r1) (norm r2) th in
    let x := gauss_first_equation y0 s (gau_get_w (a_mu a) (a_tof a) (norm r1) (norm r2) th) in
    let y := gauss_second_equation x s in
    (nabs (y - y0) <=? a_atol a = true /\ gau_delta_anomaly x = Ok dA
     /\ (out_v1 o, out_v2 o)
        = gau_velocities (a_mu a) r1 r2 (norm r1) (norm r2) th (gau_p (norm r1) (norm r2) th dA))%num.
Proof.
  cbn [run]. unfold gauss1809, validated. cbv zeta. intros H. apply bind_ok in H. destruct H as ([] & _ & H).
  apply bind_ok in H. destruct H as (r1 & E1 & H). apply bind_ok in H. destruct H as (r2 & E2 & H).
  apply bind_ok in H. destruct H as ([] & _ & H). apply bind_ok in H. destruct H as ([] & _ & H).
  destruct (for_range _ _ _ _) as [[[n x] y]|?|?] eqn:L; try discriminate.
  apply bind_ok in H. destruct H as (t & _ & H). apply bind_ok in H. destruct H as (dA & Ed & H).
  destruct (gau_velocities _ _ _ _ _ _ _) as [v1 v2] eqn:Ev. apply ok_inj in H.
  destruct (for_range_inv _ (fun _ _ => True) _ _ _ _ I (fun _ _ _ _ _ _ => I) L) as (j & y0 & _ & _ & E).
  unfold gau_body in E. cbv zeta in E. destruct (nleb _ _) eqn:T in E; [|discriminate]. inversion E; subst n x y.
  exists r1, r2, y0, dA. repeat (split; [assumption|]). rewrite Ev. subst o. unfold mk_out. destruct (a_full_output a); reflexivity.
Qed.
Print Assumptions C18_gauss_converged.

Theorem C18_battin_converged {N : Num} (ev : env) (a : args) (o : out) :
  run Battin ev a = Ok o ->
  exists r1 r2 x0,
    as_vec (a_r1 a) = Ok r1 /\ as_vec (a_r2 a) = Ok r2 /\
    let c := norm (vsub r2 r1) in
    let s := ((norm r1 + norm r2 + c) / #2)%num in
    let l := bat_lambda c s (get_transfer_angle r1 r2 (a_is_prograde a)) in
    let m := bat_m (a_mu a) (a_tof a) s l in
    let '(h1, h2) := bat_h_coefficients x0 (bat_ll l) m in
    let y := battin_second_equation (bat_u_at_h h1 h2) h1 h2 in
    let x := battin_first_equation y (bat_ll l) m in
    (nabs (x - x0) <=? a_atol a = true
     /\ (out_v1 o, out_v2 o) = bat_velocities (a_tof a) r1 r2 (norm r1) (norm r2) s l m x y)%num.
Proof.
  cbn [run]. unfold battin1984, validated. cbv zeta. intros H. apply bind_ok in H. destruct H as ([] & _ & H).
  apply bind_ok in H. destruct H as (r1 & E1 & H). apply bind_ok in H. destruct H as (r2 & E2 & H).
  destruct (for_range _ _ _ _) as [[[n x] y]|?|?] eqn:L; try discriminate.
  apply bind_ok in H. destruct H as (t & _ & H).
  destruct (bat_velocities _ _ _ _ _ _ _ _ _ _) as [v1 v2] eqn:Ev. apply ok_inj in H.
  destruct (for_range_inv _ (fun _ _ => True) _ _ _ _ I (fun _ _ _ _ _ _ => I) L) as (j & x0 & _ & _ & E).
  exists r1, r2, x0. split; [assumption|]. split; [assumption|].
  unfold bat_body in E. cbv zeta in E. cbv zeta. destruct (bat_h_coefficients _ _ _) as [h1 h2].
  destruct (nleb _ _) eqn:T in E; [|discriminate]. inversion E; subst n x y.
  split; [assumption|]. rewrite Ev. subst o. unfold mk_out. destruct (a_full_output a); reflexivity.
Qed.
Print Assumptions C18_battin_converged.

Theorem C18_izzo_converged {N : Num} (ev : env) (a : args) (o : out) :
  run Izzo ev a = Ok o ->
  exists r1 r2 x0 x,
    as_vec (a_r1 a) = Ok r1 /\ as_vec (a_r2 a) = Ok r2 /\
    let '(n1, n2, c, s, ll, i_t1, i_t2) := izzo_geometry r1 r2 (a_is_prograde a) in
    (nabs (x - x0) <? a_rtol a * nabs x0 + a_atol a = true
     /\ izzo_householder_body (nsqrt (#2 * a_mu a / cube s) * a_tof a) ll (nofZ (a_M a)) (a_atol a) (a_rtol a) 1 x0 = Break x
     /\ (out_v1 o, out_v2 o) = izzo_velocities (a_mu a) r1 r2 n1 n2 c s ll i_t1 i_t2 x (izzo_y x ll))%num.
Proof.
  cbn [run]. unfold izzo2015. intros H. apply bind_ok in H. destruct H as (u & _ & H). apply bind_ok in H. destruct H as (r1 & E1 & H).
  apply bind_ok in H. destruct H as (r2 & E2 & H). cbv zeta in H. 
  destruct (izzo_geometry _ _ _) as [[[[[[n1 n2] cn] sp] ll] it1] it2] eqn:EG.
  apply bind_ok in H. destruct H as ([x y] & E & H). destruct (izzo_velocities _ _ _ _ _ _ _ _ _ _ _ _) as [v1 v2] eqn:Ev.
  apply ok_inj in H.
  unfold izzo_find_xy in E. destruct (negb _); [discriminate|]. cbv zeta in E.
  apply bind_ok in E. destruct E as (mm & _ & E). destruct (nltb _ _); [discriminate|]. apply bind_ok in E. destruct E as (x' & E & E').
  apply ok_inj in E'. inversion E'; subst x' y.
  unfold izzo_householder in E. destruct (for_range _ _ _ _) as [x'|?|?] eqn:L; try discriminate. apply ok_inj in E. subst x'.
  destruct (for_range_inv _ (fun _ _ => True) _ _ _ _ I (fun _ _ _ _ _ _ => I) L) as (j & x0 & _ & _ & B).
  exists r1, r2, x0, x. split; [assumption|]. split; [assumption|]. rewrite EG.
  assert (T : nltb (nabs (x - x0)) (a_rtol a * nabs x0 + a_atol a)%num = true).
  { unfold izzo_householder_body in B. cbv zeta in B. destruct (nltb _ _) eqn:T in B; [|discriminate]. inversion B. subst x. exact T. }
  split; [exact T|]. split; [exact B|]. rewrite Ev, <- H. reflexivity.
Qed.
Print Assumptions C18_izzo_converged.

(** ** C20 *)
Section Mono.
Context {N : Num}.

Definition grows {A} (x y : res A) : Prop := forall o, x = Ok o -> y = Ok o.

Lemma grows_refl {A} (x : res A) : grows x x.
Proof. intros o H; exact H. Qed.
Lemma grows_err {A} e (y : res A) : grows (Err e) y.
Proof. intros o H; discriminate. Qed.
Lemma grows_bind {A B} (m m' : res A) (k k' : A -> res B) :
  grows m m' -> (forall x, grows (k x) (k' x)) -> grows (bind m k) (bind m' k').
Proof.
  intros Hm Hk o H. apply bind_ok in H. destruct H as (x & E & H). rewrite (Hm _ E). cbn [bind]. exact (Hk _ _ H).
Qed.
Lemma grows_validated m a (k k' : vec num -> vec num -> res out) :
  (forall r1 r2, grows (k r1 r2) (k' r1 r2)) -> grows (validated a k) (validated (with_maxiter m a) k').
Proof.
  intros H. unfold validated. cbn [with_maxiter a_mu a_r1 a_r2 a_tof a_M].
  apply grows_bind; [apply grows_refl|]. intros _. apply grows_bind; [apply grows_refl|]. intros r1.
  apply grows_bind; [apply grows_refl|]. intros r2. apply H.
Qed.
Lemma grows_loop {A S B} (body : Z -> S -> flow A S) n n' i s (kb : A -> res B) (kn kn' : S -> res B) (kr : exn -> res B) :
  (n <= n')%nat -> (forall t o, kn t <> Ok o) ->
  grows (match for_range body n i s with Break r => kb r | Next t => kn t | Raise e => kr e end)
        (match for_range body n' i s with Break r => kb r | Next t => kn' t | Raise e => kr e end).
Proof.
  intros Hn Hk o. destruct (for_range body n i s) as [r|t|e] eqn:E.
  - rewrite (for_range_break_mono _ _ _ _ _ _ E Hn). auto.
  - intros H. elim (Hk _ _ H).
  - rewrite (for_range_raise_mono _ _ _ _ _ _ E Hn). auto.
Qed.

Ltac opn := cbn [with_maxiter a_mu a_r1 a_r2 a_tof a_M a_is_prograde a_is_low_path
   a_maxiter a_atol a_rtol a_full_output e_clock e_fuel e_brentq e_minimize].
Ltac same := apply grows_bind; [apply grows_refl|let u := fresh "u" in intros u].

Variables (a : args) (m : Z).
Hypothesis Hm : (a_maxiter a <= m)%Z.

Lemma Hn : (Z.to_nat (a_maxiter a) <= Z.to_nat m)%nat.
Proof. lia. Qed.

Lemma grows_gauss c : grows (gauss1809 c a) (gauss1809 c (with_maxiter m a)).
Proof.
  unfold gauss1809. apply grows_validated. intros r1 r2. opn. cbv zeta. same. same. 
  apply (grows_loop _ _ _ _ _ (fun '(numiter, x, y) => _) (fun _ => Err _) _ (fun e => Err e)); [apply Hn|discriminate].
Qed.
Lemma grows_battin c : grows (battin1984 c a) (battin1984 c (with_maxiter m a)).
Proof.
  unfold battin1984. apply grows_validated. intros r1 r2. opn. cbv zeta.
  apply (grows_loop _ _ _ _ _ (fun '(numiter, x, y) => _) (fun _ => Err _) _ (fun e => Err e)); [apply Hn|discriminate].
Qed.
Lemma grows_vallado c fuel : grows (vallado2013 c fuel a) (vallado2013 c fuel (with_maxiter m a)).
Proof.
  unfold vallado2013. apply grows_validated. intros r1 r2. opn. cbv zeta. destruct (neqb _ _); [apply grows_refl|].
  apply (grows_loop _ _ _ _ _ (fun '(numiter, x, y) => _) (fun _ => Err _) _ (fun e => Err e)); [apply Hn|discriminate].
Qed.
Lemma grows_arora ev : grows (arora2013 ev a) (arora2013 ev (with_maxiter m a)).
Proof.
  unfold arora2013. apply grows_validated. intros r1 r2. opn. cbv zeta. same. same.
  apply (grows_loop _ _ _ _ _ (fun '(numiter, x) => _) (fun _ => Err _) _ (fun e => Err e)); [apply Hn|discriminate].
Qed.
Lemma grows_avanzini ev : grows (avanzini2008 ev a) (avanzini2008 ev (with_maxiter m a)).
Proof.
  unfold avanzini2008. opn. same. apply grows_validated. intros r1 r2. opn. same. cbv zeta.
  apply grows_bind; [|intros [x n]; apply grows_refl]. unfold ava_secant. same. cbv zeta. same.
  apply (grows_loop _ _ _ _ _ (fun r => Ok r) (fun _ => Err _) _ (fun e => Err e)); [apply Hn|discriminate].
Qed.
Lemma grows_jiang ev : grows (jiang2016 ev a) (jiang2016 ev (with_maxiter m a)).
Proof.
  unfold jiang2016. opn. same. apply grows_validated. intros r1 r2. opn. cbv zeta. same. same.
  apply grows_bind; [|intros [p n]; apply grows_refl]. unfold jia_solve_p. opn. cbv zeta.
  destruct (np_isclose _ _ _ _); [apply grows_refl|].
  assert (J : forall f lo up, grows (jia_solve_semimajor_axis f lo up (a_maxiter a) (a_atol a) (a_rtol a)) (jia_solve_semimajor_axis f lo up m (a_atol a) (a_rtol a))).
  { intros f lo up. unfold jia_solve_semimajor_axis. cbv zeta.
    apply (grows_loop _ _ _ _ _ (fun r => Ok r) (fun _ => Err _) _ (fun e => Err e)); [apply Hn|discriminate]. }
  destruct (nltb _ _); (apply grows_bind; [|intros [p n]; apply grows_refl]).
  - unfold jia_find_and_solve_elliptic. apply grows_bind; [apply grows_refl|]. intros [lo up]. apply J.
  - unfold jia_find_and_solve_hyperbolic. apply grows_bind; [apply grows_refl|]. intros [lo up]. apply J.
Qed.
Lemma grows_delatorre ev : grows (delatorre2018 ev a) (delatorre2018 ev (with_maxiter m a)).
Proof.
  unfold delatorre2018. apply grows_validated. intros r1 r2. opn. cbv zeta.
  apply grows_bind; [|intros [p n]; apply grows_refl]. unfold tor_find_z. apply grows_bind; [apply grows_refl|]. intros [lo up].
  unfold tor_solve_bracketed. cbv zeta. destruct (neqb _ _); [apply grows_refl|]. destruct (neqb _ _); [apply grows_refl|].
  destruct (nltb _ _); [apply grows_refl|].
  apply (grows_loop _ _ _ _ _ (fun r => Ok r) (fun _ => Err _) _ (fun e => Err e)); [apply Hn|discriminate].
Qed.
Lemma grows_mcelreath ev : grows (mcelreath2025 ev a) (mcelreath2025 ev (with_maxiter m a)).
Proof.
  unfold mcelreath2025. apply grows_validated. intros r1 r2. opn. cbv zeta. same. same.
  apply grows_bind; [|intros [p n]; apply grows_refl].
  assert (J : forall x tof s q M lo hi, grows (mce_solve_desired_x x tof s q M lo hi (a_maxiter a) (a_rtol a)) (mce_solve_desired_x x tof s q M lo hi m (a_rtol a))).
  { intros. unfold mce_solve_desired_x. cbv zeta.
    apply (grows_loop _ _ _ _ _ (fun r => Ok r) (fun _ => Err _) _ (fun e => Err e)); [apply Hn|discriminate]. }
  unfold mce_find_x. cbv zeta. destruct (_ =? 0)%Z.
  - unfold mce_find_single_revolution_x. cbv zeta. destruct (nleb _ _); [apply grows_refl|].
    match goal with |- grows (match ?t with _ => _ end) _ => destruct t as [[x0 lo] hi] end. apply J.
  - unfold mce_find_multi_revolution_x. cbv zeta. apply grows_bind.
    + unfold mce_solve_minimum_x. cbv zeta.
      apply (grows_loop _ _ _ _ _ (fun r => Ok r) (fun _ => Err _) _ (fun e => Err e)); [apply Hn|discriminate].
    + intros [xm k]. destruct (nltb _ (_ - _)%num); [apply grows_refl|]. destruct (nleb _ _); [apply grows_refl|].
      destruct (mce_initial_guesses _ _ _ _ _ _ _). apply grows_bind; [apply J|]. intros [x d]. apply grows_refl.
Qed.
Lemma grows_izzo : grows (izzo2015 a) (izzo2015 (with_maxiter m a)).
Proof.
  unfold izzo2015. opn. same. same. same. cbv zeta. destruct (izzo_geometry _ _ _) as [[[[[[n1 n2] cn] sp] ll] it1] it2].
  apply grows_bind; [|intros [x y]; apply grows_refl]. unfold izzo_find_xy. cbv zeta. destruct (negb _); [apply grows_refl|].
  apply grows_bind.
  - destruct (_ && _); [|apply grows_refl]. apply grows_bind; [|intros [x y]; apply grows_refl].
    unfold izzo_T_min. cbv zeta. destruct (neqb _ _); [apply grows_refl|]. destruct (neqb _ _); [apply grows_refl|].
    apply grows_bind; [|intros x; apply grows_refl]. unfold izzo_halley.
    apply (grows_loop _ _ _ _ _ (fun r => Ok r) (fun _ => Err _) _ (fun e => Err e)); [apply Hn|discriminate].
  - intros mm. destruct (nltb _ _); [apply grows_refl|]. apply grows_bind; [|intros x; apply grows_refl]. unfold izzo_householder.
    apply (grows_loop _ _ _ _ _ (fun r => Ok r) (fun _ => Err _) _ (fun e => Err e)); [apply Hn|discriminate].
Qed.

(** [brentq] itself keeps its answer when given more iterations. *)
Definition brentq_monotone (ev : env) : Prop :=
  forall f lo hi xtol rtol n n' r, (n <= n')%Z ->
    e_brentq ev f lo hi xtol rtol n = Ok r -> e_brentq ev f lo hi xtol rtol n' = Ok r.

Lemma grows_thorne ev : brentq_monotone ev -> grows (thorne2004 ev a) (thorne2004 ev (with_maxiter m a)).
Proof.
  intros HB. unfold thorne2004. opn. same. apply grows_validated. intros r1 r2. opn. cbv zeta.
  apply grows_bind; [|intros [[p q] n]; apply grows_refl]. unfold tho_semimajor_axis. cbv zeta.
  destruct (np_isclose _ _ _ _); [apply grows_refl|]. apply grows_bind; [apply grows_refl|]. intros [[b lo] up].
  apply grows_bind; [|intros [x k]; apply grows_refl]. intros r. apply HB. exact Hm.
Qed.
End Mono.

(** Raising [maxiter] never changes an answer. *)
Theorem C20_larger_budget {N : Num} (s : solver) (ev : env) (a : args) (m : Z) (o : out) :
  In s [Gauss; Battin; Vallado; Avanzini; Arora; Jiang; Delatorre; McElreath; Izzo] ->
  (a_maxiter a <= m)%Z ->
  run s ev a = Ok o -> run s ev (with_maxiter m a) = Ok o.
Proof.
  intros Hs Hm. cbn [In] in Hs.
  destruct Hs as [<-|[<-|[<-|[<-|[<-|[<-|[<-|[<-|[<-|[]]]]]]]]]]; cbn [run].
  - exact (grows_gauss a m Hm _ o).
  - exact (grows_battin a m Hm _ o).
  - exact (grows_vallado a m Hm _ _ o).
  - exact (grows_avanzini a m Hm _ o).
  - exact (grows_arora a m Hm _ o).
  - exact (grows_jiang a m Hm _ o).
  - exact (grows_delatorre a m Hm _ o).
  - exact (grows_mcelreath a m Hm _ o).
  - exact (grows_izzo a m Hm o).
Qed.
Print Assumptions C20_larger_budget.

Theorem C20_thorne {N : Num} (ev : env) (a : args) (m : Z) (o : out) :
  brentq_monotone ev -> (a_maxiter a <= m)%Z ->
  run Thorne ev a = Ok o -> run Thorne ev (with_maxiter m a) = Ok o.
Proof. intros HB Hm. exact (grows_thorne a m Hm ev HB o). Qed.
Print Assumptions C20_thorne.
