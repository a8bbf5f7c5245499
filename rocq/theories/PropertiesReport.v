(** * C38, C39: the benchmark report. *)
From Coq Require Import Reals ZArith Bool String Ascii List Permutation Lra Lia.
From Verif Require Import Num MApi XReal XRealLemmas MReport.
Import ListNotations.
Local Open Scope R_scope.

(** ** Dictionaries *)
Lemma key_eqb_eq a b : key_eqb a b = true <-> a = b.
Proof.
  destruct a as [[[n1 m1] p1] l1], b as [[[n2 m2] p2] l2]. unfold key_eqb.
  rewrite !andb_true_iff, String.eqb_eq, Z.eqb_eq, !Bool.eqb_true_iff. split.
  - intros [[[-> ->] ->] ->]. reflexivity.
  - intros E. injection E as -> -> -> ->. auto.
Qed.
Lemma key_eqb_refl a : key_eqb a a = true.
Proof. now apply key_eqb_eq. Qed.
Lemma key_dec (a b : key) : {a = b} + {a <> b}.
Proof. destruct (key_eqb a b) eqn:E; [left; now apply key_eqb_eq|right; intros ->; now rewrite key_eqb_refl in E]. Qed.

Lemma dict_get_cons {A} k s (a : A) d k' s' df :
  dict_get (((k, s), a) :: d) k' s' df = if key_eqb k' k && String.eqb s' s then a else dict_get d k' s' df.
Proof. reflexivity. Qed.

Lemma fold_dict {A} (step : dict A -> key -> dict A) k s df v :
  (forall d k', k' <> k -> dict_get (step d k') k s df = dict_get d k s df) ->
  (forall d, dict_get (step d k) k s df = v) ->
  forall ks d, In k ks -> dict_get (fold_left step ks d) k s df = v.
Proof.
  intros HF HH. assert (FR : forall ks d, ~ In k ks -> dict_get (fold_left step ks d) k s df = dict_get d k s df).
  { induction ks as [|k' ks IH]; intros d NI; [reflexivity|]. cbn [fold_left]. rewrite IH by (intros I; apply NI; now right).
    apply HF. intros ->. apply NI. now left. }
  induction ks as [|k' ks IH]; intros d I; [destruct I|]. cbn [fold_left].
  destruct (in_dec key_dec k ks) as [J|J]; [now apply IH|]. rewrite FR by assumption.
  destruct I as [->|I]; [apply HH|contradiction].
Qed.

Section Generic.
Context {N : Num}.

Lemma case_keys_in (b : bench) bs : forall seen, In b bs -> In (b_key b) (case_keys seen bs) \/ In (b_key b) seen.
Proof.
  induction bs as [|c bs IH]; intros seen I; [destruct I|]. cbn [case_keys].
  destruct (existsb (key_eqb (b_key c)) seen) eqn:E.
  - destruct I as [->|I]; [|now apply IH]. right. apply existsb_exists in E. destruct E as (x & Hx & E). apply key_eqb_eq in E. now rewrite E.
  - destruct I as [->|I]; [left; now left|]. destruct (IH (b_key c :: seen) I) as [J|[J|J]]; [left; now right|left; now left|now right].
Qed.
Lemma key_listed (b : bench) bs : In b bs -> In (b_key b) (case_keys [] bs).
Proof. intros I. destruct (case_keys_in b bs [] I) as [H|[]]. exact H. Qed.

Lemma case_entries_in k (b : bench) bs : In b (case_entries k bs) <-> In b bs /\ b_key b = k.
Proof.
  unfold case_entries. rewrite filter_In. split; intros [H1 H2]; split; auto; [symmetry; now apply key_eqb_eq|now apply key_eqb_eq].
Qed.

(** ** Sorting *)
Lemma insert_perm (b : bench) l : Permutation (insert_bench b l) (b :: l).
Proof.
  induction l as [|c l IH]; [reflexivity|]. cbn [insert_bench]. destruct (nltb _ _); [|reflexivity].
  rewrite IH. apply perm_swap.
Qed.
Lemma sort_perm (l : list bench) : Permutation (sort_benches l) l.
Proof. induction l as [|b l IH]; [reflexivity|]. cbn [sort_benches]. rewrite insert_perm. now constructor. Qed.

(** ** Ranks *)
Lemma rank_frame k k' s df : k' <> k -> forall (l : list bench) i d, dict_get (rank_entries k' i l d) k s df = dict_get d k s df.
Proof.
  intros NE. induction l as [|b l IH]; intros i d; [reflexivity|]. cbn [rank_entries]. rewrite IH, dict_get_cons.
  destruct (key_eqb k k') eqn:E; [apply key_eqb_eq in E; congruence|reflexivity].
Qed.
Lemma rank_absent k s df : forall (l : list bench) i d, ~ In s (map b_solver l) -> dict_get (rank_entries k i l d) k s df = dict_get d k s df.
Proof.
  induction l as [|b l IH]; intros i d NI; [reflexivity|]. cbn [rank_entries]. cbn [map In] in NI. rewrite IH by tauto. rewrite dict_get_cons.
  destruct (String.eqb s (b_solver b)) eqn:E; [apply String.eqb_eq in E; exfalso; apply NI; auto|]. now rewrite andb_false_r.
Qed.
Lemma rank_nth k df : forall (l : list bench) i d j b, NoDup (map b_solver l) -> nth_error l j = Some b ->
  dict_get (rank_entries k i l d) k (b_solver b) df = (i + Z.of_nat j)%Z.
Proof.
  induction l as [|c l IH]; intros i d j b ND E; [destruct j; discriminate|]. cbn [map] in ND. inversion ND as [|x y NI ND']; subst.
  cbn [rank_entries]. destruct j as [|j].
  - injection E as ->. rewrite rank_absent by assumption. rewrite dict_get_cons, key_eqb_refl, String.eqb_refl. cbn [andb]. lia.
  - cbn [nth_error] in E. rewrite (IH _ _ j b ND' E). lia.
Qed.

Lemma row_rank_value bs k (b : bench) j :
  NoDup (map b_solver (case_entries k bs)) -> nth_error (sort_benches (case_entries k bs)) j = Some b ->
  row_rank bs b = (1 + Z.of_nat j)%Z.
Proof.
  intros ND E. set (es := case_entries k bs) in *.
  assert (IB : In b es) by (apply (Permutation_in b (sort_perm es)); now apply nth_error_In with j).
  pose proof (proj1 (case_entries_in k b bs) IB) as [I EK].
  unfold row_rank, rank_within_case. rewrite EK.
  apply (fold_dict (fun d k => rank_entries k 1 (sort_benches (case_entries k bs)) d) k (b_solver b) 0%Z).
  - intros d k' NE. now apply rank_frame.
  - intros d. apply rank_nth; [|exact E]. fold es. apply (Permutation_NoDup (l := map b_solver es)); [|exact ND].
    apply Permutation_map, Permutation_sym, sort_perm.
  - rewrite <- EK. now apply key_listed.
Qed.

Lemma map_ranks_seq (f : bench -> Z) l : forall i, (forall j b, nth_error l j = Some b -> f b = (Z.of_nat i + Z.of_nat j)%Z) ->
  map f l = map Z.of_nat (seq i (length l)).
Proof.
  induction l as [|c l IH]; intros i H; [reflexivity|]. cbn [map length seq]. f_equal.
  - rewrite (H 0%nat c eq_refl). lia.
  - apply IH. intros j b E. rewrite (H (S j) b E). lia.
Qed.

(** ** Speed-ups *)
Lemma speed_frame k k' s slow df : k' <> k -> forall (l : list bench) d, dict_get (speedup_entries k' slow l d) k s df = dict_get d k s df.
Proof.
  intros NE. unfold speedup_entries. induction l as [|b l IH]; intros d; [reflexivity|]. cbn [fold_left]. rewrite IH, dict_get_cons.
  destruct (key_eqb k k') eqn:E; [apply key_eqb_eq in E; congruence|reflexivity].
Qed.
Lemma speed_absent k s slow df : forall (l : list bench) d, ~ In s (map b_solver l) -> dict_get (speedup_entries k slow l d) k s df = dict_get d k s df.
Proof.
  unfold speedup_entries. induction l as [|b l IH]; intros d NI; [reflexivity|]. cbn [fold_left]. cbn [map In] in NI. rewrite IH by tauto. rewrite dict_get_cons.
  destruct (String.eqb s (b_solver b)) eqn:E; [apply String.eqb_eq in E; exfalso; apply NI; auto|]. now rewrite andb_false_r.
Qed.
Lemma speed_hit k slow df (b : bench) : forall (l : list bench) d, NoDup (map b_solver l) -> In b l ->
  dict_get (speedup_entries k slow l d) k (b_solver b) df = if nltb (nofZ 0) (b_median b) then ndiv slow (b_median b) else nofZ 1.
Proof.
  induction l as [|c l IH]; intros d ND I; [destruct I|]. cbn [map] in ND. inversion ND as [|x y NI ND']; subst.
  destruct I as [->|I].
  - change (speedup_entries k slow (b :: l) d) with (speedup_entries k slow l (((k, b_solver b), if nltb (nofZ 0) (b_median b) then ndiv slow (b_median b) else nofZ 1) :: d)).
    rewrite speed_absent by assumption. rewrite dict_get_cons, key_eqb_refl, String.eqb_refl. reflexivity.
  - change (speedup_entries k slow (c :: l) d) with (speedup_entries k slow l (((k, b_solver c), if nltb (nofZ 0) (b_median c) then ndiv slow (b_median c) else nofZ 1) :: d)).
    now apply IH.
Qed.
Lemma row_speedup_value bs k (b : bench) : NoDup (map b_solver (case_entries k bs)) -> In b (case_entries k bs) ->
  row_speedup bs b = if nltb (nofZ 0) (b_median b) then ndiv (slowest_of (case_entries k bs)) (b_median b) else nofZ 1.
Proof.
  intros ND IB. pose proof (proj1 (case_entries_in k b bs) IB) as [I EK]. unfold row_speedup, speedup_within_case. rewrite EK.
  apply (fold_dict (fun d k => let es := case_entries k bs in speedup_entries k (slowest_of es) es d) k (b_solver b) (nofZ 1)).
  - intros d k' NE. now apply speed_frame.
  - intros d. now apply speed_hit.
  - rewrite <- EK. now apply key_listed.
Qed.
End Generic.

(** ** C38 *)

(** The entries [es] of the case [k] among the benchmarks [bs]. *)
Definition is_case {N : Num} (bs es : list bench) (k : key) : Prop :=
  NoDup (map b_solver es) /\ exists other, Permutation bs (es ++ other) /\
  (forall b, In b es -> b_key b = k) /\ (forall b, In b other -> b_key b <> k).

Lemma is_case_entries {N : Num} bs es k : is_case bs es k -> Permutation es (case_entries k bs).
Proof.
  intros (_ & other & P & H1 & H2). unfold case_entries.
  assert (F : forall l l' : list bench, Permutation l l' -> Permutation (filter (fun b => key_eqb k (b_key b)) l) (filter (fun b => key_eqb k (b_key b)) l')).
  { induction 1 as [|x l l' _ IH|x y l|l l' l'' _ IH1 _ IH2]; cbn [filter].
    - constructor.
    - destruct (key_eqb k (b_key x)); [now constructor|assumption].
    - destruct (key_eqb k (b_key x)), (key_eqb k (b_key y)); try reflexivity. apply perm_swap.
    - now transitivity (filter (fun b => key_eqb k (b_key b)) l'). }
  rewrite (F _ _ P), filter_app.
  assert (E1 : filter (fun b => key_eqb k (b_key b)) es = es).
  { clear - H1. induction es as [|b es IH]; [reflexivity|]. cbn [filter]. rewrite (H1 b (or_introl eq_refl)), key_eqb_refl. f_equal. apply IH. intros c Hc. apply H1. now right. }
  assert (E2 : filter (fun b => key_eqb k (b_key b)) other = []).
  { clear - H2. induction other as [|b other IH]; [reflexivity|]. cbn [filter]. destruct (key_eqb k (b_key b)) eqn:E.
    - apply key_eqb_eq in E. exfalso. apply (H2 b (or_introl eq_refl)). auto.
    - apply IH. intros c Hc. apply H2. now right. }
  rewrite E1, E2, app_nil_r. reflexivity.
Qed.

(** In a case where no solver is measured twice the ranks are exactly
    [1, ..., n], in every arithmetic. *)
Theorem C38_ranks_are_1_to_n : forall (N : Num) bs es k, is_case bs es k ->
  Permutation (map (row_rank bs) es) (map Z.of_nat (seq 1 (length es))).
Proof.
  intros N bs es k H. pose proof (is_case_entries _ _ _ H) as P. destruct H as [ND _].
  assert (ND' : NoDup (map b_solver (case_entries k bs))) by (apply (Permutation_NoDup (l := map b_solver es)); [now apply Permutation_map|exact ND]).
  rewrite (Permutation_map _ P). rewrite (Permutation_length P).
  rewrite <- (Permutation_map _ (sort_perm (case_entries k bs))). rewrite <- (Permutation_length (sort_perm (case_entries k bs))).
  rewrite (map_ranks_seq _ _ 1); [reflexivity|]. intros j b E. now apply (row_rank_value bs k).
Qed.
Print Assumptions C38_ranks_are_1_to_n.

Inductive sorted (t : @bench XR -> R) : list (@bench XR) -> Prop :=
| so_nil : sorted t []
| so_cons b l : (forall c, In c l -> t b <= t c) -> sorted t l -> sorted t (b :: l).

Lemma insert_sorted (t : @bench XR -> R) b l : (forall c, In c (b :: l) -> b_median c = Fin (t c)) ->
  sorted t l -> sorted t (insert_bench b l).
Proof.
  intros HM S. induction S as [|c l HC S IH]; [constructor; [intros ? []|constructor]|]. cbn [insert_bench].
  rewrite (HM b (or_introl eq_refl)), (HM c (or_intror (or_introl eq_refl))).
  destruct (@nltb XR (Fin (t c)) (Fin (t b))) eqn:E.
  - apply xltb_F in E. constructor.
    + intros d Hd. apply (Permutation_in d (insert_perm b l)) in Hd. destruct Hd as [<-|Hd]; [lra|now apply HC].
    + apply IH. intros d [<-|Hd]; apply HM; [now left|right; now right].
  - apply xltb_Ff in E. constructor; [|now constructor]. intros d [<-|Hd]; [lra|]. specialize (HC d Hd). lra.
Qed.
Lemma sort_sorted (t : @bench XR -> R) l : (forall c, In c l -> b_median c = Fin (t c)) -> sorted t (sort_benches l).
Proof.
  induction l as [|b l IH]; intros HM; [constructor|]. cbn [sort_benches]. apply insert_sorted.
  - intros c [<-|Hc]; apply HM; [now left|right]. now apply (Permutation_in c (sort_perm l)).
  - apply IH. intros c Hc. apply HM. now right.
Qed.
Lemma sorted_nth t l : sorted t l -> forall i j b c, (i < j)%nat -> nth_error l i = Some b -> nth_error l j = Some c -> t b <= t c.
Proof.
  induction 1 as [|x l HX S IH]; intros i j b c L E1 E2; [destruct i; discriminate|].
  destruct j as [|j]; [lia|]. destruct i as [|i].
  - injection E1 as <-. apply HX. now apply nth_error_In with j.
  - apply (IH i j b c); [lia|assumption|assumption].
Qed.

(** A smaller rank means a smaller or equal median. *)
Theorem C38_ranks_follow_medians : forall (bs es : list (@bench XR)) k (t : bench -> R),
  is_case bs es k -> (forall b, In b es -> b_median b = Fin (t b)) ->
  forall a b, In a es -> In b es -> (row_rank bs a < row_rank bs b)%Z -> t a <= t b.
Proof.
  intros bs es k t H HM a b Ia Ib L. pose proof (is_case_entries _ _ _ H) as P. destruct H as [ND _].
  assert (ND' : NoDup (map b_solver (case_entries k bs))) by (apply (Permutation_NoDup (l := map b_solver es)); [now apply Permutation_map|exact ND]).
  assert (Q : Permutation es (sort_benches (case_entries k bs))) by (rewrite sort_perm; exact P).
  apply (Permutation_in a Q) in Ia. apply (Permutation_in b Q) in Ib. apply In_nth_error in Ia, Ib. destruct Ia as [i Ea], Ib as [j Eb].
  rewrite (row_rank_value bs k a i ND' Ea), (row_rank_value bs k b j ND' Eb) in L.
  apply (sorted_nth t (sort_benches (case_entries k bs))) with i j; try assumption; [|lia].
  apply sort_sorted. intros c Hc. apply HM. now apply (Permutation_in c (Permutation_sym P)).
Qed.
Print Assumptions C38_ranks_follow_medians.

Lemma slowest_max (t : @bench XR -> R) l : (forall c, In c l -> b_median c = Fin (t c)) -> forall m,
  exists M, slowest (Fin m) l = Fin M /\ m <= M /\ (forall c, In c l -> t c <= M) /\ (M = m \/ exists c, In c l /\ t c = M).
Proof.
  induction l as [|b l IH]; intros HM m.
  - exists m. cbn. repeat split; auto; [lra|intros c []].
  - cbn [slowest]. rewrite (HM b (or_introl eq_refl)).
    assert (HM' : forall c, In c l -> b_median c = Fin (t c)) by (intros c Hc; apply HM; now right).
    destruct (@nltb XR (Fin m) (Fin (t b))) eqn:E; [apply xltb_F in E|apply xltb_Ff in E].
    + destruct (IH HM' (t b)) as (M & E1 & E2 & E3 & E4). exists M. repeat split; auto; [lra| |].
      * intros c [<-|Hc]; auto.
      * right. destruct E4 as [->|(c & Hc & Ec)]; [exists b|exists c]; split; auto; [now left|now right].
    + destruct (IH HM' m) as (M & E1 & E2 & E3 & E4). exists M. repeat split; auto.
      * intros c [<-|Hc]; [lra|auto].
      * destruct E4 as [->|(c & Hc & Ec)]; [now left|right; exists c; split; [now right|assumption]].
Qed.

(** Every speed-up is the ratio of the slowest median of the case to the
    solver's own: at least one, and one for the slowest solver. *)
Theorem C38_speedups : forall (bs es : list (@bench XR)) k (t : bench -> R),
  is_case bs es k -> (forall b, In b es -> b_median b = Fin (t b) /\ 0 < t b) ->
  exists slow, (forall b, In b es -> t b <= slow) /\ (es <> [] -> exists b, In b es /\ t b = slow) /\
  forall a, In a es ->
    row_speedup bs a = Fin (slow / t a) /\ 1 <= slow / t a /\ ((forall b, In b es -> t b <= t a) -> slow / t a = 1).
Proof.
  intros bs es k t H HM. pose proof (is_case_entries _ _ _ H) as P. destruct H as [ND _].
  assert (ND' : NoDup (map b_solver (case_entries k bs))) by (apply (Permutation_NoDup (l := map b_solver es)); [now apply Permutation_map|exact ND]).
  assert (X : exists slow, (es <> [] -> slowest_of (case_entries k bs) = Fin slow) /\ (forall b, In b es -> t b <= slow) /\ (es <> [] -> exists b, In b es /\ t b = slow)).
  { destruct (case_entries k bs) as [|b l] eqn:EE.
    - exists 0. apply Permutation_sym, Permutation_nil in P. subst es. repeat split; try congruence. intros b [].
    - assert (HB : forall c, In c (b :: l) -> b_median c = Fin (t c) /\ 0 < t c) by (intros c Hc; apply HM; now apply (Permutation_in c (Permutation_sym P))).
      cbn [slowest_of]. destruct (HB b (or_introl eq_refl)) as [-> _].
      destruct (slowest_max t l (fun c Hc => proj1 (HB c (or_intror Hc))) (t b)) as (M & E1 & E2 & E3 & E4).
      exists M. split; [auto|]. split.
      + intros c Hc. apply (Permutation_in c P) in Hc. destruct Hc as [<-|Hc]; auto.
      + intros _. destruct E4 as [->|(c & Hc & Ec)]; [exists b|exists c]; (split; [|auto]); apply (Permutation_in _ (Permutation_sym P)); [now left|now right]. }
  destruct X as (slow & ES & HMax & HEx). exists slow. split; [assumption|]. split; [assumption|].
  intros a Ia. destruct (HM a Ia) as [Ea Pa]. assert (NE : es <> []) by (destruct es; [destruct Ia|discriminate]).
  split; [|split].
  - rewrite (row_speedup_value bs k a ND' (Permutation_in a P Ia)). rewrite (ES NE), Ea.
    replace (@nltb XR (nofZ 0) (Fin (t a))) with true by (symmetry; apply xltb_F; lra). apply xdiv_F. lra.
  - apply Rmult_le_reg_r with (t a); [lra|]. unfold Rdiv. rewrite Rmult_assoc, Rinv_l by lra. pose proof (HMax a Ia). lra.
  - intros HA. destruct (HEx NE) as (b & Hb & Eb). pose proof (HA b Hb). pose proof (HMax a Ia). replace slow with (t a) by lra. field. lra.
Qed.
Print Assumptions C38_speedups.

(** A case meeting the hypotheses: three solvers, one with another case beside. *)
Definition ex_key : key := ("battin-book"%string, 0%Z, true, true).
Definition ex_benches : list (@bench XR) :=
  [@Bench XR ex_key "izzo2015" (Fin 3); @Bench XR ("other"%string, 1%Z, true, false) "izzo2015" (Fin 9);
   @Bench XR ex_key "gooding1990" (Fin 1); @Bench XR ex_key "arora2013" (Fin 2)].
Example C38_case : exists es, is_case ex_benches es ex_key /\ length es = 3%nat.
Proof.
  exists [@Bench XR ex_key "izzo2015" (Fin 3); @Bench XR ex_key "gooding1990" (Fin 1); @Bench XR ex_key "arora2013" (Fin 2)]. split; [|reflexivity]. split.
  - cbn. repeat constructor; cbn; intuition discriminate.
  - exists [@Bench XR ("other"%string, 1%Z, true, false) "izzo2015" (Fin 9)]. split; [|split].
    + cbn. apply perm_skip. change ([?a; ?b; ?c]) with ([a] ++ [b; c]). apply Permutation_cons_append.
    + intros b Hb. cbn in Hb. intuition subst; reflexivity.
    + intros b Hb. cbn in Hb. intuition subst; discriminate.
Qed.

(** If a solver is measured twice in a case, as when the directory holds the
    reports of two runs (all of which are merged), the ranks are not
    [1, ..., n]: the dictionary has one entry per solver. *)
Theorem C38_merged_reports_refuted : exists (bs : list (@bench XR)) k,
  (forall b, In b bs -> b_key b = k) /\
  ~ Permutation (map (row_rank bs) bs) (map Z.of_nat (seq 1 (length bs))).
Proof.
  set (b1 := @Bench XR ex_key "izzo2015" (Fin 1)). set (b2 := @Bench XR ex_key "gooding1990" (Fin 2)). set (b3 := @Bench XR ex_key "izzo2015" (Fin 3)).
  exists [b1; b2; b3], ex_key. split; [intros b Hb; cbn in Hb; intuition subst; reflexivity|].
  assert (ES : case_entries ex_key [b1; b2; b3] = [b1; b2; b3]) by reflexivity.
  assert (SO : sort_benches [b1; b2; b3] = [b1; b2; b3]).
  { cbn [sort_benches insert_bench]. 
    replace (@nltb XR (b_median b3) (b_median b2)) with false by (symmetry; apply xltb_Ff; lra). cbn [insert_bench].
    replace (@nltb XR (b_median b2) (b_median b1)) with false by (symmetry; apply xltb_Ff; lra). reflexivity. }
  assert (RK : map (row_rank [b1; b2; b3]) [b1; b2; b3] = [3; 2; 3]%Z).
  { unfold row_rank, rank_within_case. change (case_keys [] [b1; b2; b3]) with [ex_key]. cbn [fold_left]. rewrite ES, SO. reflexivity. }
  rewrite RK. intros P. assert (I : In 1%Z [3; 2; 3]%Z) by (apply (Permutation_in 1%Z (Permutation_sym P)); now left).
  cbn in I. intuition discriminate.
Qed.
Print Assumptions C38_merged_reports_refuted.

(** ** C39 *)

Definition occurs (p s : text) : Prop := exists b a, s = b ++ p ++ a.

Lemma strip_prefix_some p : forall s r, strip_prefix p s = Some r <-> s = p ++ r.
Proof.
  induction p as [|c p IH]; intros s r; cbn [strip_prefix].
  - split; [intros E; injection E as ->; reflexivity|intros ->; reflexivity].
  - destruct s as [|d s]; [split; discriminate|]. destruct (Ascii.eqb_spec c d) as [->|NE].
    + rewrite IH. split; [intros ->; reflexivity|intros E; injection E as ->; reflexivity].
    + split; [discriminate|intros E; injection E as -> _; contradiction].
Qed.
Lemma strip_prefix_app p r : strip_prefix p (p ++ r) = Some r.
Proof. now apply strip_prefix_some. Qed.

Lemma find_text_cons p c s : find_text p (c :: s) =
  match strip_prefix p (c :: s) with
  | Some r => Some ([], r)
  | None => match find_text p s with Some (b, a) => Some (c :: b, a) | None => None end
  end.
Proof. reflexivity. Qed.

Lemma find_text_sound p : forall s b a, find_text p s = Some (b, a) -> s = b ++ p ++ a.
Proof.
  induction s as [|c s IH]; intros b a.
  - cbn [find_text]. destruct (strip_prefix p []) eqn:E; [|discriminate]. apply strip_prefix_some in E. intros X. injection X as <- <-. exact E.
  - rewrite find_text_cons. destruct (strip_prefix p (c :: s)) eqn:E.
    + apply strip_prefix_some in E. intros X. injection X as <- <-. exact E.
    + destruct (find_text p s) as [[b' a']|] eqn:F; [|discriminate]. intros X. injection X as <- <-. cbn [app]. f_equal. now apply IH.
Qed.
Lemma find_text_complete p : forall s, occurs p s -> exists b a, find_text p s = Some (b, a).
Proof.
  induction s as [|c s IH]; intros (b & a & E).
  - destruct b; [|discriminate]. destruct p; [|discriminate]. cbn. eauto.
  - rewrite find_text_cons. destruct (strip_prefix p (c :: s)) eqn:F; [eauto|].
    destruct b as [|d b]; [cbn in E; rewrite E, strip_prefix_app in F; discriminate|]. injection E as -> E.
    destruct IH as (b' & a' & ->); [exists b, a; exact E|eauto].
Qed.
Lemma contains_iff p s : contains p s = true <-> occurs p s.
Proof.
  unfold contains. split.
  - destruct (find_text p s) as [[b a]|] eqn:E; [|discriminate]. intros _. exists b, a. now apply find_text_sound.
  - intros H. destruct (find_text_complete p s H) as (b & a & ->). reflexivity.
Qed.
Lemma contains_false p s : ~ occurs p s -> contains p s = false.
Proof. intros H. destruct (contains p s) eqn:E; [|reflexivity]. exfalso. now apply H, contains_iff. Qed.

(** A pattern whose first character occurs only there is found where it was put. *)
Lemma prefix_or_in (c : ascii) rest r : forall q b, b ++ c :: rest = q ++ r -> (exists t, b = q ++ t) \/ In c q.
Proof.
  induction q as [|d q IH]; intros b E; [left; now exists b|].
  destruct b as [|y b]; [injection E as -> _; right; now left|]. injection E as -> E.
  destruct (IH b E) as [[t ->]|I]; [left; now exists t|right; now right].
Qed.
Lemma find_first c q : ~ In c q -> forall b a, ~ occurs (c :: q) b -> find_text (c :: q) (b ++ (c :: q) ++ a) = Some (b, a).
Proof.
  intros NI. induction b as [|x b IH]; intros a NO.
  - cbn [app]. rewrite find_text_cons. change (c :: q ++ a) with ((c :: q) ++ a). now rewrite strip_prefix_app.
  - cbn [app]. rewrite find_text_cons. destruct (strip_prefix (c :: q) (x :: b ++ c :: q ++ a)) as [r|] eqn:E.
    + exfalso. apply strip_prefix_some in E. cbn [app] in E. injection E as -> E.
      destruct (prefix_or_in c (q ++ a) r q b E) as [[t ->]|I]; [|contradiction].
      apply NO. exists [], t. reflexivity.
    + cbn [app] in IH. rewrite IH; [reflexivity|]. intros (u & v & ->). apply NO. exists (x :: u), v. reflexivity.
Qed.
Lemma occurs_split p c x y : ~ In c p -> occurs p (x ++ c :: y) -> occurs p x \/ occurs p y.
Proof.
  intros NI. revert x. intros x (b & a & E). revert b E. induction x as [|d x IH]; intros b E.
  - destruct b as [|e b].
    + destruct p as [|e p]; [left; exists [], []; reflexivity|]. injection E as -> _. exfalso. apply NI. now left.
    + injection E as -> E. right. exists b, a. exact E.
  - destruct b as [|e b].
    + cbn [app] in E. change (d :: x ++ c :: y) with ((d :: x) ++ c :: y) in E.
      destruct (prefix_or_in c y a p (d :: x) E) as [[t ->]|I]; [left; exists [], t; reflexivity|contradiction].
    + injection E as -> E. destruct (IH b E) as [(u & v & ->)|H]; [left; exists (e :: u), v; reflexivity|right; exact H].
Qed.
Lemma occurs_not_in c q x : ~ In c x -> ~ occurs (c :: q) x.
Proof. intros NI (b & a & ->). apply NI. rewrite in_app_iff. right. now left. Qed.

(** The start and end markers begin with the only [<] in them and contain no
    newline. *)
Ltac chars := cbn; intuition discriminate.
Definition lt_char : ascii := "<"%char.
Lemma start_form : exists q, start_marker = lt_char :: q /\ ~ In lt_char q /\ ~ In newline start_marker /\ ~ In backslash start_marker.
Proof. eexists. split; [reflexivity|]. repeat split; chars. Qed.
Lemma end_form : exists q, end_marker = lt_char :: q /\ ~ In lt_char q /\ ~ In newline end_marker /\ ~ In backslash end_marker.
Proof. eexists. split; [reflexivity|]. repeat split; chars. Qed.

Lemma find_start b a : ~ occurs start_marker b -> find_text start_marker (b ++ start_marker ++ a) = Some (b, a).
Proof. destruct start_form as (q & -> & NI & _). now apply find_first. Qed.
Lemma find_end b a : ~ occurs end_marker b -> find_text end_marker (b ++ end_marker ++ a) = Some (b, a).
Proof. destruct end_form as (q & -> & NI & _). now apply find_first. Qed.

Lemma expand_plain t : ~ In backslash t -> expand_template t = Ok t.
Proof.
  induction t as [|c t IH]; intros NI; [reflexivity|]. cbn [expand_template]. destruct (Ascii.eqb_spec c backslash) as [->|NE].
  - exfalso. apply NI. now left.
  - rewrite IH; [reflexivity|]. intros I. apply NI. now right.
Qed.

(** Tables that contain neither the end marker nor a backslash. *)
Definition plain_tables (t : text) : Prop := ~ occurs end_marker t /\ ~ In backslash t.

Definition generated (tables : text) : text := start_marker ++ nlnl ++ tables ++ end_marker ++ [newline].

Lemma section_split tables : find_text (start_marker ++ nlnl) (make_section tables) =
  Some (txt "## Performance comparison" ++ nlnl, tables ++ end_marker ++ [newline]).
Proof.
  unfold make_section. rewrite !(app_assoc (txt _)). rewrite (app_assoc start_marker nlnl).
  destruct start_form as (q & E & NI & _). rewrite E. cbn [app]. 
  apply (find_first lt_char (q ++ nlnl)).
  - rewrite in_app_iff. intros [I|I]; [contradiction|]. revert I. chars.
  - apply occurs_not_in. chars.
Qed.

Lemma sub_none n repl s : ~ occurs start_marker s -> sub_section n repl s = s.
Proof.
  intros H. destruct n; [reflexivity|]. cbn [sub_section]. destruct (find_text start_marker s) as [[b a]|] eqn:E; [|reflexivity].
  exfalso. apply H. exists b, a. now apply find_text_sound.
Qed.

Lemma drop_newline_occurs p s : ~ occurs p s -> ~ occurs p (drop_newline s).
Proof.
  destruct s as [|c s]; [auto|]. cbn [drop_newline]. destruct (Ascii.eqb c newline); [|auto].
  intros H (b & a & ->). apply H. exists (c :: b), a. reflexivity.
Qed.

(** Only the text between the markers changes. *)
Theorem C39_only_the_section_changes : forall pre mid post tables,
  ~ occurs start_marker pre -> ~ occurs end_marker mid -> ~ occurs start_marker post -> plain_tables tables ->
  update_readme (pre ++ start_marker ++ mid ++ end_marker ++ post) (make_section tables) =
  Ok (pre ++ start_marker ++ nlnl ++ tables ++ end_marker ++ [newline] ++ drop_newline post).
Proof.
  intros pre mid post tables H1 H2 H3 [H4 H5]. unfold update_readme.
  replace (contains start_marker _) with true.
  2:{ symmetry. apply contains_iff. exists pre, (mid ++ end_marker ++ post). reflexivity. }
  replace (contains end_marker _) with true.
  2:{ symmetry. apply contains_iff. exists (pre ++ start_marker ++ mid), post. now rewrite !app_assoc. }
  cbn [andb]. rewrite section_split.
  rewrite expand_plain.
  2:{ destruct start_form as (_ & _ & _ & _ & B1). destruct end_form as (_ & _ & _ & _ & B2). rewrite !in_app_iff.
      intros [I|[I|[I|[I|I]]]]; try contradiction; revert I; chars. }
  cbn [bind]. f_equal. cbn [sub_section]. rewrite find_start by assumption. rewrite find_end by assumption.
  rewrite (sub_none _ _ _ (drop_newline_occurs _ _ H3)). now rewrite <- !app_assoc.
Qed.
Print Assumptions C39_only_the_section_changes.

(** Without a start marker the section is appended. *)
Theorem C39_appends : forall content tables, ~ occurs start_marker content ->
  update_readme content (make_section tables) = Ok (rstrip content ++ nlnl ++ make_section tables).
Proof.
  intros content tables H. unfold update_readme. now rewrite (contains_false _ _ H).
Qed.
Print Assumptions C39_appends.

Lemma rstrip_prefix s : exists w, s = rstrip s ++ w.
Proof.
  induction s as [|c s [w IH]]; [now exists []|]. cbn [rstrip]. destruct (rstrip s) as [|d r] eqn:E.
  - destruct (white c); [now exists (c :: s)|exists s; reflexivity].
  - exists w. cbn [app]. now rewrite IH.
Qed.

(** A README with no start marker, or with exactly one section. *)
Definition well_marked (s : text) : Prop :=
  ~ occurs start_marker s \/
  exists pre mid post, s = pre ++ start_marker ++ mid ++ end_marker ++ post /\
    ~ occurs start_marker pre /\ ~ occurs end_marker mid /\ ~ occurs start_marker post.

Lemma ok_text (a b : text) : Ok a = Ok b -> a = b.
Proof. congruence. Qed.

(** Whatever was generated before, a second update leaves what a single update
    with its tables would have produced; in particular updating twice with the
    same tables is updating once. *)
Theorem C39_last_update_wins : forall content tables1 tables2 once,
  well_marked content -> plain_tables tables1 -> plain_tables tables2 ->
  update_readme content (make_section tables1) = Ok once ->
  update_readme once (make_section tables2) = update_readme content (make_section tables2) /\ well_marked once.
Proof.
  intros content t1 t2 once W P1 P2 E.
  assert (NT : forall t, plain_tables t -> ~ occurs end_marker (nlnl ++ t)).
  { intros t [Ht _] O. destruct end_form as (q & _ & _ & NL & _). unfold nlnl in O. cbn [app] in O.
    apply (occurs_split _ newline [] (newline :: t) NL) in O. destruct O as [(b & a & O)|O].
    - destruct b; discriminate O.
    - apply (occurs_split _ newline [] t NL) in O. destruct O as [(b & a & O)|O]; [destruct b; discriminate O|contradiction]. }
  destruct W as [NS|(pre & mid & post & -> & N1 & N2 & N3)].
  - rewrite (C39_appends content t1 NS) in E. rewrite (C39_appends content t2 NS). apply ok_text in E. subst once.
    assert (NP : ~ occurs start_marker (rstrip content ++ nlnl ++ txt "## Performance comparison" ++ nlnl)).
    { intros O. destruct start_form as (q & E & _ & NL & _). unfold nlnl in O at 1. cbn [app] in O.
      apply (occurs_split _ newline _ _ NL) in O. destruct O as [O|O].
      - destruct (rstrip_prefix content) as [w Ew]. apply NS. rewrite Ew. destruct O as (b & a & ->). exists b, (a ++ w). now rewrite <- !app_assoc.
      - revert O. rewrite E. apply occurs_not_in. chars. }
    assert (F : rstrip content ++ nlnl ++ make_section t1 =
      (rstrip content ++ nlnl ++ txt "## Performance comparison" ++ nlnl) ++ start_marker ++ (nlnl ++ t1) ++ end_marker ++ [newline]).
    { unfold make_section. now rewrite <- !app_assoc. }
    rewrite F. split.
    + rewrite C39_only_the_section_changes; [|assumption|now apply NT| |assumption].
      * f_equal. unfold make_section. rewrite <- !app_assoc. cbn [drop_newline]. reflexivity.
      * destruct start_form as (q & -> & _). apply occurs_not_in. chars.
    + right. exists (rstrip content ++ nlnl ++ txt "## Performance comparison" ++ nlnl), (nlnl ++ t1), [newline]. split; [reflexivity|].
      split; [assumption|]. split; [now apply NT|]. destruct start_form as (q & -> & _). apply occurs_not_in. chars.
  - rewrite (C39_only_the_section_changes pre mid post t1 N1 N2 N3 P1) in E. rewrite (C39_only_the_section_changes pre mid post t2 N1 N2 N3 P2). apply ok_text in E. subst once.
    assert (N4 : ~ occurs start_marker (newline :: drop_newline post)).
    { intros O. destruct start_form as (q & E & _ & NL & _). apply (occurs_split _ newline [] _ NL) in O. destruct O as [(b & a & O)|O].
      - destruct b; discriminate O.
      - now apply (drop_newline_occurs _ _ N3). }
    assert (F : pre ++ start_marker ++ nlnl ++ t1 ++ end_marker ++ [newline] ++ drop_newline post =
      pre ++ start_marker ++ (nlnl ++ t1) ++ end_marker ++ (newline :: drop_newline post)) by now rewrite <- !app_assoc.
    rewrite F. split.
    + rewrite C39_only_the_section_changes by (assumption || now apply NT). reflexivity.
    + right. exists pre, (nlnl ++ t1), (newline :: drop_newline post). repeat split; try assumption. now apply NT.
Qed.
Print Assumptions C39_last_update_wins.

Corollary C39_idempotent : forall content tables once,
  well_marked content -> plain_tables tables ->
  update_readme content (make_section tables) = Ok once -> update_readme once (make_section tables) = Ok once.
Proof.
  intros content t once W P E. rewrite <- E. exact (proj1 (C39_last_update_wins content t t once W P P E)).
Qed.
Print Assumptions C39_idempotent.

(** A case: a README with a section between two paragraphs. *)
Example C39_case : well_marked (txt "before" ++ start_marker ++ txt " old " ++ end_marker ++ txt "after") /\ plain_tables (txt "| 1 | izzo2015 |").
Proof.
  split.
  - right. exists (txt "before"), (txt " old "), (txt "after"). split; [reflexivity|].
    destruct start_form as (q & E & _). destruct end_form as (q' & E' & _). rewrite E, E'. repeat split; apply occurs_not_in; chars.
  - split; [destruct end_form as (q & -> & _); apply occurs_not_in; chars|chars].
Qed.

(** With a start marker that is never closed, two updates delete the text that
    follows it: the second one takes it for the generated section. *)
Theorem C39_orphan_start_refuted : exists content kept once twice,
  let section := make_section (txt "| 1 | izzo2015 |") in
  update_readme content section = Ok once /\ update_readme once section = Ok twice /\
  occurs kept content /\ occurs kept once /\ ~ occurs kept twice.
Proof.
  exists (start_marker ++ txt " the user's own text"), (txt "own text").
  eexists (_ : text), (_ : text). cbv zeta. split; [vm_compute; reflexivity|]. split; [vm_compute; reflexivity|].
  split; [apply contains_iff; vm_compute; reflexivity|]. split; [apply contains_iff; vm_compute; reflexivity|].
  intros O. apply contains_iff in O. vm_compute in O. discriminate.
Qed.
Print Assumptions C39_orphan_start_refuted.

(** With the markers in the wrong order nothing is written and nothing is
    reported. *)
Theorem C39_wrong_order_refuted : exists content,
  occurs start_marker content /\ occurs end_marker content /\
  forall tables, plain_tables tables -> update_readme content (make_section tables) = Ok content.
Proof.
  exists (end_marker ++ start_marker). split; [exists end_marker, []; now rewrite app_nil_r|]. split; [exists [], start_marker; reflexivity|].
  intros t [H1 H2]. unfold update_readme.
  replace (contains start_marker _ && contains end_marker _)%bool with true by reflexivity.
  rewrite section_split. rewrite expand_plain.
  - reflexivity.
  - destruct start_form as (_ & _ & _ & _ & B1). destruct end_form as (_ & _ & _ & _ & B2). rewrite !in_app_iff.
    intros [I|[I|[I|[I|I]]]]; try contradiction; revert I; chars.
Qed.
Print Assumptions C39_wrong_order_refuted.

(** The tables are used as a template of [re.sub]: a backslash in them (say in
    the name of the CPU) is interpreted or makes the update fail, but only if
    the README already has a section. *)
Theorem C39_backslash_refuted :
  exists content1 content2 tables, well_marked content1 /\ well_marked content2 /\
  ~ occurs end_marker tables /\
  (exists c, update_readme content1 (make_section tables) = Ok c) /\
  update_readme content2 (make_section tables) = Err (ValueError "bad escape").
Proof.
  exists [], (start_marker ++ end_marker), (backslash :: txt "1"). split; [|split; [|split; [|split]]].
  - left. destruct start_form as (q & -> & _). apply occurs_not_in. chars.
  - right. exists [], [], []. split; [now rewrite app_nil_r|]. destruct start_form as (q & E & _). destruct end_form as (q' & E' & _). rewrite E, E'.
    repeat split; apply occurs_not_in; chars.
  - destruct end_form as (q & -> & _). apply occurs_not_in. chars.
  - eexists. reflexivity.
  - vm_compute. reflexivity.
Qed.
Print Assumptions C39_backslash_refuted.
