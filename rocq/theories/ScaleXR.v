(** * The model's operations commute with a change of units. *)
From Coq Require Import Reals ZArith String List Bool Lra Lia Psatz.
Import ListNotations.
From Verif Require Import Num XReal XRealLemmas MApi MAssertions MLinalg MAngles Spec VecFacts VecXR AnglesXR CallXR.
Local Open Scope R_scope.

(** Multiplication by a number, on vectors that may have NaN components. *)
Definition xscale (k : R) (v : vec xr) : vec xr := vmap (xmul (Fin k)) v.
Definition out_scale (k : R) (o : @out XR) : @out XR :=
  match o with
  | Pair v1 v2 => @Pair XR (xscale k v1) (xscale k v2)
  | Full v1 v2 n t => @Full XR (xscale k v1) (xscale k v2) n t
  end.
Definition res_scale (k : R) (o : res (@out XR)) : res (@out XR) :=
  match o with Ok x => Ok (out_scale k x) | Err e => Err e end.

Section Scale.
Variables (a T : R).
Hypothesis Ha : 0 < a.
Hypothesis HT : 0 < T.

(** A quantity of dimension length^(i/2) time^j. *)
Definition fac (i j : Z) : R := powerRZ a i * powerRZ T j.
Definition dim (i j : Z) (x : xr) : xr := xmul (Fin (fac i j)) x.
Definition vdim (i j : Z) (v : vec xr) : vec xr := xscale (fac i j) v.

Lemma fac_pos i j : 0 < fac i j.
Proof. apply Rmult_lt_0_compat; apply powerRZ_lt; assumption. Qed.
Lemma fac_add i j k l m n : (i + k = m)%Z -> (j + l = n)%Z -> fac i j * fac k l = fac m n.
Proof. intros <- <-. unfold fac. rewrite !powerRZ_add by lra. ring. Qed.
Lemma fac_00 : fac 0 0 = 1. Proof. unfold fac. cbn. ring. Qed.
Lemma fac_inv i j m n : (- i = m)%Z -> (- j = n)%Z -> / fac i j = fac m n.
Proof.
  intros E1 E2. pose proof (fac_pos i j). apply (Rmult_eq_reg_l (fac i j)); [|lra].
  rewrite Rinv_r by lra. rewrite (fac_add i j m n 0 0), fac_00; [reflexivity|lia..].
Qed.
Lemma fac_sqrt i j m n : (m + m = i)%Z -> (n + n = j)%Z -> sqrt (fac i j) = fac m n.
Proof.
  intros E1 E2. rewrite <- (fac_add m n m n i j) by assumption. apply sqrt_square. left. apply fac_pos.
Qed.

Lemma dim_00 x : dim 0 0 x = x.
Proof. unfold dim. rewrite fac_00. destruct x; cbn; [apply (f_equal Fin); ring|reflexivity]. Qed.
Lemma dim_dim i j k l m n x : (i + k = m)%Z -> (j + l = n)%Z -> dim i j (dim k l x) = dim m n x.
Proof.
  intros E1 E2. unfold dim. rewrite <- (fac_add i j k l m n) by assumption.
  destruct x; cbn; [apply (f_equal Fin); ring|reflexivity].
Qed.
Lemma dim_mul_l i j x y : @nmul XR (dim i j x) y = dim i j (@nmul XR x y).
Proof. unfold dim. xunf. destruct x, y; cbn; try reflexivity. apply (f_equal Fin); ring. Qed.
Lemma dim_mul_r i j x y : @nmul XR x (dim i j y) = dim i j (@nmul XR x y).
Proof. unfold dim. xunf. destruct x, y; cbn; try reflexivity. apply (f_equal Fin); ring. Qed.
Lemma dim_add i j x y : @nadd XR (dim i j x) (dim i j y) = dim i j (@nadd XR x y).
Proof. unfold dim. xunf. destruct x, y; cbn; try reflexivity. apply (f_equal Fin); ring. Qed.
Lemma dim_sub i j x y : @nsub XR (dim i j x) (dim i j y) = dim i j (@nsub XR x y).
Proof. unfold dim. xunf. destruct x, y; cbn; try reflexivity. apply (f_equal Fin); ring. Qed.
Lemma dim_opp i j x : @nopp XR (dim i j x) = dim i j (@nopp XR x).
Proof. unfold dim. xunf. destruct x; cbn; try reflexivity. apply (f_equal Fin); ring. Qed.
Lemma dim_abs i j x : @nabs XR (dim i j x) = dim i j (@nabs XR x).
Proof.
  pose proof (fac_pos i j). unfold dim. xunf. destruct x; cbn; try reflexivity. apply (f_equal Fin).
  rewrite Rabs_mult, (Rabs_pos_eq (fac i j)); lra.
Qed.
Lemma dim_div_l i j x y : @ndiv XR (dim i j x) y = dim i j (@ndiv XR x y).
Proof.
  unfold dim. xunf. destruct x as [x|], y as [y|]; cbn; try reflexivity.
  unfold xdiv. destruct (Req_EM_T y 0); [reflexivity|]. cbn. apply (f_equal Fin). field; lra.
Qed.
Lemma dim_div_r i j m n x y : (- i = m)%Z -> (- j = n)%Z -> @ndiv XR x (dim i j y) = dim m n (@ndiv XR x y).
Proof.
  intros E1 E2. pose proof (fac_pos i j). unfold dim. rewrite <- (fac_inv i j m n) by assumption. xunf. destruct x as [x|], y as [y|]; cbn; try reflexivity.
  unfold xdiv. destruct (Req_EM_T y 0) as [->|E].
  - rewrite Rmult_0_r. destruct (Req_EM_T 0 0); [reflexivity|lra].
  - destruct (Req_EM_T (fac i j * y) 0) as [Z|Z].
    + exfalso. apply Rmult_integral in Z. lra.
    + cbn. apply (f_equal Fin). field; lra.
Qed.
Lemma dim_sqrt i j m n x : (m + m = i)%Z -> (n + n = j)%Z -> @nsqrt XR (dim i j x) = dim m n (@nsqrt XR x).
Proof.
  intros E1 E2. pose proof (fac_pos i j). unfold dim. rewrite <- (fac_sqrt i j m n) by assumption. xunf.
  destruct x as [x|]; cbn; try reflexivity. unfold xsqrt.
  destruct (Rle_dec 0 x), (Rle_dec 0 (fac i j * x)); cbn; try reflexivity.
  - apply (f_equal Fin). apply sqrt_mult; lra.
  - exfalso. apply n0. apply Rmult_le_pos; lra.
  - exfalso. apply n0. apply Rmult_le_reg_l with (fac i j); lra.
Qed.
Lemma pow_half_sqrt x : @npow XR x (@nlit XR 1 2) = @nsqrt XR x.
Proof.
  xunf. destruct x as [x|]; [|reflexivity]. destruct (Rle_dec 0 x) as [H|H].
  - change (@nlit XR 1 2) with (Fin (1 / 2)). rewrite xpow_half, xsqrt_F by assumption. reflexivity.
  - change (@nlit XR 1 2) with (Fin (1 / 2)). unfold xpow, xsqrt.
    destruct (Rlt_dec 0 x); [lra|]. destruct (Req_EM_T x 0); [lra|]. unfold xpart1. destruct (Rle_dec 0 x); [lra|reflexivity].
Qed.
Lemma dim_pow_half i j m n x : (m + m = i)%Z -> (n + n = j)%Z ->
  @npow XR (dim i j x) (@nlit XR 1 2) = dim m n (@npow XR x (@nlit XR 1 2)).
Proof. intros E1 E2. rewrite !pow_half_sqrt. now apply dim_sqrt. Qed.
Lemma dim_ltb i j x y : @nltb XR (dim i j x) (dim i j y) = @nltb XR x y.
Proof.
  pose proof (fac_pos i j). unfold dim. xunf. destruct x as [x|], y as [y|]; cbn; try reflexivity. unfold xltb.
  destruct (Rlt_dec (fac i j * x) (fac i j * y)) as [L|L], (Rlt_dec x y) as [L'|L']; try reflexivity; exfalso.
  - apply L'. apply Rmult_lt_reg_l with (fac i j); lra.
  - apply L. apply Rmult_lt_compat_l; lra.
Qed.
Lemma dim_leb i j x y : @nleb XR (dim i j x) (dim i j y) = @nleb XR x y.
Proof.
  pose proof (fac_pos i j). unfold dim. xunf. destruct x as [x|], y as [y|]; cbn; try reflexivity. unfold xleb.
  destruct (Rle_dec (fac i j * x) (fac i j * y)) as [L|L], (Rle_dec x y) as [L'|L']; try reflexivity; exfalso.
  - apply L'. apply Rmult_le_reg_l with (fac i j); lra.
  - apply L. apply Rmult_le_compat_l; lra.
Qed.
Lemma dim_eqb i j x y : @neqb XR (dim i j x) (dim i j y) = @neqb XR x y.
Proof.
  pose proof (fac_pos i j). unfold dim. xunf. destruct x as [x|], y as [y|]; cbn; try reflexivity. unfold xeqb.
  destruct (Req_EM_T (fac i j * x) (fac i j * y)) as [L|L], (Req_EM_T x y) as [L'|L']; try reflexivity; exfalso.
  - apply L'. apply Rmult_eq_reg_l with (fac i j); lra.
  - apply L. now rewrite L'.
Qed.
Lemma dim_0 i j : @nofZ XR 0 = dim i j (@nofZ XR 0).
Proof. unfold dim. xunf. cbn. apply (f_equal Fin). ring. Qed.
Lemma dim_0ltb i j x : @nltb XR (@nofZ XR 0) (dim i j x) = @nltb XR (@nofZ XR 0) x.
Proof. rewrite (dim_0 i j) at 1. apply dim_ltb. Qed.
Lemma dim_ltb0 i j x : @nltb XR (dim i j x) (@nofZ XR 0) = @nltb XR x (@nofZ XR 0).
Proof. rewrite (dim_0 i j) at 1. apply dim_ltb. Qed.
Lemma dim_0leb i j x : @nleb XR (@nofZ XR 0) (dim i j x) = @nleb XR (@nofZ XR 0) x.
Proof. rewrite (dim_0 i j) at 1. apply dim_leb. Qed.
Lemma dim_leb0 i j x : @nleb XR (dim i j x) (@nofZ XR 0) = @nleb XR x (@nofZ XR 0).
Proof. rewrite (dim_0 i j) at 1. apply dim_leb. Qed.
Lemma dim_eqb0 i j x : @neqb XR (dim i j x) (@nofZ XR 0) = @neqb XR x (@nofZ XR 0).
Proof. rewrite (dim_0 i j) at 1. apply dim_eqb. Qed.
Lemma dim_neqb0 i j x : @nneqb XR (dim i j x) (@nofZ XR 0) = @nneqb XR x (@nofZ XR 0).
Proof. unfold nneqb. now rewrite dim_eqb0. Qed.
Lemma dim_sq i j m n x : (i + i = m)%Z -> (j + j = n)%Z -> @sq XR (dim i j x) = dim m n (@sq XR x).
Proof. intros E1 E2. unfold sq. rewrite dim_mul_l, dim_mul_r. now apply dim_dim. Qed.
Lemma dim_cube i j m n x : (i + i + i = m)%Z -> (j + j + j = n)%Z -> @cube XR (dim i j x) = dim m n (@cube XR x).
Proof.
  intros E1 E2. unfold cube. rewrite !dim_mul_l, !dim_mul_r, !dim_mul_l, !(dim_dim _ _ _ _ _ _ _ eq_refl eq_refl).
  f_equal; lia.
Qed.
Lemma dim_pymin i j x y : @pymin XR (dim i j x) (dim i j y) = dim i j (@pymin XR x y).
Proof. unfold pymin. rewrite dim_ltb. destruct (@nltb XR y x); reflexivity. Qed.
Lemma dim_pymax i j x y : @pymax XR (dim i j x) (dim i j y) = dim i j (@pymax XR x y).
Proof. unfold pymax. rewrite dim_ltb. destruct (@nltb XR x y); reflexivity. Qed.
Lemma dim_sign i j x : @nsign XR (dim i j x) = @nsign XR x.
Proof.
  unfold nsign. rewrite dim_0ltb, dim_ltb0, dim_eqb0. destruct (@nltb XR _ x) eqn:A; [reflexivity|].
  destruct (@nltb XR x _) eqn:B; [reflexivity|]. destruct (@neqb XR x _) eqn:C; [reflexivity|].
  destruct x as [x|]; [|reflexivity]. exfalso. revert A B C. xunf. unfold xltb, xeqb.
  destruct (Rlt_dec _ _); [discriminate|]. destruct (Rlt_dec _ _); [discriminate|]. destruct (Req_EM_T _ _); [discriminate|]. lra.
Qed.

(** Vectors. *)
Lemma vdim_00 v : vdim 0 0 v = v.
Proof. unfold vdim, xscale. destruct v as [x y z]. unfold vmap. cbn [vx vy vz]. pose proof dim_00 as E. unfold dim in E. now rewrite !E. Qed.
Lemma vdim_eq i j x y z : vdim i j (V3 x y z) = V3 (dim i j x) (dim i j y) (dim i j z).
Proof. reflexivity. Qed.
Lemma vdim_x i j v : vx (vdim i j v) = dim i j (vx v). Proof. reflexivity. Qed.
Lemma vdim_y i j v : vy (vdim i j v) = dim i j (vy v). Proof. reflexivity. Qed.
Lemma vdim_z i j v : vz (vdim i j v) = dim i j (vz v). Proof. reflexivity. Qed.
Lemma vdim_vdim i j k l m n v : (i + k = m)%Z -> (j + l = n)%Z -> vdim i j (vdim k l v) = vdim m n v.
Proof. intros E1 E2. destruct v as [x y z]. rewrite !vdim_eq. now rewrite !(dim_dim i j k l m n) by assumption. Qed.
Lemma vdim_add i j u v : @vadd XR (vdim i j u) (vdim i j v) = vdim i j (@vadd XR u v).
Proof. destruct u as [x y z], v as [x' y' z']. unfold vadd, vmap2. rewrite !vdim_eq. cbn [vx vy vz]. now rewrite !dim_add. Qed.
Lemma vdim_sub i j u v : @vsub XR (vdim i j u) (vdim i j v) = vdim i j (@vsub XR u v).
Proof. destruct u as [x y z], v as [x' y' z']. unfold vsub, vmap2. rewrite !vdim_eq. cbn [vx vy vz]. now rewrite !dim_sub. Qed.
Lemma vdim_opp i j u : @vopp XR (vdim i j u) = vdim i j (@vopp XR u).
Proof. destruct u as [x y z]. unfold vopp, vmap. rewrite !vdim_eq. cbn [vx vy vz]. now rewrite !dim_opp. Qed.
Lemma vdim_scale_l i j k u : @vscale XR (dim i j k) u = vdim i j (@vscale XR k u).
Proof. destruct u as [x y z]. unfold vscale, vmap. rewrite !vdim_eq. cbn [vx vy vz]. now rewrite !dim_mul_l. Qed.
Lemma vdim_scale_r i j k u : @vscale XR k (vdim i j u) = vdim i j (@vscale XR k u).
Proof. destruct u as [x y z]. unfold vscale, vmap. rewrite !vdim_eq. cbn [vx vy vz]. now rewrite !dim_mul_r. Qed.
Lemma vdim_divs_l i j k u : @vdivs XR (vdim i j u) k = vdim i j (@vdivs XR u k).
Proof. destruct u as [x y z]. unfold vdivs, vmap. rewrite !vdim_eq. cbn [vx vy vz]. now rewrite !dim_div_l. Qed.
Lemma vdim_divs_r i j m n k u : (- i = m)%Z -> (- j = n)%Z -> @vdivs XR u (dim i j k) = vdim m n (@vdivs XR u k).
Proof. intros E1 E2. destruct u as [x y z]. unfold vdivs, vmap. rewrite !vdim_eq. cbn [vx vy vz]. now rewrite !(dim_div_r i j m n). Qed.
Lemma vdim_map i j k u : vmap (fun b => @nmul XR b (dim i j k)) u = vdim i j (vmap (fun b => @nmul XR b k) u).
Proof. destruct u as [x y z]. unfold vmap. rewrite !vdim_eq. cbn [vx vy vz]. now rewrite !dim_mul_r. Qed.
Lemma vdim_dot_l i j u v : @dot XR (vdim i j u) v = dim i j (@dot XR u v).
Proof. destruct u as [x y z], v as [x' y' z']. unfold dot. rewrite !vdim_eq. cbn [vx vy vz]. now rewrite !dim_mul_l, !dim_add. Qed.
Lemma vdim_dot_r i j u v : @dot XR u (vdim i j v) = dim i j (@dot XR u v).
Proof. destruct u as [x y z], v as [x' y' z']. unfold dot. rewrite !vdim_eq. cbn [vx vy vz]. now rewrite !dim_mul_r, !dim_add. Qed.
Lemma vdim_cross_l i j u v : @cross XR (vdim i j u) v = vdim i j (@cross XR u v).
Proof. destruct u as [x y z], v as [x' y' z']. unfold cross. rewrite !vdim_eq. cbn [vx vy vz]. now rewrite !dim_mul_l, !dim_sub. Qed.
Lemma vdim_cross_r i j u v : @cross XR u (vdim i j v) = vdim i j (@cross XR u v).
Proof. destruct u as [x y z], v as [x' y' z']. unfold cross. rewrite !vdim_eq. cbn [vx vy vz]. now rewrite !dim_mul_r, !dim_sub. Qed.
Lemma vdim_norm i j u : @norm XR (vdim i j u) = dim i j (@norm XR u).
Proof.
  unfold norm. rewrite vdim_dot_l, vdim_dot_r, (dim_dim i j i j (i + i) (j + j)) by reflexivity.
  now apply dim_pow_half.
Qed.
Lemma vdim_null i j u : @is_null XR (vdim i j u) = @is_null XR u.
Proof. destruct u as [x y z]. unfold is_null, vall. rewrite vdim_eq. cbn [vx vy vz]. now rewrite !dim_eqb0. Qed.
Lemma vdim_signs i j k l u v : @same_signs XR (vdim i j u) (vdim k l v) = @same_signs XR u v.
Proof.
  destruct u as [x y z], v as [x' y' z']. unfold same_signs, vall, vmap2. rewrite !vdim_eq. cbn [vx vy vz].
  now rewrite !dim_sign.
Qed.
Lemma vdim_angle i j k l u v p : @get_transfer_angle XR (vdim i j u) (vdim k l v) p = @get_transfer_angle XR u v p.
Proof.
  unfold get_transfer_angle. rewrite !vdim_cross_l, !vdim_cross_r, !vdim_norm, !vdim_dot_l, !vdim_dot_r, !vdim_null, !vdim_signs.
  rewrite (vdim_divs_r i j (- i) (- j)), (vdim_divs_r k l (- k) (- l)), !vdim_divs_l by reflexivity.
  rewrite !(vdim_vdim _ _ _ _ _ _ _ eq_refl eq_refl), !dim_mul_l, !dim_mul_r.
  rewrite (dim_div_r i j (- i) (- j)), (dim_div_r k l (- k) (- l)), !dim_div_l, !(dim_dim _ _ _ _ _ _ _ eq_refl eq_refl) by reflexivity.
  repeat match goal with
  | |- context [dim ?x ?y _] => replace x with 0%Z by lia; replace y with 0%Z by lia; rewrite !dim_00
  | |- context [vdim ?x ?y _] => replace x with 0%Z by lia; replace y with 0%Z by lia; rewrite !vdim_00 end.
  reflexivity.
Qed.
Lemma vdim_normal i j k l u v p : @get_orbit_normal_vector XR (vdim i j u) (vdim k l v) p = @get_orbit_normal_vector XR u v p.
Proof.
  unfold get_orbit_normal_vector. rewrite !vdim_cross_l, !vdim_cross_r, !vdim_norm.
  rewrite (vdim_divs_r i j (- i) (- j)), (vdim_divs_r k l (- k) (- l)), !vdim_divs_l by reflexivity.
  rewrite !(vdim_vdim _ _ _ _ _ _ _ eq_refl eq_refl).
  repeat match goal with
  | |- context [vdim ?x ?y _] => replace x with 0%Z by lia; replace y with 0%Z by lia; rewrite !vdim_00 end.
  reflexivity.
Qed.
Lemma vdim_incraan i j k l u v p : @get_orbit_inc_and_raan_from_position_vectors XR (vdim i j u) (vdim k l v) p
  = @get_orbit_inc_and_raan_from_position_vectors XR u v p.
Proof. unfold get_orbit_inc_and_raan_from_position_vectors. now rewrite vdim_normal. Qed.

(** The scaled problem: lengths by [a * a], times by [T]. *)
Notation L := (a * a).
Lemma fac_len : L = fac 2 0. Proof. unfold fac, powerRZ. change (Pos.to_nat 2) with 2%nat; change (Pos.to_nat 6) with 6%nat; change (Pos.to_nat 1) with 1%nat; cbn [pow]. ring. Qed.
Lemma fac_mu : L * L * L / (T * T) = fac 6 (-2).
Proof. unfold fac, powerRZ. change (Pos.to_nat 2) with 2%nat; change (Pos.to_nat 6) with 6%nat; change (Pos.to_nat 1) with 1%nat; cbn [pow]. field. lra. Qed.
Lemma fac_vel : L / T = fac 2 (-1). Proof. unfold fac, powerRZ. change (Pos.to_nat 2) with 2%nat; change (Pos.to_nat 6) with 6%nat; change (Pos.to_nat 1) with 1%nat; cbn [pow]. field. lra. Qed.
Lemma fac_time : T = fac 0 1. Proof. unfold fac, powerRZ. change (Pos.to_nat 2) with 2%nat; change (Pos.to_nat 6) with 6%nat; change (Pos.to_nat 1) with 1%nat; cbn [pow]. ring. Qed.
Lemma dim_F i j r : Fin (fac i j * r) = dim i j (Fin r). Proof. reflexivity. Qed.
Lemma vdim_F i j r : vfin (vmult (fac i j) r) = vdim i j (vfin r). Proof. reflexivity. Qed.

Lemma validated_scale mu r1 r2 tof M p l mi at_ rt fo i (k k' : vec xr -> vec xr -> res (@out XR)) K :
  (valid_input mu r1 r2 tof M -> k (vdim 2 0 (vfin r1)) (vdim 2 0 (vfin r2)) = res_scale K (k' (vfin r1) (vfin r2))) ->
  @validated XR _ (call (fac 6 i * mu) (vmult (fac 2 0) r1) (vmult (fac 2 0) r2) (fac 0 1 * tof) M p l mi at_ rt fo) k
  = res_scale K (@validated XR _ (call mu r1 r2 tof M p l mi at_ rt fo) k').
Proof.
  intros H.
  unfold validated, call. cbn [a_mu a_r1 a_r2 a_tof a_M]. rewrite !as_vec_of_vec.
  assert (E : @assert_parameters_are_valid XR (Fin (fac 6 i * mu)) (of_vec (vfin (vmult (fac 2 0) r1))) (of_vec (vfin (vmult (fac 2 0) r2))) (Fin (fac 0 1 * tof)) M
    = @assert_parameters_are_valid XR (Fin mu) (of_vec (vfin r1)) (of_vec (vfin r2)) (Fin tof) M).
  { rewrite !dim_F, !vdim_F. destruct r1 as [x y z], r2 as [x' y' z']. unfold vfin, vmap. cbn [vx vy vz]. rewrite !vdim_eq.
    unfold assert_parameters_are_valid, assert_position_vectors_are_valid, assert_position_vector_is_valid,
      assert_gravitational_parameter_is_positive, assert_time_of_flight_is_positive.
    unfold of_vec. cbn [vx vy vz length Nat.eqb negb raise_if bind]. unfold all_equal. cbn [length Nat.eqb combine forallb fst snd].
    rewrite !dim_leb0, !dim_eqb0, !dim_eqb. reflexivity. }
  rewrite E. clear E.
  destruct (assert_parameters_are_valid _ _ _ _ _) as [u|e] eqn:EV; [|reflexivity]. cbn [bind].
  rewrite !vdim_F. apply H.
  assert (V : @validated XR unit (call mu r1 r2 tof M p l mi at_ rt fo) (fun _ _ => Ok tt) = Ok tt).
  { unfold validated, call. cbn [a_mu a_r1 a_r2 a_tof a_M]. rewrite EV, !as_vec_of_vec. reflexivity. }
  apply validated_call in V. apply V.
Qed.
Lemma out_dim i j f v1 v2 n t : Ok (@mk_out XR f (vdim i j v1) (vdim i j v2) n t) = res_scale (fac i j) (Ok (@mk_out XR f v1 v2 n t)).
Proof. destruct f; reflexivity. Qed.
Lemma pair_dim i j v1 v2 : Ok (@Pair XR (vdim i j v1) (vdim i j v2)) = res_scale (fac i j) (Ok (@Pair XR v1 v2)).
Proof. reflexivity. Qed.
End Scale.
#[global] Opaque dim vdim.

Ltac nz z := let r := eval vm_compute in z in r.
(** Pull the factors out. *)
Ltac scale1 Ha HT := idtac; match goal with
  | |- context [@get_transfer_angle XR (vdim ?a ?T ?i ?j ?u) (vdim ?a ?T ?k ?l ?v) ?p] => rewrite (vdim_angle a T Ha HT i j k l u v p)
  | |- context [@get_orbit_normal_vector XR (vdim ?a ?T ?i ?j ?u) (vdim ?a ?T ?k ?l ?v) ?p] => rewrite (vdim_normal a T Ha HT i j k l u v p)
  | |- context [@get_orbit_inc_and_raan_from_position_vectors XR (vdim ?a ?T ?i ?j ?u) (vdim ?a ?T ?k ?l ?v) ?p] => rewrite (vdim_incraan a T Ha HT i j k l u v p)
  | |- context [@norm XR (vdim ?a ?T ?i ?j ?u)] => rewrite (vdim_norm a T Ha HT i j u)
  | |- context [dim ?a ?T 0 0 ?x] => rewrite (dim_00 a T x)
  | |- context [vdim ?a ?T 0 0 ?x] => rewrite (vdim_00 a T x)
  | |- context [dim ?a ?T ?i ?j (dim ?a ?T ?k ?l ?x)] => let m := nz (i + k)%Z in let n := nz (j + l)%Z in rewrite (dim_dim a T Ha HT i j k l m n x eq_refl eq_refl)
  | |- context [vdim ?a ?T ?i ?j (vdim ?a ?T ?k ?l ?x)] => let m := nz (i + k)%Z in let n := nz (j + l)%Z in rewrite (vdim_vdim a T Ha HT i j k l m n x eq_refl eq_refl)
  | |- context [@nadd XR (dim ?a ?T ?i ?j ?x) (dim ?a ?T ?i ?j ?y)] => rewrite (dim_add a T i j x y)
  | |- context [@nsub XR (dim ?a ?T ?i ?j ?x) (dim ?a ?T ?i ?j ?y)] => rewrite (dim_sub a T i j x y)
  | |- context [@nopp XR (dim ?a ?T ?i ?j ?x)] => rewrite (dim_opp a T i j x)
  | |- context [@nabs XR (dim ?a ?T ?i ?j ?x)] => rewrite (dim_abs a T Ha HT i j x)
  | |- context [@nmul XR (dim ?a ?T ?i ?j ?x) ?y] => rewrite (dim_mul_l a T i j x y)
  | |- context [@nmul XR ?x (dim ?a ?T ?i ?j ?y)] => rewrite (dim_mul_r a T i j x y)
  | |- context [@ndiv XR (dim ?a ?T ?i ?j ?x) ?y] => rewrite (dim_div_l a T i j x y)
  | |- context [@ndiv XR ?x (dim ?a ?T ?i ?j ?y)] => let m := nz (- i)%Z in let n := nz (- j)%Z in rewrite (dim_div_r a T Ha HT i j m n x y eq_refl eq_refl)
  | |- context [@nsqrt XR (dim ?a ?T ?i ?j ?y)] => let m := nz (i / 2)%Z in let n := nz (j / 2)%Z in rewrite (dim_sqrt a T Ha HT i j m n y eq_refl eq_refl)
  | |- context [@npow XR (dim ?a ?T ?i ?j ?y) (@nlit XR 1 2)] => let m := nz (i / 2)%Z in let n := nz (j / 2)%Z in rewrite (dim_pow_half a T Ha HT i j m n y eq_refl eq_refl)
  | |- context [@sq XR (dim ?a ?T ?i ?j ?y)] => let m := nz (i + i)%Z in let n := nz (j + j)%Z in rewrite (dim_sq a T Ha HT i j m n y eq_refl eq_refl)
  | |- context [@cube XR (dim ?a ?T ?i ?j ?y)] => let m := nz (i + i + i)%Z in let n := nz (j + j + j)%Z in rewrite (dim_cube a T Ha HT i j m n y eq_refl eq_refl)
  | |- context [@nltb XR (dim ?a ?T ?i ?j ?x) (dim ?a ?T ?i ?j ?y)] => rewrite (dim_ltb a T Ha HT i j x y)
  | |- context [@nleb XR (dim ?a ?T ?i ?j ?x) (dim ?a ?T ?i ?j ?y)] => rewrite (dim_leb a T Ha HT i j x y)
  | |- context [@neqb XR (dim ?a ?T ?i ?j ?x) (dim ?a ?T ?i ?j ?y)] => rewrite (dim_eqb a T Ha HT i j x y)
  | |- context [@nltb XR (@nofZ XR 0) (dim ?a ?T ?i ?j ?x)] => rewrite (dim_0ltb a T Ha HT i j x)
  | |- context [@nleb XR (@nofZ XR 0) (dim ?a ?T ?i ?j ?x)] => rewrite (dim_0leb a T Ha HT i j x)
  | |- context [@nltb XR (dim ?a ?T ?i ?j ?x) (@nofZ XR 0)] => rewrite (dim_ltb0 a T Ha HT i j x)
  | |- context [@nleb XR (dim ?a ?T ?i ?j ?x) (@nofZ XR 0)] => rewrite (dim_leb0 a T Ha HT i j x)
  | |- context [@neqb XR (dim ?a ?T ?i ?j ?x) (@nofZ XR 0)] => rewrite (dim_eqb0 a T Ha HT i j x)
  | |- context [@nneqb XR (dim ?a ?T ?i ?j ?x) (@nofZ XR 0)] => rewrite (dim_neqb0 a T Ha HT i j x)
  | |- context [@pymin XR (dim ?a ?T ?i ?j ?x) (dim ?a ?T ?i ?j ?y)] => rewrite (dim_pymin a T Ha HT i j x y)
  | |- context [@pymax XR (dim ?a ?T ?i ?j ?x) (dim ?a ?T ?i ?j ?y)] => rewrite (dim_pymax a T Ha HT i j x y)
  | |- context [vx (vdim ?a ?T ?i ?j ?v)] => rewrite (vdim_x a T i j v)
  | |- context [vy (vdim ?a ?T ?i ?j ?v)] => rewrite (vdim_y a T i j v)
  | |- context [vz (vdim ?a ?T ?i ?j ?v)] => rewrite (vdim_z a T i j v)
  | |- context [@vadd XR (vdim ?a ?T ?i ?j ?u) (vdim ?a ?T ?i ?j ?v)] => rewrite (vdim_add a T i j u v)
  | |- context [@vsub XR (vdim ?a ?T ?i ?j ?u) (vdim ?a ?T ?i ?j ?v)] => rewrite (vdim_sub a T i j u v)
  | |- context [@vopp XR (vdim ?a ?T ?i ?j ?u)] => rewrite (vdim_opp a T i j u)
  | |- context [@vscale XR (dim ?a ?T ?i ?j ?x) ?u] => rewrite (vdim_scale_l a T i j x u)
  | |- context [@vscale XR ?x (vdim ?a ?T ?i ?j ?u)] => rewrite (vdim_scale_r a T i j x u)
  | |- context [@vdivs XR (vdim ?a ?T ?i ?j ?u) ?x] => rewrite (vdim_divs_l a T i j x u)
  | |- context [@vdivs XR ?u (dim ?a ?T ?i ?j ?x)] => let m := nz (- i)%Z in let n := nz (- j)%Z in rewrite (vdim_divs_r a T Ha HT i j m n x u eq_refl eq_refl)
  | |- context [vmap (fun b => @nmul XR b (dim ?a ?T ?i ?j ?x)) ?u] => rewrite (vdim_map a T i j x u)
  | |- context [@dot XR (vdim ?a ?T ?i ?j ?u) ?v] => rewrite (vdim_dot_l a T i j u v)
  | |- context [@dot XR ?u (vdim ?a ?T ?i ?j ?v)] => rewrite (vdim_dot_r a T i j u v)
  | |- context [@cross XR (vdim ?a ?T ?i ?j ?u) ?v] => rewrite (vdim_cross_l a T i j u v)
  | |- context [@cross XR ?u (vdim ?a ?T ?i ?j ?v)] => rewrite (vdim_cross_r a T i j u v)
  end.
Ltac scalew Ha HT := repeat scale1 Ha HT.
