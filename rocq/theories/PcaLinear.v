(** Sums, components and rounding. *)
From Coq Require Import Reals Lra Lia Psatz.
From Verif Require Import Base ResultLib ListLib GeomModel GeomBase FrameModel LidModel LidReturn NdArray NdArrayProofs TilingModel PcaModel PcaSpec.
Open Scope R_scope.

(** ** Sums *)
Lemma sumr_snoc n f : sumr (S n) f = sumr n f + f n.
Proof.
  unfold sumr. rewrite seq_S, fold_right_app. cbn [fold_right]. rewrite Rplus_0_r, Nat.add_0_l.
  generalize (seq 0 n). induction l as [|i l IH]; cbn [fold_right]; [ring|]. rewrite IH. ring.
Qed.
Lemma sumr_total n f : sumr n f = total n f.
Proof. induction n as [|n IH]; [reflexivity|]. rewrite sumr_snoc, IH. reflexivity. Qed.
Lemma total_ext n f g : (forall k, (k < n)%nat -> f k = g k) -> total n f = total n g.
Proof. induction n as [|n IH]; intros H; [reflexivity|]. cbn [total]. rewrite IH by (intros; apply H; lia). now rewrite H by lia. Qed.
Lemma total_plus n f g : total n (fun k => f k + g k) = total n f + total n g.
Proof. induction n as [|n IH]; cbn [total]; [ring|]. rewrite IH. ring. Qed.
Lemma total_minus n f g : total n (fun k => f k - g k) = total n f - total n g.
Proof. induction n as [|n IH]; cbn [total]; [ring|]. rewrite IH. ring. Qed.
Lemma total_scale n a f : total n (fun k => a * f k) = a * total n f.
Proof. induction n as [|n IH]; cbn [total]; [ring|]. rewrite IH. ring. Qed.
Lemma total_zero n f : (forall k, (k < n)%nat -> f k = 0) -> total n f = 0.
Proof. induction n as [|n IH]; intros H; [reflexivity|]. cbn [total]. rewrite IH by (intros; apply H; lia). rewrite H by lia. ring. Qed.
Lemma total_swap n m f : total n (fun i => total m (fun k => f i k)) = total m (fun k => total n (fun i => f i k)).
Proof.
  induction n as [|n IH]; cbn [total].
  - symmetry. apply total_zero. reflexivity.
  - rewrite IH, <- total_plus. reflexivity.
Qed.
Lemma total_same n j f : (j < n)%nat -> total n (fun i => same i j * f i) = f j.
Proof.
  induction n as [|n IH]; intros H; [lia|]. cbn [total]. destruct (Nat.eq_dec j n) as [->|E].
  - rewrite total_zero; [unfold same; rewrite Nat.eqb_refl; ring|]. intros k K. unfold same. rewrite (proj2 (Nat.eqb_neq k n)) by lia. ring.
  - rewrite IH by lia. unfold same. rewrite (proj2 (Nat.eqb_neq n j)) by lia. ring.
Qed.
Lemma total_le n f g : (forall k, (k < n)%nat -> f k <= g k) -> total n f <= total n g.
Proof.
  induction n as [|n IH]; intros H; cbn [total]; [lra|]. pose proof (IH (fun k K => H k ltac:(lia))). pose proof (H n ltac:(lia)). lra.
Qed.
Lemma total_abs n f : Rabs (total n f) <= total n (fun k => Rabs (f k)).
Proof. induction n as [|n IH]; cbn [total]; [rewrite Rabs_R0; lra|]. pose proof (Rabs_triang (total n f) (f n)). lra. Qed.
Lemma total_nonneg n f : (forall k, (k < n)%nat -> 0 <= f k) -> 0 <= total n f.
Proof. intros H. rewrite <- (total_zero n (fun _ => 0)) by reflexivity. now apply total_le. Qed.
Lemma same_sym i j : same i j = same j i.
Proof. unfold same. now rewrite Nat.eqb_sym. Qed.

(** ** The shape tests *)
Lemma fits_pca_ok p m : fits p m -> pca_ok p = true.
Proof.
  intros (A & B & C & D & _). unfold pca_ok, n_components. rewrite !andb_true_iff. split; [split|].
  - now apply Nat.ltb_lt.
  - apply Nat.eqb_eq. congruence.
  - apply forallb_forall. intros e H. apply Nat.eqb_eq. rewrite B. now apply D.
Qed.
Lemma el_tabulate n f k : (k < n)%nat -> el (tabulate n f) k = f k.
Proof. intros. unfold el. now apply nth_tabulate. Qed.
Lemma transform_ok p m row : fits p m -> length row = m ->
  transform p row = Ok (tabulate (length (eigen_vectors p)) (coefficient p (el row))).
Proof.
  intros F L. unfold transform. rewrite (fits_pca_ok _ _ F). destruct F as (A & B & C & D & E). rewrite L, B, Nat.eqb_refl. cbn [andb].
  f_equal. apply tabulate_ext. intros i I. rewrite sumr_total. unfold coefficient. now rewrite B.
Qed.
Lemma inverse_ok p m c : fits p m -> length c = length (eigen_vectors p) ->
  inverse_transform p c = Ok (tabulate m (built p (el c))).
Proof.
  intros F L. unfold inverse_transform. rewrite (fits_pca_ok _ _ F). destruct F as (A & B & C & D & E). unfold n_components. rewrite L, Nat.eqb_refl. cbn [andb].
  f_equal. rewrite B. apply tabulate_ext. intros k K. rewrite sumr_total. unfold built, at_, el.
  rewrite (total_ext _ _ (fun i => nth i c 0 * comp p i k)) by (intros; unfold ent, comp, el; ring). ring.
Qed.

(** ** Coefficients and vectors *)
Lemma standard_built p m c k : fits p m -> (k < m)%nat ->
  standard p (built p c) k = total (length (eigen_vectors p)) (fun i => c i * comp p i k).
Proof. intros F K. unfold standard, built. destruct F as (_ & _ & _ & _ & E). field. now apply E. Qed.
Lemma coefficient_built p m c i : fits p m -> orthonormal p -> (i < length (eigen_vectors p))%nat -> coefficient p (built p c) i = c i.
Proof.
  intros F O I. unfold coefficient. pose proof F as (_ & B & _). rewrite B.
  rewrite (total_ext _ _ (fun l => total (length (eigen_vectors p)) (fun j => c j * (comp p i l * comp p j l)))).
  2: { intros l L. rewrite (standard_built p m) by assumption. rewrite <- total_scale. apply total_ext. intros. ring. }
  rewrite <- total_swap. rewrite (total_ext _ _ (fun j => same j i * c j)).
  - now apply total_same.
  - intros j J. rewrite total_scale, <- B, (O i j I J), same_sym. ring.
Qed.
Lemma built_coefficient p m v k : fits p m -> spanning p -> (k < m)%nat -> built p (coefficient p v) k = v k.
Proof.
  intros F G K. pose proof F as (_ & B & _ & _ & E). unfold built, coefficient.
  rewrite (total_ext _ _ (fun i => total m (fun l => standard p v l * (comp p i k * comp p i l)))).
  2: { intros i I. rewrite B. rewrite Rmult_comm, <- total_scale. apply total_ext. intros. ring. }
  rewrite total_swap. rewrite (total_ext _ _ (fun l => same l k * standard p v l)).
  2: { intros l L. rewrite total_scale, (G k l) by (rewrite B; assumption). rewrite same_sym. ring. }
  rewrite total_same by exact K. unfold standard. field. now apply E.
Qed.
Lemma built_close p cfg c c' k : pca cfg = p ->
  (forall i, (i < length (eigen_vectors p))%nat -> Rabs (c i - c' i) <= at_ (quantization cfg) i / 2) ->
  Rabs (built p c k - built p c' k) <= step_error cfg k.
Proof.
  intros P H. unfold built, step_error. rewrite P.
  replace (at_ (mean p) k + at_ (std p) k * total (length (eigen_vectors p)) (fun i => c i * comp p i k) -
    (at_ (mean p) k + at_ (std p) k * total (length (eigen_vectors p)) (fun i => c' i * comp p i k)))
    with (at_ (std p) k * total (length (eigen_vectors p)) (fun i => c i * comp p i k - c' i * comp p i k)) by (rewrite total_minus; ring).
  rewrite Rabs_mult. apply Rmult_le_compat_l; [apply Rabs_pos|]. eapply Rle_trans; [apply total_abs|]. apply total_le. intros i I.
  replace (c i * comp p i k - c' i * comp p i k) with (comp p i k * (c i - c' i)) by ring. rewrite Rabs_mult.
  apply Rmult_le_compat_l; [apply Rabs_pos|]. now apply H.
Qed.
(** The coefficients are the best ones. *)
Theorem least_misfit : forall p m v c, fits p m -> orthonormal p -> misfit p v (coefficient p v) <= misfit p v c.
Proof.
  intros p m v c F O. unfold misfit. set (n := length (eigen_vectors p)). pose proof F as (_ & B & _). rewrite B.
  set (s := standard p v). set (a := coefficient p v).
  set (P := fun k => total n (fun i => a i * comp p i k)). set (D := fun k => total n (fun i => (a i - c i) * comp p i k)).
  assert (E : forall k, total n (fun i => c i * comp p i k) = P k - D k).
  { intros k. unfold P, D. rewrite <- total_minus. apply total_ext. intros. ring. }
  rewrite (total_ext m (fun k => (s k - total n (fun i => c i * comp p i k)) ^ 2)
    (fun k => ((s k - P k) ^ 2 + D k ^ 2) + 2 * ((s k - P k) * D k))) by (intros k K; rewrite E; ring).
  rewrite total_plus, total_plus, total_scale.
  assert (Z : total m (fun k => (s k - P k) * D k) = 0).
  { unfold D. rewrite (total_ext _ _ (fun k => total n (fun i => (a i - c i) * (comp p i k * (s k - P k))))).
    2: { intros k K. rewrite <- total_scale. apply total_ext. intros. ring. }
    rewrite <- total_swap. apply total_zero. intros i I. rewrite total_scale.
    rewrite (total_ext _ _ (fun k => comp p i k * s k - comp p i k * P k)) by (intros; ring). rewrite total_minus.
    assert (H1 : total m (fun k => comp p i k * s k) = a i) by (unfold a, coefficient; now rewrite B).
    assert (H2 : total m (fun k => comp p i k * P k) = a i).
    { pose proof (coefficient_built p m a i F O I) as Q. unfold coefficient at 1 in Q. rewrite B in Q. rewrite <- Q. apply total_ext. intros k K.
      now rewrite (standard_built p m). }
    rewrite H1, H2. ring. }
  rewrite Z. pose proof (total_nonneg m (fun k => D k ^ 2) (fun k _ => pow2_ge_0 (D k))). unfold P. lra.
Qed.

(** ** Rounding and saturation *)
Lemma round_even_nearest x : nearest x (round_even x).
Proof.
  split; [apply round_even_near|]. intros H. pose proof (base_Int_part x) as [A B]. revert H. unfold round_even. set (f := Int_part x) in *. cbv zeta.
  destruct (rltb (x - IZR f) (/ 2)) eqn:L.
  { apply rltb_iff in L. intros H. exfalso. revert H. unfold Rabs. destruct (Rcase_abs _); lra. }
  apply rltb_false in L. destruct (rltb (/ 2) (x - IZR f)) eqn:G.
  { apply rltb_iff in G. rewrite plus_IZR. intros H. exfalso. revert H. unfold Rabs. destruct (Rcase_abs _); lra. }
  destruct (Z.even f) eqn:V; intros _; [exact V|]. rewrite Z.even_add, V. reflexivity.
Qed.
Lemma nearest_unique x j k : nearest x j -> nearest x k -> j = k.
Proof.
  intros [A P] [B Q]. destruct (Z.eq_dec j k) as [E|E]; [exact E|exfalso].
  assert (D : 1 <= Rabs (IZR j - IZR k)) by (rewrite <- minus_IZR, <- abs_IZR; apply IZR_le; lia).
  assert (U : Rabs (x - IZR j) = / 2 /\ Rabs (x - IZR k) = / 2 /\ (IZR j - IZR k = 1 \/ IZR k - IZR j = 1)).
  { revert A B D. unfold Rabs. repeat (destruct (Rcase_abs _)); lra. }
  destruct U as (U1 & U2 & U3). specialize (P U1). specialize (Q U2).
  assert (H : (j = k + 1 \/ k = j + 1)%Z).
  { destruct U3 as [U3|U3]; [left|right]; apply eq_IZR; rewrite plus_IZR; lra. }
  clear - H P Q. destruct H as [H|H]; rewrite H, Z.even_add in *; cbn in *; [destruct (Z.even k)|destruct (Z.even j)]; discriminate.
Qed.
Lemma quantize_pos v q : 0 < q -> quantize v q = Ok (round_even (clip_by_value v (IZR int_min * q) (IZR int_max * q) / q)).
Proof. intros Q. unfold quantize, is_zero. destruct (Req_EM_T q 0); [lra|reflexivity]. Qed.
Lemma div_between a b q x : 0 < q -> a * q <= x <= b * q -> a <= x / q <= b.
Proof.
  intros Q H. split.
  - apply Rmult_le_reg_r with q; [exact Q|]. unfold Rdiv. rewrite Rmult_assoc, Rinv_l, Rmult_1_r by lra. lra.
  - apply Rmult_le_reg_r with q; [exact Q|]. unfold Rdiv. rewrite Rmult_assoc, Rinv_l, Rmult_1_r by lra. lra.
Qed.
Lemma round_even_mono_int x a b : IZR a <= x <= IZR b -> (a <= round_even x <= b)%Z.
Proof.
  intros H. pose proof (round_even_near x) as N. assert (P : IZR (a - 1) < IZR (round_even x) < IZR (b + 1)).
  { rewrite minus_IZR, plus_IZR. revert N. unfold Rabs. destruct (Rcase_abs _); lra. }
  destruct P as [P Q]. apply lt_IZR in P, Q. lia.
Qed.
Lemma int_range : IZR int_min < IZR int_max. Proof. apply IZR_lt. reflexivity. Qed.
Theorem quantize_facts : forall v q, 0 < q -> exists k, quantize v q = Ok k /\ int32 k /\
  (IZR (- 2 ^ 31) * q <= v <= IZR (2 ^ 31 - 1) * q -> nearest (v / q) k /\ Rabs (q * IZR k - v) <= q / 2) /\
  (v < IZR (- 2 ^ 31) * q -> k = (- 2 ^ 31)%Z) /\ (IZR (2 ^ 31 - 1) * q < v -> k = (2 ^ 31 - 1)%Z).
Proof.
  intros v q Q. rewrite quantize_pos by exact Q. eexists. split; [reflexivity|]. fold int_min int_max.
  pose proof int_range as IR. assert (LH : IZR int_min * q < IZR int_max * q) by (apply Rmult_lt_compat_r; assumption).
  set (lo := IZR int_min * q) in *. set (hi := IZR int_max * q) in *.
  assert (Bd : lo <= clip_by_value v lo hi <= hi) by (unfold clip_by_value, Rmax, Rmin; repeat (destruct (Rle_dec _ _)); lra).
  split; [|split; [|split]].
  - unfold int32. fold int_min int_max. apply round_even_mono_int. now apply div_between.
  - intros H. assert (Ec : clip_by_value v lo hi = v) by (unfold clip_by_value, Rmax, Rmin; repeat (destruct (Rle_dec _ _)); lra).
    rewrite Ec. split; [apply round_even_nearest|]. pose proof (round_even_near (v / q)) as N.
    replace (q * IZR (round_even (v / q)) - v) with (- (q * (v / q - IZR (round_even (v / q))))) by (field; lra).
    rewrite Rabs_Ropp, Rabs_mult, (Rabs_right q) by lra. unfold Rdiv. apply Rmult_le_compat_l; [lra|exact N].
  - intros H. replace (clip_by_value v lo hi) with lo by (unfold clip_by_value, Rmax, Rmin; repeat (destruct (Rle_dec _ _)); lra).
    unfold lo. replace (IZR int_min * q / q) with (IZR int_min) by (field; lra). apply round_even_int.
  - intros H. replace (clip_by_value v lo hi) with hi by (unfold clip_by_value, Rmax, Rmin; repeat (destruct (Rle_dec _ _)); lra).
    unfold hi. replace (IZR int_max * q / q) with (IZR int_max) by (field; lra). apply round_even_int.
Qed.
Theorem requantize : forall q k, 0 < q -> int32 k -> quantize (q * IZR k) q = Ok k.
Proof.
  intros q k Q I. rewrite quantize_pos by exact Q. f_equal. unfold int32 in I. fold int_min int_max in I. destruct I as [I J]. apply IZR_le in I, J.
  replace (clip_by_value (q * IZR k) (IZR int_min * q) (IZR int_max * q)) with (IZR k * q).
  - replace (IZR k * q / q) with (IZR k) by (field; lra). apply round_even_int.
  - assert (IZR int_min * q <= IZR k * q <= IZR int_max * q) by (split; apply Rmult_le_compat_r; lra).
    unfold clip_by_value, Rmax, Rmin; repeat (destruct (Rle_dec _ _)); lra.
Qed.
Lemma unsaturated_range v q k : 0 < q -> quantize v q = Ok k -> ~ saturated k -> Rabs (q * IZR k - v) <= q / 2.
Proof.
  intros Q E U. destruct (quantize_facts v q Q) as (k' & E' & _ & A & B & C). rewrite E in E'. injection E' as <-.
  destruct (Rlt_dec v (IZR (- 2 ^ 31) * q)) as [L|L]; [elim U; left; now apply B|].
  destruct (Rlt_dec (IZR (2 ^ 31 - 1) * q) v) as [G|G]; [elim U; right; now apply C|]. apply A. split; now apply Rnot_lt_le.
Qed.
(** A negative step sends everything to one end; a zero step means nothing. *)
Theorem bad_step : forall v, quantize v 0 = Err RuntimeError /\ forall q, q < 0 -> quantize v q = Ok (- 2 ^ 31)%Z.
Proof.
  intros v. split.
  - unfold quantize, is_zero. destruct (Req_EM_T 0 0); [reflexivity|lra].
  - intros q Q. unfold quantize, is_zero. destruct (Req_EM_T q 0); [lra|]. f_equal. pose proof int_range as IR. fold int_min.
    assert (LH : IZR int_max * q < IZR int_min * q) by nra.
    replace (clip_by_value v (IZR int_min * q) (IZR int_max * q)) with (IZR int_min * q).
    + replace (IZR int_min * q / q) with (IZR int_min) by (field; lra). apply round_even_int.
    + unfold clip_by_value, Rmax, Rmin; repeat (destruct (Rle_dec _ _)); lra.
Qed.
