From Coq Require Import Permutation Lqa.
From Verif Require Import Base ResultLib ListLib SegModel SegSpec.
Open Scope Z_scope.

(** ** Positions of classes *)
Lemma index_of_spec c types : forall i,
  match index_of c types i with
  | Some j => (i <= j < i + length types)%nat /\ nth_error types (j - i) = Some c
  | None => ~ In c types
  end.
Proof.
  induction types as [|t ts IH]; intros i; cbn [index_of]; [intros []|].
  destruct (Z.eqb_spec c t) as [->|Hne].
  - cbn [length]. split; [lia|]. now rewrite Nat.sub_diag.
  - specialize (IH (S i)). destruct (index_of c ts (S i)) as [j|].
    + destruct IH as [A B]. cbn [length]. split; [lia|]. replace (j - i)%nat with (S (j - S i)) by lia. exact B.
    + intros [->|H]; [now apply Hne|now apply IH].
Qed.
Lemma no_duplicates_iff types : no_duplicates types = true <-> NoDup types.
Proof.
  induction types as [|t ts IH]; cbn [no_duplicates]; [split; [constructor|reflexivity]|].
  rewrite andb_true_iff, negb_true_iff, IH. split.
  - intros [A B]. constructor; [|exact B]. intros Hin. apply not_true_iff_false in A. apply A. apply existsb_exists. exists t. split; [exact Hin|apply Z.eqb_refl].
  - intros H. inversion H as [|x l A B]; subst. split; [|exact B]. apply not_true_iff_false. intros Hc. apply existsb_exists in Hc.
    destruct Hc as (x & Hx & E). apply Z.eqb_eq in E. subst x. contradiction.
Qed.
Lemma valid_iff types c : valid types c = true <-> In c types.
Proof.
  unfold valid. rewrite existsb_exists. split; [intros (x & Hx & E); apply Z.eqb_eq in E; now subst|]. intros H. exists c. split; [exact H|apply Z.eqb_refl].
Qed.
Lemma position_valid types c : (position types c < length types)%nat <-> In c types.
Proof.
  unfold position. pose proof (index_of_spec c types 0) as H. destruct (index_of c types 0) as [j|].
  - destruct H as [A B]. split; [|lia]. intros _. now apply nth_error_In in B.
  - split; [lia|]. intros Hin. contradiction.
Qed.
Lemma position_le types c : (position types c <= length types)%nat.
Proof. unfold position. pose proof (index_of_spec c types 0) as H. destruct (index_of c types 0); lia. Qed.
Lemma position_iff types c i : NoDup types -> (i < length types)%nat -> (position types c = i <-> c = nth i types 0).
Proof.
  intros Hnd Hi. unfold position. pose proof (index_of_spec c types 0) as H. destruct (index_of c types 0) as [j|].
  - destruct H as [A B]. rewrite Nat.sub_0_r in B. split; intros E.
    + subst j. symmetry. now apply nth_error_nth.
    + apply (NoDup_nth_error types); [exact Hnd|lia|]. rewrite B, E. symmetry. now apply nth_error_nth'.
  - split; intros E; [lia|]. exfalso. apply H. subst c. now apply nth_In.
Qed.

(** ** The confusion matrix *)
Definition square (n : nat) (m : matrix) : Prop := length m = n /\ Forall (fun r => length r = n) m.
Lemma set_nth_length {A} (f : A -> A) l : forall i, length (set_nth i f l) = length l.
Proof. induction l as [|a l IH]; intros [|i]; cbn [set_nth length]; auto. Qed.
Lemma set_nth_nth {A} (f : A -> A) d l : forall i j, (i < length l)%nat ->
  nth j (set_nth i f l) d = if Nat.eqb j i then f (nth j l d) else nth j l d.
Proof.
  induction l as [|a l IH]; intros [|i] [|j] H; cbn [length] in H; try lia; cbn [set_nth nth Nat.eqb]; try reflexivity.
  apply IH. lia.
Qed.
Lemma nth_row n m i : square n m -> (i < n)%nat -> length (nth i m []) = n.
Proof. intros [A B] Hi. rewrite Forall_forall in B. apply B. apply nth_In. lia. Qed.
Lemma incr_square n m g p : square n m -> square n (incr m g p).
Proof.
  intros [A B]. unfold incr. split; [now rewrite set_nth_length|]. rewrite Forall_forall in *. intros r Hr.
  assert (Hs : forall (l : matrix) i x, In x (set_nth i (set_nth p (Z.add 1)) l) -> exists y, In y l /\ length x = length y).
  { clear. induction l as [|a l IH]; intros [|i] x Hx; cbn [set_nth] in Hx; try destruct Hx as [<-|Hx]; try contradiction.
    - exists a. split; [now left|]. apply set_nth_length.
    - exists x. split; [now right|reflexivity].
    - exists a. split; [now left|reflexivity].
    - destruct (IH _ _ Hx) as (y & Hy & E). exists y. split; [now right|exact E]. }
  destruct (Hs m g r Hr) as (y & Hy & E). rewrite E. now apply B.
Qed.
Lemma incr_cell n m g p i j : square n m -> (g < n)%nat -> (p < n)%nat ->
  cell (incr m g p) i j = cell m i j + (if Nat.eqb i g && Nat.eqb j p then 1 else 0).
Proof.
  intros Hs Hg Hp. unfold cell, incr. pose proof (nth_row _ _ _ Hs Hg) as Hr. destruct Hs as [A B].
  rewrite set_nth_nth by lia. destruct (Nat.eqb_spec i g) as [->|Hne]; cbn [andb]; [|lia].
  rewrite set_nth_nth by lia. destruct (Nat.eqb_spec j p) as [->|Hnp]; lia.
Qed.
Lemma repeat_nth {A} (a d : A) n i : (i < n)%nat -> nth i (repeat a n) d = a.
Proof. revert i. induction n as [|n IH]; intros [|i] H; cbn; try lia; auto. apply IH. lia. Qed.
Lemma zero_square n : square n (zero_matrix n).
Proof. unfold zero_matrix. split; [apply repeat_length|]. apply Forall_forall. intros r Hr. apply repeat_spec in Hr. subst r. apply repeat_length. Qed.
Lemma zero_cell n i j : cell (zero_matrix n) i j = 0.
Proof.
  unfold cell, zero_matrix. destruct (lt_dec i n) as [Hi|Hi].
  - rewrite repeat_nth by exact Hi. destruct (lt_dec j n) as [Hj|Hj]; [now rewrite repeat_nth|]. apply nth_overflow. rewrite repeat_length. lia.
  - rewrite (nth_overflow (repeat _ _)) by (rewrite repeat_length; lia). now destruct j.
Qed.

Definition at_cell (types : list Z) (i j : nat) (pt : Z * Z) : bool :=
  Nat.eqb i (position types (snd pt)) && Nat.eqb j (position types (fst pt)).
Definition counts (types : list Z) (m : matrix) (pts : list (Z * Z)) : Prop :=
  square (length types + 1) m /\ forall i j, cell m i j = count (at_cell types i j) pts.
Lemma count_app P a b : count P (a ++ b) = count P a + count P b.
Proof. unfold count. rewrite filter_app, app_length. lia. Qed.
Lemma count_cons P x l : count P (x :: l) = (if P x then 1 else 0) + count P l.
Proof. unfold count. cbn [filter]. destruct (P x); cbn [length]; lia. Qed.
Lemma count_nil P : count P [] = 0.
Proof. reflexivity. Qed.
Lemma count_nonneg P l : 0 <= count P l.
Proof. unfold count. lia. Qed.
Lemma count_perm P l l' : Permutation l l' -> count P l = count P l'.
Proof. induction 1; rewrite ?count_cons; lia. Qed.
Lemma count_points_ok types pred : forall gt m pts, length pred = length gt -> counts types m pts ->
  counts types (count_points types pred gt m) (pts ++ combine pred gt).
Proof.
  induction pred as [|p pred IH]; intros [|g gt] m pts L H; try discriminate L; cbn [count_points combine]; [now rewrite app_nil_r|].
  replace (pts ++ (p, g) :: combine pred gt) with ((pts ++ [(p, g)]) ++ combine pred gt) by (rewrite <- app_assoc; reflexivity).
  apply IH; [cbn in L; lia|]. destruct H as [A B]. split; [now apply incr_square|].
  intros i j. pose proof (position_le types g). pose proof (position_le types p).
  rewrite (incr_cell (length types + 1)) by (try exact A; lia). rewrite count_app, count_cons, B, count_nil. unfold at_cell at 3. cbn [fst snd]. lia.
Qed.
Lemma reset_counts types m pts : counts types m pts -> counts types (reset m) [].
Proof.
  intros [[A B] _]. unfold reset. split.
  - split; [now rewrite map_length|]. rewrite Forall_forall in *. intros r Hr. apply in_map_iff in Hr. destruct Hr as (r' & <- & Hr'). rewrite map_length. now apply B.
  - intros i j. rewrite count_nil. unfold cell.
    assert (E : nth i (map (map (fun _ : Z => 0)) m) [] = map (fun _ : Z => 0) (nth i m [])) by exact (map_nth (map (fun _ : Z => 0)) m [] i).
    rewrite E. exact (map_nth (fun _ : Z => 0) (nth i m []) 0 j).
Qed.
Theorem run_counts types h : counts types (run types h) (points h).
Proof.
  unfold run, points. assert (G : forall h m pts, counts types m pts -> counts types (fold_left (step types) h m) (fold_left accept h pts)).
  { clear. induction h as [|c h IH]; intros m pts H; cbn [fold_left]; [exact H|]. apply IH. destruct c as [p g|]; cbn [step accept].
    - unfold update. destruct (Nat.eqb_spec (length p) (length g)) as [E|E]; cbn [negb fst]; [|exact H]. now apply count_points_ok.
    - now apply (reset_counts types m pts). }
  apply G. split; [apply zero_square|]. intros i j. now rewrite zero_cell.
Qed.

(** ** Intersections and unions *)
Lemma fold_union m i l : forall u, fold_left (fun u j => u + cell m i j + cell m j i) l u =
  u + fold_right (fun j s => cell m i j + s) 0 l + fold_right (fun j s => cell m j i + s) 0 l.
Proof. induction l as [|j l IH]; intros u; cbn [fold_left fold_right]; [lia|]. rewrite IH. lia. Qed.
Lemma sum_cells (P : nat -> Z * Z -> bool) pts l :
  fold_right (fun j s => count (P j) pts + s) 0 l =
  fold_right (fun pt s => Z.of_nat (length (filter (fun j => P j pt) l)) + s) 0 pts.
Proof.
  induction l as [|j l IH].
  - cbn [fold_right filter length]. induction pts as [|pt pts IHp]; cbn [fold_right]; [reflexivity|]. rewrite <- IHp. reflexivity.
  - cbn [fold_right]. rewrite IH. clear IH. induction pts as [|pt pts IHp]; [reflexivity|]. rewrite count_cons. cbn [fold_right]. rewrite <- IHp.
    cbn [filter]. destruct (P j pt); cbn [length]; lia.
Qed.
Lemma filter_eq_seq n k : Z.of_nat (length (filter (fun j => Nat.eqb j k) (seq 0 n))) = if Nat.ltb k n then 1 else 0.
Proof.
  induction n as [|n IH]; [reflexivity|]. rewrite seq_S, filter_app, app_length, Nat2Z.inj_add, IH. cbn [plus filter].
  destruct (Nat.eqb_spec n k); cbn [length]; destruct (Nat.ltb_spec k n), (Nat.ltb_spec k (S n)); lia.
Qed.
Lemma filter_false {A} (P : A -> bool) l : (forall x, P x = false) -> filter P l = [].
Proof. intros H. induction l as [|a l IH]; cbn [filter]; [reflexivity|]. now rewrite H. Qed.
Lemma sum_row types pts i n : fold_right (fun j s => count (at_cell types i j) pts + s) 0 (seq 0 n) =
  count (fun pt => Nat.eqb i (position types (snd pt)) && Nat.ltb (position types (fst pt)) n) pts.
Proof.
  rewrite sum_cells. induction pts as [|pt pts IH]; cbn [fold_right]; [reflexivity|]. rewrite IH, count_cons. f_equal.
  unfold at_cell. destruct (Nat.eqb i (position types (snd pt))); cbn [andb]; [apply filter_eq_seq|]. now rewrite filter_false.
Qed.
Lemma sum_col types pts i n : fold_right (fun j s => count (at_cell types j i) pts + s) 0 (seq 0 n) =
  count (fun pt => Nat.ltb (position types (snd pt)) n && Nat.eqb i (position types (fst pt))) pts.
Proof.
  rewrite (sum_cells (fun j => at_cell types j i)). induction pts as [|pt pts IH]; cbn [fold_right]; [reflexivity|]. rewrite IH, count_cons. f_equal.
  unfold at_cell. destruct (Nat.eqb i (position types (fst pt))).
  - rewrite andb_true_r. erewrite filter_ext; [apply filter_eq_seq|]. intros j. apply andb_true_r.
  - rewrite andb_false_r. rewrite filter_false; [reflexivity|]. intros j. apply andb_false_r.
Qed.
Lemma fold_right_ext (f g : nat -> Z) l : (forall j, f j = g j) -> fold_right (fun j s => f j + s) 0 l = fold_right (fun j s => g j + s) 0 l.
Proof. intros H. induction l as [|j l IH]; cbn [fold_right]; [reflexivity|]. now rewrite H, IH. Qed.
Lemma union_value types m pts i : NoDup types -> counts types m pts -> (i < length types)%nat ->
  union_of (length types) m i = count (in_either types (nth i types 0)) pts.
Proof.
  intros Hnd [_ B] Hi. unfold union_of. rewrite fold_union.
  rewrite (fold_right_ext (fun j => cell m i j) (fun j => count (at_cell types i j) pts)) by (intros j; apply B).
  rewrite (fold_right_ext (fun j => cell m j i) (fun j => count (at_cell types j i) pts)) by (intros j; apply B).
  rewrite sum_row, sum_col, !B. clear B m. set (n := length types) in *.
  induction pts as [|[p g] pts IH]; [reflexivity|]. rewrite !count_cons.
  enough (G : - (if at_cell types i i (p, g) then 1 else 0) +
    (if Nat.eqb i (position types (snd (p, g))) && Nat.ltb (position types (fst (p, g))) n then 1 else 0) +
    (if Nat.ltb (position types (snd (p, g))) n && Nat.eqb i (position types (fst (p, g))) then 1 else 0) +
    (if at_cell types i n (p, g) then 1 else 0) = (if in_either types (nth i types 0) (p, g) then 1 else 0)) by lia.
  clear IH pts. unfold at_cell, in_either. cbn [fst snd].
  set (c := nth i types 0).
  assert (E1 : forall x, Nat.eqb i (position types x) = (x =? c)).
  { intros x. apply eq_true_iff_eq. rewrite Nat.eqb_eq, Z.eqb_eq. pose proof (position_iff types x i Hnd Hi) as H. fold c in H.
    split; intros E; [apply H; now symmetry|symmetry; now apply H]. }
  assert (E2 : Nat.ltb (position types g) n = valid types g).
  { apply eq_true_iff_eq. rewrite Nat.ltb_lt, valid_iff. apply position_valid. }
  assert (E3 : Nat.ltb (position types p) n = negb (Nat.eqb n (position types p))).
  { pose proof (position_le types p) as H. fold n in H. destruct (Nat.eqb_spec n (position types p)); destruct (Nat.ltb_spec (position types p) n); cbn [negb]; lia. }
  assert (E4 : (g =? c) = true -> valid types g = true).
  { intros H. apply Z.eqb_eq in H. subst g. apply valid_iff. unfold c. now apply nth_In. }
  assert (E5 : (p =? c) = true -> Nat.eqb n (position types p) = false).
  { intros H. rewrite <- E1 in H. apply Nat.eqb_eq in H. apply Nat.eqb_neq. lia. }
  rewrite !E1, E2, E3. revert E4 E5. generalize (g =? c) (p =? c) (valid types g) (Nat.eqb n (position types p)).
  intros [|] [|] [|] [|] H4 H5; cbn; try reflexivity; try (specialize (H4 eq_refl); discriminate); specialize (H5 eq_refl); discriminate.
Qed.
Lemma intersection_value types m pts i : NoDup types -> counts types m pts -> (i < length types)%nat ->
  intersection_of m i = count (in_both (nth i types 0)) pts.
Proof.
  intros Hnd [_ B] Hi. unfold intersection_of. rewrite B. unfold count. do 2 f_equal. apply filter_ext. intros [p g].
  unfold at_cell, in_both. cbn [fst snd]. pose proof (position_iff types g i Hnd Hi) as Hg. pose proof (position_iff types p i Hnd Hi) as Hp.
  destruct (Nat.eqb_spec i (position types g)) as [E1|E1]; destruct (Nat.eqb_spec i (position types p)) as [E2|E2];
  destruct (Z.eqb_spec g (nth i types 0)) as [E3|E3]; destruct (Z.eqb_spec p (nth i types 0)) as [E4|E4]; cbn [andb]; try reflexivity; exfalso;
  try (apply E1; symmetry; now apply Hg); try (apply E2; symmetry; now apply Hp); try (apply E3; apply Hg; now symmetry); try (apply E4; apply Hp; now symmetry).
Qed.
Lemma map_seq_nth {A B} (f : nat -> B) (g : A -> B) (l : list A) d : (forall i, (i < length l)%nat -> f i = g (nth i l d)) ->
  map f (seq 0 (length l)) = map g l.
Proof.
  revert f. induction l as [|a l IH]; intros f H; cbn [length seq map]; [reflexivity|]. f_equal; [apply (H 0%nat); cbn; lia|].
  rewrite <- seq_shift, map_map. apply IH. intros i Hi. apply (H (S i)). cbn. lia.
Qed.
Lemma combine_map_map {A B C} (f : A -> B) (g : A -> C) l : combine (map f l) (map g l) = map (fun a => (f a, g a)) l.
Proof. induction l as [|a l IH]; cbn; [reflexivity|]. now rewrite IH. Qed.
Lemma combine_self_map {A C} (g : A -> C) l : combine l (map g l) = map (fun a => (a, g a)) l.
Proof. induction l as [|a l IH]; cbn; [reflexivity|]. now rewrite IH. Qed.
Lemma summarize_spec types pts :
  summarize types (map (fun c => count (in_both c) pts) types) (map (fun c => count (in_either types c) pts) types) = metrics_of types pts.
Proof.
  unfold summarize, metrics_of. rewrite combine_map_map, map_map. cbn [fst snd]. rewrite combine_self_map. unfold mean, iou_of, ratio. reflexivity.
Qed.
Theorem compute_value types h : NoDup types -> compute_iou types (run types h) = metrics_of types (points h).
Proof.
  intros Hnd. pose proof (run_counts types h) as C. unfold compute_iou. rewrite <- summarize_spec. f_equal.
  - apply (map_seq_nth _ (fun c => count (in_both c) (points h)) types 0). intros i Hi. now apply intersection_value with (types := types).
  - apply (map_seq_nth _ (fun c => count (in_either types c) (points h)) types 0). intros i Hi. now apply union_value.
Qed.

(** ** Bounds *)
Lemma count_mono P P' l : (forall x, P x = true -> P' x = true) -> count P l <= count P' l.
Proof.
  intros H. induction l as [|x l IH]; [reflexivity|]. rewrite !count_cons. specialize (H x).
  destruct (P x), (P' x); lia.
Qed.
Lemma both_either types c pt : in_both c pt = true -> in_either types c pt = true.
Proof. unfold in_both, in_either. intros H. apply andb_true_iff in H. destruct H as [A B]. now rewrite B. Qed.
Lemma ratio_unit types c pts : (0 <= ratio c types pts <= 1)%Q.
Proof.
  unfold ratio. pose proof (count_nonneg (in_both c) pts). pose proof (count_mono (in_both c) (in_either types c) pts (both_either types c)).
  destruct (Z.ltb_spec 0 (count (in_either types c) pts)) as [Hl|Hl]; [|lra].
  assert (HK : (0 < inject_Z (count (in_either types c) pts))%Q) by (unfold Qlt; cbn; lia). split.
  - apply Qle_shift_div_l; [exact HK|]. unfold Qle; cbn; lia.
  - apply Qle_shift_div_r; [exact HK|]. setoid_replace (1 * inject_Z (count (in_either types c) pts))%Q with (inject_Z (count (in_either types c) pts)) by ring. rewrite <- Zle_Qle. lia.
Qed.
Lemma fold_plus_bounds l : forall s, (forall x, In x l -> 0 <= x <= 1)%Q ->
  (s <= fold_left Qplus l s <= s + inject_Z (Z.of_nat (length l)))%Q.
Proof.
  induction l as [|x l IH]; intros s H; cbn [fold_left].
  - cbn [length]. change (inject_Z (Z.of_nat 0)) with 0%Q. lra.
  - specialize (IH (s + x)%Q (fun y Hy => H y (or_intror Hy))). specialize (H x (or_introl eq_refl)).
    cbn [length]. rewrite Nat2Z.inj_succ, <- Z.add_1_l, inject_Z_plus. change (inject_Z 1) with 1%Q. lra.
Qed.
Lemma mean_unit l v : (forall x, In x l -> 0 <= x <= 1)%Q -> mean l = Some v -> (0 <= v <= 1)%Q.
Proof.
  intros H E. destruct l as [|x l']; [discriminate|]. set (l := x :: l') in *.
  assert (E' : v = (fold_left Qplus l 0 / inject_Z (Z.of_nat (length l)))%Q) by (unfold l, mean in E; fold l in E; congruence). subst v. clear E.
  pose proof (fold_plus_bounds l 0 H) as B.
  assert (HK : (0 < inject_Z (Z.of_nat (length l)))%Q) by (unfold Qlt; cbn; lia). split.
  - apply Qle_shift_div_l; [exact HK|]. lra.
  - apply Qle_shift_div_r; [exact HK|]. lra.
Qed.

(** ** Merging *)
Lemma metrics_perm types pts pts' : Permutation pts pts' -> metrics_of types pts = metrics_of types pts'.
Proof.
  intros H. assert (C : forall P, count P pts = count P pts') by (intros P; now apply count_perm).
  unfold metrics_of, ratio. f_equal; [|f_equal| |]; apply map_ext; intros c; now rewrite !C.
Qed.
Lemma to_int32_id z : 0 <= z < 2 ^ 31 -> to_int32 z = z.
Proof. intros H. unfold to_int32. rewrite Z.mod_small; lia. Qed.
Lemma add_lists_map types f g : add_lists (map f types) (map g types) = map (fun c : Z => f c + g c) types.
Proof. unfold add_lists. rewrite combine_map_map, map_map. reflexivity. Qed.
Lemma repeat_map_const types : repeat 0 (length types) = map (fun _ : Z => 0) types.
Proof. induction types as [|t ts IH]; cbn; [reflexivity|]. now rewrite IH. Qed.
Definition measurements (s : seg_metrics) : list Z * list Z := (inters s, unions s).
Lemma merge_fold types parts : forall pts,
  foldM (fun s r => if Nat.eqb (length (snd r)) (length types) && Nat.eqb (length (fst r)) (length types)
            then Ok (add_lists (fst s) (fst r), add_lists (snd s) (snd r)) else Err CheckFailed)
        (map (fun p => measurements (metrics_of types p)) parts)
        (measurements (metrics_of types pts)) = Ok (measurements (metrics_of types (pts ++ concat parts))).
Proof.
  induction parts as [|p parts IH]; intros pts; cbn [map foldM concat]; [now rewrite app_nil_r|].
  assert (L1 : length (snd (measurements (metrics_of types p))) = length types) by (cbn [snd measurements unions metrics_of]; apply map_length).
  assert (L2 : length (fst (measurements (metrics_of types p))) = length types) by (cbn [fst measurements inters metrics_of]; apply map_length).
  rewrite L1, L2, Nat.eqb_refl. cbn [andb bind].
  replace (add_lists (fst (measurements (metrics_of types pts))) _, add_lists _ _) with (measurements (metrics_of types (pts ++ p))).
  - rewrite IH. now rewrite app_assoc.
  - unfold measurements. cbn [fst snd inters unions metrics_of]. f_equal; rewrite add_lists_map; apply map_ext; intros c; now rewrite count_app.
Qed.
Lemma count_le P l : count P l <= Z.of_nat (length l).
Proof. induction l as [|x l IH]; [reflexivity|]. rewrite count_cons. cbn [length]. destruct (P x); lia. Qed.
Theorem merge_value types parts : Z.of_nat (length (concat parts)) < 2 ^ 31 ->
  merge_results types (map (fun p => measurements (metrics_of types p)) parts) = Ok (metrics_of types (concat parts)).
Proof.
  intros HL. unfold merge_results. cbv zeta. rewrite repeat_map_const.
  change (map (fun _ : Z => 0) types, map (fun _ : Z => 0) types) with (measurements (metrics_of types [])).
  rewrite merge_fold. cbn [bind app]. f_equal. unfold measurements. cbn [fst snd]. refine (eq_trans _ (summarize_spec types (concat parts))).
  cbn [inters unions metrics_of]. rewrite !map_map.
  assert (B : forall P, 0 <= count P (concat parts) < 2 ^ 31).
  { intros P. split; [apply count_nonneg|]. pose proof (count_le P (concat parts)). lia. }
  f_equal; apply map_ext; intros c; now apply to_int32_id.
Qed.
