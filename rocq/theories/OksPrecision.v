(** Proofs about precision and average precision. *)
From Coq Require Import Reals Lra Psatz List Arith Lia Bool ZArith Permutation.
From Verif Require Import Base ResultLib GeomModel GeomBase PoseModel PoseSpec PoseReorder PoseBox PoseMatch PoseStages OksModel OksSpec OksProofs OksScores OksMeans.
Import ListNotations.
Open Scope R_scope.

Lemma valid_counts two_d b : (if box_is_valid two_d b then 1 else 0) = counts two_d b.
Proof.
  unfold box_is_valid, counts.
  assert (M : forall e x y, rltb e x || rltb e y = true <-> e < Rmax x y).
  { intros e x y. rewrite orb_true_iff, !rltb_iff. unfold Rmax. destruct (Rle_dec x y); split; intros; [destruct H|..]; lra. }
  destruct two_d; cbn [negb andb].
  - rewrite orb_false_r. destruct (rltb _ _ || rltb _ _) eqn:E; destruct (Rlt_dec _ _) as [L|L]; auto.
    + apply M in E. contradiction.
    + apply M in L. congruence.
  - destruct (Rlt_dec _ _) as [L|L].
    + replace (rltb (/ 100000) (sx b) || rltb (/ 100000) (sy b) || rltb (/ 100000) (sz b)) with true; auto. symmetry.
      apply orb_true_iff. rewrite (M (/ 100000) (sx b) (sy b)), rltb_iff. unfold Rmax at 1 in L. destruct (Rle_dec _ (sz b)); auto.
    + destruct (rltb (/ 100000) (sx b) || rltb (/ 100000) (sy b) || rltb (/ 100000) (sz b)) eqn:E; auto.
      apply orb_true_iff in E. rewrite (M (/ 100000) (sx b) (sy b)), rltb_iff in E. exfalso. apply L.
      unfold Rmax at 1. destruct (Rle_dec _ (sz b)); destruct E; lra.
Qed.
Lemma counts_cases two_d b : counts two_d b = 0 \/ counts two_d b = 1.
Proof. unfold counts. destruct (Rlt_dec _ _); auto. Qed.
Lemma counts_valid two_d b : box_is_valid two_d b = false -> counts two_d b = 0.
Proof. intros E. now rewrite <- valid_counts, E. Qed.

Lemma rsum_ones l : rsum (map (fun vw : R * R => fst vw * snd vw) (combine l (map (fun _ => 1) l))) = rsum l.
Proof. induction l as [|x l IH]; auto. cbn [map combine]. unfold rsum in *. cbn [fold_right fst snd]. rewrite IH. lra. Qed.

Section Ap.
  Variables (two_d : bool) (n : nat) (scales thresholds : list R) (size : box3 -> R) (kind : weighting).
  Hypothesis scales_length : length scales = n.
  Definition fine (s : sample) : Prop := fits n kind s /\ sane_box (s_box s) /\ is_size two_d (s_box s) (size (s_box s)).
  Definition sim (s : sample) : R := similarity (size (s_box s)) kind scales s.
  (** The weight of an object in a batch. *)
  Definition importance (batch : list sample) (s : sample) : R :=
    match kind with
    | Unweighted => counts two_d (s_box s)
    | _ => mean_of (sum_of (fun w => w) (s_weight s)) (sum_of (fun s => sum_of (fun w => w) (s_weight s)) batch) * counts two_d (s_box s)
    end.
  Definition score_or_zero (s : sample) : R := if box_is_valid two_d (s_box s) then sim s else 0.
  Lemma rsum_self l : rsum l = sum_of (fun w => w) l. Proof. reflexivity. Qed.
  Lemma weights_ok batch : kind <> PerObject ->
    object_weights kind (map (fun v : bool => if v then 1 else 0) (map (fun s => box_is_valid two_d (s_box s)) batch)) (map s_weight batch) =
    Ok (map (importance batch) batch).
  Proof using.
    intros K. rewrite map_map. rewrite (map_ext _ (fun s => counts two_d (s_box s))) by (intros s; apply valid_counts).
    unfold object_weights, importance. destruct kind; [reflexivity | congruence|].
    f_equal. rewrite map_map. rewrite (rsum_map (fun s => rsum (s_weight s))).
    set (T := sum_of _ batch). clearbody T. induction batch as [|s l IH]; auto. cbn [map combine fst snd]. now rewrite IH.
  Qed.
  Lemma step batch st : kind <> PerObject -> Forall fine batch ->
    ap_update two_d scales thresholds kind st batch =
    Ok {| precisions := map (fun pt => {| total := total (fst pt) + sum_of (fun s => importance batch s * hit sim (snd pt) s) batch;
                                          count := count (fst pt) + sum_of (importance batch) batch |}) (combine (precisions st) thresholds);
          average := {| total := total (average st) + sum_of (fun t => share (importance batch) sim t batch) thresholds;
                        count := count (average st) + INR (length thresholds) |} |}.
  Proof using scales_length.
    intros K F. unfold ap_update. rewrite (mapM_ok _ sim).
    2: { intros s I. rewrite Forall_forall in F. destruct (F s I) as (A & B & C). apply oks_value with n; auto. }
    cbn [bind]. rewrite weights_ok by auto. cbn [bind].
    assert (OV : map (fun vo : bool * R => if fst vo then snd vo else 0) (combine (map (fun s => box_is_valid two_d (s_box s)) batch) (map sim batch))
                 = map score_or_zero batch).
    { clear. induction batch as [|s l IH]; auto. cbn [map combine fst snd]. now rewrite IH. }
    rewrite OV. clear OV.
    assert (H : forall t, rsum (map (fun vw => fst vw * snd vw) (combine (matches t (map score_or_zero batch)) (map (importance batch) batch))) =
                          sum_of (fun s => importance batch s * hit sim t s) batch).
    { intros t. unfold matches. rewrite map_map.
      assert (Z : forall s, box_is_valid two_d (s_box s) = false -> importance batch s = 0).
      { intros s E. unfold importance. rewrite (counts_valid _ _ E). destruct kind; lra. }
      set (w := importance batch) in *. clearbody w. clear - Z. induction batch as [|s l IH]; auto. cbn [map combine fst snd]. rewrite sum_cons, <- IH.
      unfold rsum. cbn [fold_right]. f_equal. unfold score_or_zero, hit. destruct (box_is_valid two_d (s_box s)) eqn:V.
      - destruct (rltb t (sim s)) eqn:E; destruct (Rlt_dec t (sim s)) as [L|L]; try lra.
        + apply rltb_iff in E. contradiction.
        + apply rltb_false in E. lra.
      - rewrite (Z s V). lra. }
    f_equal. f_equal.
    - revert H. generalize (precisions st) as ps. intros ps H. revert ps.
      induction thresholds as [|t ts IH]; intros [|p ps]; cbn [map combine]; auto. rewrite IH. f_equal.
      unfold mean_update. cbn [fst snd]. rewrite H, rsum_map. reflexivity.
    - unfold mean_update. f_equal; f_equal.
      + rewrite rsum_ones, map_map, rsum_map. apply sum_ext. intros t _. unfold mean, share. rewrite divide_mean, H, rsum_map. reflexivity.
      + rewrite !map_map. rewrite rsum_map. rewrite sum_const. lra.
  Qed.

  Definition hits (t : R) (batches : list (list sample)) : R :=
    sum_of (fun b => sum_of (fun s => importance b s * hit sim t s) b) batches.
  Definition tried (batches : list (list sample)) : R := sum_of (fun b => sum_of (importance b) b) batches.
  Definition averages (batches : list (list sample)) : R := sum_of (fun b => sum_of (fun t => share (importance b) sim t b) thresholds) batches.
  Definition add (m : mean_state) (a b : R) : mean_state := {| total := total m + a; count := count m + b |}.
  Lemma fold_ap batches : kind <> PerObject -> Forall (Forall fine) batches -> forall st, length (precisions st) = length thresholds ->
    foldM (ap_update two_d scales thresholds kind) batches st =
    Ok {| precisions := map (fun pt => add (fst pt) (hits (snd pt) batches) (tried batches)) (combine (precisions st) thresholds);
          average := add (average st) (averages batches) (INR (length batches) * INR (length thresholds)) |}.
  Proof using scales_length.
    intros K. induction batches as [|b l IH]; intros F st L.
    - cbn [foldM]. f_equal. destruct st as [ps [a c]]. cbn [precisions average] in *. f_equal.
      + unfold add, hits, tried, sum_of. cbn [fold_right]. clear - L. revert ps L. induction thresholds as [|t ts IH]; intros [|[x y] ps] L; cbn [length] in L; try lia; auto.
        cbn [map combine fst snd total count]. rewrite <- IH by lia. f_equal. f_equal; lra.
      + unfold add, averages, sum_of. cbn [fold_right length total count INR]. f_equal; lra.
    - inversion F as [|? ? F1 F2]; subst. cbn [foldM]. rewrite step by auto. cbn [bind].
      rewrite IH; auto.
      + cbn [precisions average]. f_equal. f_equal.
        * clear - L. revert L. generalize (precisions st) as ps. unfold hits, tried. rewrite !sum_cons.
          intros ps. assert (E : forall t, sum_of (fun b => sum_of (fun s => importance b s * hit sim t s) b) (b :: l) =
             sum_of (fun s => importance b s * hit sim t s) b + sum_of (fun b => sum_of (fun s => importance b s * hit sim t s) b) l) by reflexivity.
          revert ps. induction thresholds as [|t ts IHt]; intros [|[x y] ps] L; cbn [length] in L; try lia; auto.
          cbn [map combine fst snd]. rewrite IHt by lia. f_equal. unfold add. cbn [total count fst snd]. rewrite E. f_equal; lra.
        * unfold add, averages. cbn [total count]. rewrite sum_cons. cbn [length]. rewrite S_INR. f_equal; lra.
      + cbn [precisions]. rewrite map_length, combine_length, L. apply Nat.min_id.
  Qed.
  Theorem ap_value batches : kind <> PerObject -> Forall (Forall fine) batches ->
    exists st, foldM (ap_update two_d scales thresholds kind) batches (ap_zero thresholds) = Ok st /\
      ap_result thresholds st =
      (map (fun t => (t, mean_of (hits t batches) (tried batches))) thresholds,
       mean_of (averages batches) (INR (length batches) * INR (length thresholds))).
  Proof using scales_length.
    intros K F. eexists. split; [apply fold_ap; auto; cbn [ap_zero precisions]; now rewrite map_length|].
    unfold ap_result. cbn [precisions average ap_zero]. unfold add, mean_result. cbn [total count mean_zero]. f_equal.
    - rewrite map_map. assert (G : forall ts, combine ts (map (fun x => divide_no_nan (total (fst x) + hits (snd x) batches) (count (fst x) + tried batches))
          (combine (map (fun _ => mean_zero) ts) ts)) = map (fun t => (t, mean_of (hits t batches) (tried batches))) ts).
      { induction ts as [|t ts IH]; auto. cbn [map combine fst snd]. rewrite IH. f_equal. f_equal. rewrite divide_mean. cbn [mean_zero total count].
        now rewrite !Rplus_0_l. }
      apply G.
    - rewrite divide_mean, !Rplus_0_l. reflexivity.
  Qed.
End Ap.

(** ** Without weights *)
Lemma unweighted_hits two_d scales size t batches :
  hits two_d scales size Unweighted t batches =
  sum_of (fun s => counts two_d (s_box s) * hit (sim scales size Unweighted) t s) (concat batches).
Proof. unfold hits. rewrite sum_concat. reflexivity. Qed.
Lemma unweighted_tried two_d batches : tried two_d Unweighted batches = sum_of (fun s => counts two_d (s_box s)) (concat batches).
Proof. unfold tried. rewrite sum_concat. reflexivity. Qed.
Theorem precision_value two_d n scales thresholds size batches : length scales = n -> Forall (Forall (fine two_d n size Unweighted)) batches ->
  exists st, foldM (ap_update two_d scales thresholds Unweighted) batches (ap_zero thresholds) = Ok st /\
    ap_result thresholds st =
    (map (fun t => (t, precision two_d (sim scales size Unweighted) t (concat batches))) thresholds,
     mean_of (sum_of (fun b => sum_of (fun t => precision two_d (sim scales size Unweighted) t b) thresholds) batches)
             (INR (length batches) * INR (length thresholds))).
Proof.
  intros K F. destruct (ap_value two_d n scales thresholds size Unweighted K batches) as (st & E & V); [discriminate | auto|].
  exists st. split; auto. rewrite V. f_equal. apply map_ext. intros t. rewrite unweighted_hits, unweighted_tried. reflexivity.
Qed.
Lemma hit_range f t s : 0 <= hit f t s <= 1. Proof. unfold hit. destruct (Rlt_dec _ _); lra. Qed.
Lemma counts_nonneg two_d b : 0 <= counts two_d b. Proof. destruct (counts_cases two_d b); lra. Qed.
Lemma share_range w f t l : (forall s, In s l -> 0 <= w s) -> 0 <= share w f t l <= 1.
Proof.
  intros W. apply mean_range. split.
  - apply sum_nonneg. intros s I. pose proof (hit_range f t s). specialize (W s I). nra.
  - apply sum_le. intros s I. pose proof (hit_range f t s). specialize (W s I). nra.
Qed.
Theorem precision_range two_d f t l : 0 <= precision two_d f t l <= 1.
Proof. apply share_range. intros s _. apply counts_nonneg. Qed.
Theorem precision_antitone two_d f t t' l : t <= t' -> precision two_d f t' l <= precision two_d f t l.
Proof.
  intros T. apply mean_le.
  - apply sum_le. intros s _. apply Rmult_le_compat_l; [apply counts_nonneg|]. unfold hit. destruct (Rlt_dec t' (f s)), (Rlt_dec t (f s)); lra.
  - apply sum_nonneg. intros s _. apply counts_nonneg.
Qed.
Theorem average_range {A} (f : A -> R -> R) (l : list A) ts : (forall a t, 0 <= f a t <= 1) ->
  0 <= mean_of (sum_of (fun a => sum_of (f a) ts) l) (INR (length l) * INR (length ts)) <= 1.
Proof.
  intros H. apply mean_range. split.
  - apply sum_nonneg. intros a _. apply sum_nonneg. intros t _. apply H.
  - rewrite Rmult_comm, <- (sum_const (INR (length ts)) l). apply sum_le. intros a _.
    rewrite <- (Rmult_1_l (INR _)), <- (sum_const 1 ts). apply sum_le. intros t _. apply H.
Qed.
Theorem average_single two_d f ts b :
  mean_of (sum_of (fun b => sum_of (fun t => precision two_d f t b) ts) [b]) (INR (length [b]) * INR (length ts)) =
  mean_over ts (fun t => precision two_d f t (concat [b])).
Proof.
  unfold mean_over. cbn [concat]. rewrite app_nil_r. rewrite sum_cons. cbn [length INR]. rewrite Rmult_1_l.
  unfold sum_of at 2. cbn [fold_right]. rewrite Rplus_0_r. reflexivity.
Qed.
Lemma sum_swap {A B} (f : A -> B -> R) l m : sum_of (fun a => sum_of (f a) m) l = sum_of (fun b => sum_of (fun a => f a b) l) m.
Proof.
  induction l as [|a l IH].
  - rewrite (sum_zero (fun b => sum_of (fun a => f a b) [])) by reflexivity. reflexivity.
  - rewrite sum_cons, IH. rewrite (sum_ext (fun b => sum_of (fun a => f a b) (a :: l)) (fun b => f a b + sum_of (fun a => f a b) l)) by reflexivity.
    clear. induction m as [|b m IH]; [unfold sum_of; cbn; lra|]. rewrite !sum_cons. lra.
Qed.
(** Batches with the same number of boxes that count. *)
Theorem average_equal two_d f ts batches c : c <> 0 -> batches <> [] ->
  Forall (fun b => sum_of (fun s => counts two_d (s_box s)) b = c) batches ->
  mean_of (sum_of (fun b => sum_of (fun t => precision two_d f t b) ts) batches) (INR (length batches) * INR (length ts)) =
  mean_over ts (fun t => precision two_d f t (concat batches)).
Proof.
  intros C N F. assert (NB : INR (length batches) <> 0) by (apply not_0_INR; destruct batches; [congruence | discriminate]).
  set (h := fun t l => sum_of (fun s => counts two_d (s_box s) * hit f t s) l).
  assert (T : sum_of (fun s => counts two_d (s_box s)) (concat batches) = c * INR (length batches)).
  { rewrite sum_concat. rewrite <- (sum_const c batches). apply sum_ext. intros b I. rewrite Forall_forall in F. auto. }
  assert (P : forall t, precision two_d f t (concat batches) = / INR (length batches) * sum_of (fun b => precision two_d f t b) batches).
  { intros t. rewrite (sum_ext (fun b => precision two_d f t b) (fun b => / c * h t b)).
    - rewrite sum_scale. unfold precision, share. rewrite T. fold (h t (concat batches)). unfold h at 1. rewrite sum_concat.
      change (sum_of (sum_of (fun s => counts two_d (s_box s) * hit f t s)) batches) with (sum_of (h t) batches).
      unfold mean_of. destruct (Req_EM_T _ 0) as [E|E]; [apply Rmult_integral in E; tauto|]. change (fun b => h t b) with (h t). field. auto.
    - intros b I. rewrite Forall_forall in F. unfold precision, share. rewrite (F b I). unfold mean_of. destruct (Req_EM_T c 0); [contradiction|].
      fold (h t b). field. auto. }
  unfold mean_over. rewrite (sum_ext _ _ _ (fun t _ => P t)). rewrite sum_scale. rewrite sum_swap.
  unfold mean_of. destruct (Req_EM_T (INR (length ts)) 0) as [E|E]; destruct (Req_EM_T (INR (length batches) * INR (length ts)) 0) as [E'|E']; auto.
  - rewrite E in E'. lra.
  - apply Rmult_integral in E'. tauto.
  - field. auto.
Qed.

(** ** With weights *)
Theorem weighted_value two_d n scales thresholds size b : length scales = n -> Forall (fine two_d n size PerPoint) b ->
  exists st, foldM (ap_update two_d scales thresholds PerPoint) [b] (ap_zero thresholds) = Ok st /\
    fst (ap_result thresholds st) =
    map (fun t => (t, share (fun s => sum_of (fun w => w) (s_weight s) * counts two_d (s_box s)) (sim scales size PerPoint) t b)) thresholds.
Proof.
  intros K F. destruct (ap_value two_d n scales thresholds size PerPoint K [b]) as (st & E & V); [discriminate | auto|].
  exists st. split; auto. rewrite V. cbn [fst]. apply map_ext. intros t. f_equal.
  replace (hits two_d scales size PerPoint t [b]) with (sum_of (fun s => importance two_d PerPoint b s * hit (sim scales size PerPoint) t s) b)
    by (unfold hits; rewrite sum_cons; unfold sum_of at 3; cbn [fold_right]; lra).
  replace (tried two_d PerPoint [b]) with (sum_of (importance two_d PerPoint b) b)
    by (unfold tried; rewrite sum_cons; unfold sum_of at 3; cbn [fold_right]; lra).
  unfold share. set (W := fun s => sum_of (fun w => w) (s_weight s)) in *. set (T := sum_of W b).
  match goal with |- _ = mean_of ?a ?d =>
    change a with (sum_of (fun s => W s * counts two_d (s_box s) * hit (sim scales size PerPoint) t s) b);
    change d with (sum_of (fun s => W s * counts two_d (s_box s)) b) end.
  assert (WN : forall s, In s b -> 0 <= W s).
  { intros s I. rewrite Forall_forall in F. destruct (F s I) as ((_ & _ & P & _) & _). apply sum_nonneg. rewrite Forall_forall in P. auto. }
  destruct (Req_dec T 0) as [Z|Z].
  - assert (WZ : forall s, In s b -> W s = 0) by (intros s I; apply (sum_zero_all W b WN Z s I)).
    assert (I0 : forall s, importance two_d PerPoint b s = 0).
    { intros s. change (importance two_d PerPoint b s) with (mean_of (W s) T * counts two_d (s_box s)). unfold mean_of. destruct (Req_EM_T T 0); [lra | contradiction]. }
    rewrite (sum_zero (importance two_d PerPoint b)) by auto. rewrite (sum_zero (fun s => W s * counts two_d (s_box s))).
    + unfold mean_of. destruct (Req_EM_T 0 0); [reflexivity | congruence].
    + intros s I. cbv beta. rewrite (WZ s I). lra.
  - assert (I1 : forall s, importance two_d PerPoint b s = / T * (W s * counts two_d (s_box s))).
    { intros s. change (importance two_d PerPoint b s) with (mean_of (W s) T * counts two_d (s_box s)). unfold mean_of.
      destruct (Req_EM_T T 0); [contradiction|]. field. auto. }
    rewrite (sum_ext (importance two_d PerPoint b) (fun s => / T * (W s * counts two_d (s_box s)))) by auto.
    rewrite (sum_ext (fun s => importance two_d PerPoint b s * hit (sim scales size PerPoint) t s)
                     (fun s => / T * (W s * counts two_d (s_box s) * hit (sim scales size PerPoint) t s))) by (intros s _; rewrite I1; ring).
    rewrite !sum_scale. unfold mean_of. assert (/ T <> 0) by now apply Rinv_neq_0_compat.
    set (X := sum_of (fun s => W s * counts two_d (s_box s)) b).
    destruct (Req_EM_T (/ T * X) 0) as [E1|E1]; destruct (Req_EM_T X 0) as [E2|E2]; auto.
    + apply Rmult_integral in E1. exfalso. destruct E1; contradiction.
    + rewrite E2 in E1. lra.
    + field. auto.
Qed.
Theorem per_object_refused two_d scales thresholds st b : exists e, ap_update two_d scales thresholds PerObject st b = Err e.
Proof. unfold ap_update. destruct (mapM _ b) as [o|e]; cbn [bind object_weights]; eauto. Qed.
