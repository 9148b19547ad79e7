(** Properties C06, C07 and C47: matching predictions with ground truths. *)
From Coq Require Import Permutation Sorted.
From Verif Require Import Base MatcherModel MatcherSpec MatcherProofs ScoreFirstProofs
  MatcherCacheModel MatcherCacheSpec MatcherCacheProofs.
Open Scope Z_scope.

(** C06. For all objects, IoU functions, thresholds and subsets the Hungarian matcher succeeds and
    returns mutually inverse partial injections of allowed pairs whose total objective no other
    one-to-one assignment of allowed pairs exceeds. *)
Theorem C06_hungarian_matcher_optimal : forall (box : Type) (cfg : config box) (fr : frame box) psub gsub,
  frame_ok cfg fr -> subset_ok (preds fr) psub -> subset_ok (gts fr) gsub ->
  exists pm gm, hungarian_match box cfg fr psub gsub = Ok (pm, gm) /\
    mutually_inverse (length psub) (length gsub) pm gm /\
    valid_assignment (length psub) (length gsub) (pair_ok cfg fr psub gsub) pm /\
    (forall mu, valid_assignment (length psub) (length gsub) (pair_ok cfg fr psub gsub) mu ->
       assignment_weight (length psub) (pair_weight cfg fr psub gsub) mu <=
       assignment_weight (length psub) (pair_weight cfg fr psub gsub) pm).
Proof. intros box cfg fr psub gsub H1 H2 H3. exact (hungarian_match_correct cfg fr H1 psub gsub H2 H3). Qed.
Print Assumptions C06_hungarian_matcher_optimal.

(** C06. With positive thresholds only objects of the same type are matched. *)
Theorem C06_matches_have_same_type : forall (box : Type) (cfg : config box) (fr : frame box) psub gsub pm gm,
  frame_ok cfg fr -> subset_ok (preds fr) psub -> subset_ok (gts fr) gsub ->
  Forall (fun t => 0 < t)%Q (thresholds cfg) ->
  hungarian_match box cfg fr psub gsub = Ok (pm, gm) ->
  forall i j, nth i pm None = Some j ->
    exists p g, selected (preds fr) psub i = Some p /\ selected (gts fr) gsub j = Some g /\ otype p = otype g.
Proof. exact @match_same_type. Qed.
Print Assumptions C06_matches_have_same_type.

(** C06. A prediction without a type stops the program (CHECK_NE) as soon as it is compared;
    here for a subset that starts with it. *)
Theorem C06_unknown_type_fatal : forall (box : Type) (cfg : config box) (fr : frame box) p ps g gs o,
  nth_error (preds fr) p = Some o -> otype o = 0%nat ->
  hungarian_match box cfg fr (p :: ps) (g :: gs) = Err CheckFailed.
Proof. exact @unknown_type_fatal. Qed.
Print Assumptions C06_unknown_type_fatal.

(** C07. For every order a sort by descending score may produce: mutually inverse partial
    injections of allowed pairs. *)
Theorem C07_score_first_valid : forall (box : Type) (cfg : config box) (fr : frame box) psub gsub order,
  frame_ok cfg fr -> subset_ok (preds fr) psub -> subset_ok (gts fr) gsub ->
  (length psub <= length (preds fr))%nat -> (length gsub <= length (gts fr))%nat ->
  score_order fr psub order ->
  exists pm gm, score_first_match box cfg fr order psub gsub [] [] = Ok (pm, gm) /\
    mutually_inverse (length psub) (length gsub) pm gm /\
    valid_assignment (length psub) (length gsub) (pair_ok cfg fr psub gsub) pm.
Proof.
  intros box cfg fr psub gsub order H1 H2 H3 H4 H5 [H6 _].
  destruct (score_first_correct cfg fr H1 psub gsub H2 H3 H4 H5 order H6) as (pm & gm & E & A & B & _).
  exists pm, gm. exact (conj E (conj A B)).
Qed.
Print Assumptions C07_score_first_valid.

(** C07. An unmatched prediction finds all ground truths it could match taken by predictions with
    at least its score. *)
Theorem C07_unmatched_only_if_taken : forall (box : Type) (cfg : config box) (fr : frame box) psub gsub order pm gm,
  frame_ok cfg fr -> subset_ok (preds fr) psub -> subset_ok (gts fr) gsub ->
  (length psub <= length (preds fr))%nat -> (length gsub <= length (gts fr))%nat ->
  score_order fr psub order ->
  score_first_match box cfg fr order psub gsub [] [] = Ok (pm, gm) ->
  forall i j, (i < length psub)%nat -> (j < length gsub)%nat -> pair_ok cfg fr psub gsub i j ->
    nth i pm None = None ->
    exists i', nth j gm None = Some i' /\ (score_at fr psub i <= score_at fr psub i')%Q.
Proof. exact @score_first_taken. Qed.
Print Assumptions C07_unmatched_only_if_taken.

(** C07. When the subsets select everything, each prediction in turn gets its best free ground truth. *)
Theorem C07_full_subsets_greedy : forall (box : Type) (cfg : config box) (fr : frame box) order,
  frame_ok cfg fr ->
  let psub := seq 0 (length (preds fr)) in
  let gsub := seq 0 (length (gts fr)) in
  score_order fr psub order ->
  exists pm gm, score_first_match box cfg fr order psub gsub [] [] = Ok (pm, gm) /\
    greedy_stable (length gsub) order (pair_ok cfg fr psub gsub) (pair_weight cfg fr psub gsub) pm gm.
Proof. exact @score_first_full. Qed.
Print Assumptions C07_full_subsets_greedy.

(** C07. With other subsets the documented choice of the largest IoU is not made. *)
Theorem C07_subset_best_iou_refuted :
  exists order psub gsub pm gm,
    score_order sf_fr psub order /\ subset_ok (preds sf_fr) psub /\ subset_ok (gts sf_fr) gsub /\
    score_first_match nat sf_cfg sf_fr order psub gsub [] [] = Ok (pm, gm) /\
    ~ greedy_stable (length gsub) order (pair_ok sf_cfg sf_fr psub gsub)
        (pair_weight sf_cfg sf_fr psub gsub) pm gm.
Proof. exact score_first_subset_witness. Qed.
Print Assumptions C07_subset_best_iou_refuted.

(** C07. Output vectors that are not empty before the call spoil the result. *)
Theorem C07_nonempty_outputs_refuted :
  exists order pm0 gm0 pm gm,
    score_order sf_fr [0;1]%nat order /\
    score_first_match nat sf_cfg sf_fr order [0;1]%nat [0;1]%nat pm0 gm0 = Ok (pm, gm) /\
    ~ mutually_inverse 2 2 pm gm.
Proof. exact score_first_stale_witness. Qed.
Print Assumptions C07_nonempty_outputs_refuted.

(** C47. For every history of setter calls and queries in which custom functions are installed
    before the first query about the current objects, every answer equals the one computed
    from scratch. *)
Theorem C47_cache_transparent : forall (box : Type) (iou0 : box -> box -> Q) (ops : list (op box)),
  functions_set_before_queries false ops ->
  run box (init box iou0) ops =
  run_uncached {| vpreds := None; vgts := None; viou := iou0; vaff := None |} ops.
Proof. exact @run_init_transparent. Qed.
Print Assumptions C47_cache_transparent.

(** C47. Replacing the IoU function after a query leaves stale answers. *)
Theorem C47_late_function_change_refuted :
  exists ops : list (op unit), exists iou0,
    run unit (init unit iou0) ops <>
    run_uncached {| vpreds := None; vgts := None; viou := iou0; vaff := None |} ops.
Proof.
  exists stale_ops, (fun _ _ => 1#2)%Q. destruct stale_cache as [E1 E2]. rewrite E1, E2. discriminate.
Qed.
Print Assumptions C47_late_function_change_refuted.

(** ** Non-vacuity *)
Example frame_admissible : frame_ok sf_cfg sf_fr /\ subset_ok (preds sf_fr) [1;0]%nat /\ subset_ok (gts sf_fr) [0;1]%nat.
Proof. split; [exact sf_frame_ok|]. split; repeat constructor; simpl; lia. Qed.
Example hungarian_run : hungarian_match nat sf_cfg sf_fr [1;0]%nat [0;1]%nat
  = Ok ([Some 1%nat; Some 0%nat], [Some 1%nat; Some 0%nat]).
Proof. vm_compute. reflexivity. Qed.
Example hungarian_run_one : hungarian_match nat sf_cfg sf_fr [1]%nat [0;1]%nat = Ok ([Some 1%nat], [None; Some 0%nat]).
Proof. vm_compute. reflexivity. Qed.
Example order_admissible : score_order sf_fr [0;1]%nat [1;0]%nat.
Proof. split; [apply perm_swap|]. repeat constructor; discriminate. Qed.
Example score_first_run : score_first_match nat sf_cfg sf_fr [1;0]%nat [0;1]%nat [0;1]%nat [] []
  = Ok ([Some 0%nat; Some 1%nat], [Some 0%nat; Some 1%nat]).
Proof. vm_compute. reflexivity. Qed.
Definition history : list (op nat) :=
  [SetIoUFunc tbl_iou; SetPredictions (preds sf_fr); SetGroundTruths (gts sf_fr);
   QueryIoU 0 1; QueryIoU 0 1; QueryAffinity 1 1; QueryIoU 7 0;
   SetGroundTruths [mk 1 0 0]; QueryIoU 1 0].
Example history_admissible : functions_set_before_queries false history.
Proof. cbn. auto. Qed.
Example history_answers : run nat (init nat (fun _ _ => 0%Q)) history
  = [Ok (6#10); Ok (6#10); Ok 1; Err CheckFailed; Ok (6#10)]%Q.
Proof. vm_compute. reflexivity. Qed.
