(** Box matching: src/waymo_open_dataset/metrics/python/matcher.py and metrics/ops/matcher_ops.cc on
    top of the matcher model (MatcherModel.v).

    Conventions.
    - Floats are rationals; ids are assumed to fit 32 bits.
    - Errors: ValueError stands for the errors TensorFlow reports (tf.debugging.assert_shapes and
      errors::InvalidArgument); CheckFailed is a failed CHECK or a LOG(FATAL).
    - The overlap and affinity functions that Matcher::Create selects are parameters.
    - TYPE_HUNGARIAN_TEST_ONLY is not modelled. Both inputs are float32, so the check of the dtypes
      (matcher_ops.cc:200-207) passes. *)
From Verif Require Import Base ResultLib MatcherModel.
Open Scope Z_scope.

(** Label.Box (label.proto:22-34): fields that are not set read as 0. *)
Record lbox := { center_x : Q; center_y : Q; center_z : Q; blength : Q; bwidth : Q; bheight : Q; bheading : Q }.
(** Label.Box.Type (label.proto:40-48). *)
Inductive box_type := BOX_UNKNOWN | BOX_3D | BOX_2D | BOX_AA_2D.
(** MatcherProto.Type (metrics.proto) without the test type. *)
Inductive matcher_type := MATCHER_UNKNOWN | MATCHER_HUNGARIAN | MATCHER_SCORE_FIRST.

(** The inputs of match: [N, D], [B, N, D], or a tensor of another rank. *)
Inductive input :=
| Rank2 (n d : nat) (at2 : nat -> nat -> Q)
| Rank3 (b n d : nat) (at3 : nat -> nat -> nat -> Q)
| OtherRank (dims : list nat).
(** A batch of boxes. *)
Record boxes := { batch : nat; num : nat; dim : nat; value : nat -> nat -> nat -> Q }.
(** matcher.py:87-90. *)
Definition expand (x : input) : input :=
  match x with Rank2 n d f => Rank3 1 n d (fun _ i k => f i k) | _ => x end.
Definition as_boxes (x : input) : result boxes :=
  match x with
  | Rank3 b n d f => Ok {| batch := b; num := n; dim := d; value := f |}
  | _ => Err ValueError
  end.

(** IsValidBox (matcher_ops.cc:44-56). *)
Definition positive (q : Q) : bool := negb (Qle_bool q 0).
Definition is_valid_box (b : lbox) (t : box_type) : result bool :=
  match t with
  | BOX_3D => Ok (positive (bwidth b) && positive (blength b) && positive (bheight b))
  | BOX_2D | BOX_AA_2D => Ok (positive (bwidth b) && positive (blength b))
  | BOX_UNKNOWN => Err CheckFailed
  end.
(** ParseBoxTensor (matcher_ops.cc:58-90): a vehicle with score 1. *)
Definition parse_box (d : nat) (f : nat -> Q) : result (object lbox) :=
  let obj b := {| otype := 1%nat; oscore := 1; obox := b |} in
  match d with
  | 7%nat => Ok (obj {| center_x := f 0%nat; center_y := f 1%nat; center_z := f 2%nat + f 5%nat / 2; blength := f 3%nat;
                        bwidth := f 4%nat; bheight := f 5%nat; bheading := f 6%nat |})
  | 5%nat => Ok (obj {| center_x := f 0%nat; center_y := f 1%nat; center_z := 0; blength := f 2%nat;
                        bwidth := f 3%nat; bheight := 0; bheading := f 4%nat |})
  | 4%nat => Ok (obj {| center_x := f 0%nat; center_y := f 1%nat; center_z := 0; blength := f 2%nat;
                        bwidth := f 3%nat; bheight := 0; bheading := 0 |})
  | _ => Err CheckFailed
  end.
(** ParseBoxesTensor (matcher_ops.cc:141-157), one batch element. *)
Definition parse_element (x : boxes) (b : nat) : result (list (object lbox)) :=
  mapM (fun i => parse_box (dim x) (value x b i)) (seq 0 (num x)).

(** The functions a configuration can select (matcher.h:87-95, matcher.cc:55-89): the overlap for the
    box type, and with an enabled LongitudinalErrorTolerantConfig its overlap and affinity. *)
Record functions := { plain_iou : lbox -> lbox -> Q; let_iou : lbox -> lbox -> Q; let_affinity : lbox -> lbox -> Q }.
(** let_metric_config: not given, or given with its field enabled. *)
Definition let_config := option bool.
(** _create_config (matcher.py:106-120) and Matcher::Create (matcher.h:87-95). *)
Definition create_config (fns : functions) (iou : Q) (lc : let_config) : config lbox :=
  let thr := [0; iou; iou; iou; iou]%Q in
  match lc with
  | Some true => {| thresholds := thr; iou_fn := let_iou fns; affinity_fn := Some (let_affinity fns) |}
  | _ => {| thresholds := thr; iou_fn := plain_iou fns; affinity_fn := None |}
  end.

Record match_row := { prediction_index : nat; ground_truth_index : nat; row_iou : Q; row_affinity : Q }.
Definition valid_indices (t : box_type) (l : list (object lbox)) : result (list nat) :=
  do vs <- mapM (fun o => is_valid_box (obox o) t) l;
  Ok (map fst (filter snd (combine (seq 0 (length l)) vs))).
(** The loop over the matches (matcher_ops.cc:126-137). *)
Definition rows (cfg : config lbox) (fr : frame lbox) (psub gsub : list nat) (pm : list (option nat)) : result (list match_row) :=
  do rs <- mapM (fun im =>
    match snd im with
    | None => Ok []
    | Some j =>
        do p <- nth_result psub (fst im) IndexError;
        do g <- nth_result gsub j IndexError;
        do v <- iou lbox cfg fr p g;
        do a <- affinity lbox cfg fr p g;
        Ok [{| prediction_index := p; ground_truth_index := g; row_iou := v; row_affinity := a |}]
    end) (combine (seq 0 (length pm)) pm);
  Ok (concat rs).
(** MatchBoxes (matcher_ops.cc:99-139): Match gets no vector for the ground truth matches. The score
    first matcher checks that it has one (matcher.cc:255), the Hungarian one does not need it. *)
Definition match_boxes (cfg : config lbox) (m : matcher_type) (t : box_type) (pds gts : list (object lbox)) : result (list match_row) :=
  let fr := {| preds := pds; gts := gts |} in
  do _ <- match m, t with MATCHER_UNKNOWN, _ => Err CheckFailed | _, BOX_UNKNOWN => Err CheckFailed | _, _ => Ok tt end;
  do psub <- valid_indices t pds;
  do gsub <- valid_indices t gts;
  do pg <- match m with
           | MATCHER_HUNGARIAN => hungarian_match lbox cfg fr psub gsub
           | _ => Err CheckFailed
           end;
  if negb (Nat.eqb (length psub) (length (fst pg))) then Err CheckFailed
  else rows cfg fr psub gsub (fst pg).

(** The checks of OpenDatasetMatcherOp::Compute (matcher_ops.cc:170-199). *)
Definition dims_ok (t : box_type) (d : nat) : bool :=
  match t, d with
  | BOX_AA_2D, 4%nat | BOX_2D, 5%nat | BOX_2D, 7%nat | BOX_3D, 7%nat => true
  | _, _ => false
  end.
(** The output tensors (matcher_ops.cc:208-248). *)
Record match_result := { prediction_ids : list nat; groundtruth_ids : list nat; ious : list Q; longitudinal_affinities : list Q }.
Definition collect (np ng : nat) (all : list (list match_row)) : match_result :=
  let each {A} (f : nat -> match_row -> A) := concat (map (fun br => map (f (fst br)) (snd br)) (combine (seq 0 (length all)) all)) in
  {| prediction_ids := each (fun b r => (prediction_index r + b * np)%nat);
     groundtruth_ids := each (fun b r => (ground_truth_index r + b * ng)%nat);
     ious := each (fun _ r => row_iou r);
     longitudinal_affinities := each (fun _ r => row_affinity r) |}.
Definition compute (fns : functions) (thr : Q) (t : box_type) (m : matcher_type) (lc : let_config) (p g : boxes) : result match_result :=
  if negb (Nat.eqb (dim p) (dim g)) then Err ValueError else
  if negb (Nat.eqb (batch g) (batch p)) then Err ValueError else
  if negb (dims_ok t (dim p)) then Err ValueError else
  do pds <- mapM (parse_element p) (seq 0 (batch p));
  do gts <- mapM (parse_element g) (seq 0 (batch g));
  do all <- mapM (fun pg => match_boxes (create_config fns thr lc) m t (fst pg) (snd pg)) (combine pds gts);
  Ok (collect (num p) (num g) all).
(** match (matcher.py:52-103): a rank other than 3 after the expansion, or different batch sizes or
    box dimensions, fail assert_shapes. *)
Definition match_api (fns : functions) (thr : Q) (t : box_type) (m : matcher_type) (lc : let_config) (x y : input) : result match_result :=
  do p <- as_boxes (expand x);
  do g <- as_boxes (expand y);
  if negb (Nat.eqb (batch p) (batch g) && Nat.eqb (dim p) (dim g)) then Err ValueError else
  compute fns thr t m lc p g.
