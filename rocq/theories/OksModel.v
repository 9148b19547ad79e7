(** Keypoint similarity and the averages built on it,
    /repo/src/waymo_open_dataset/metrics/python/keypoint_metrics.py and utils/keypoint_data.py.

    Conventions.
    - Numbers are real numbers; rounding is not modelled.
    - A batch is the list of its samples.  In two dimensions the third coordinate, the third size and the
      heading are zero.
    - A tensor of length one is broadcast only where a weight is; every other length has to agree. *)
From Coq Require Import Reals.
From Verif Require Import Base ResultLib GeomModel PoseModel.
Open Scope list_scope.
Open Scope R_scope.

(** keypoint_data.py:328-330: mask. *)
Definition present (k : keypoint) : bool := Z.ltb 0 (visibility k).
Definition mask (k : keypoint) : R := if present k then 1 else 0.
(** keypoint_data.py:455-457: scale.  tf.pow gives zero at zero; a negative product (a NaN) is not modelled and counts as zero. *)
Definition box_scale (two_d : bool) (b : box3) : R :=
  let volume := if two_d then sx b * sy b else sx b * sy b * sz b in
  let dims := if two_d then 2 else 3 in
  if rleb volume 0 then 0 else Rpower volume (1 / dims).
(** tf.math.divide_no_nan. *)
Definition divide_no_nan (a b : R) : R := if Req_EM_T b 0 then 0 else a / b.

(** 48-50: _oks_per_point. *)
Definition oks_per_point (diff : vec) (scale : R) : R :=
  exp (divide_no_nan (- vdot diff diff) (2 * scale * scale)).

(** The shape of the weights given with a batch: none, [batch_size], or [batch_size, num_points]. *)
Inductive weighting := Unweighted | PerObject | PerPoint.
(** A sample: the labelled keypoints, the predicted ones, the labelled box and its row of the weights. *)
Record sample := { s_gt : list keypoint; s_pr : list keypoint; s_box : box3; s_weight : list R }.

(** 156-166: _mean with weights. *)
Definition mean (values weights : list R) : R :=
  divide_no_nan (rsum (map (fun vw => fst vw * snd vw) (combine values weights))) (rsum weights).
(** 169-185: _reshape_weights and _masked_weights, for one sample; a row of one weight is broadcast. *)
Definition masked_weights (kind : weighting) (point_mask w : list R) : result (list R) :=
  match kind with
  | Unweighted => Ok point_mask
  | _ => match w with
         | [x] => Ok (map (fun m => m * x) point_mask)
         | _ => if Nat.eqb (length w) (length point_mask)
                then Ok (map (fun mw => fst mw * snd mw) (combine point_mask w))
                else Err ValueError
         end
  end.
Definition pair_mask (s : sample) : list R :=
  map (fun gp => mask (fst gp) * mask (snd gp)) (combine (s_gt s) (s_pr s)).

(** 236-241: the box of no penalty; its heading is not passed on. *)
Definition no_penalty_box (b : box3) : box3 :=
  {| cx := cx b; cy := cy b; cz := cz b; sx := 3 * sx b; sy := 3 * sy b; sz := 3 * sz b; heading := 0 |}.
(** 188-257: object_keypoint_similarity, for one sample. *)
Definition gt_available (s : sample) : bool := rltb 0 (rsum (map mask (s_gt s))).
Definition point_diff (s : sample) (g p : keypoint) : vec :=
  if gt_available s then vsub (location g) (location p) else box_displacement (location p) (no_penalty_box (s_box s)).
Definition per_point_scores (two_d : bool) (scales : list R) (s : sample) : list R :=
  map (fun gpk => oks_per_point (point_diff s (fst (fst gpk)) (snd (fst gpk))) (snd gpk * box_scale two_d (s_box s)))
      (combine (combine (s_gt s) (s_pr s)) scales).
Definition object_keypoint_similarity (two_d : bool) (scales : list R) (kind : weighting) (s : sample) : result R :=
  if negb (Nat.eqb (length (s_gt s)) (length (s_pr s)) && Nat.eqb (length (s_gt s)) (length scales)) then Err ValueError else
  let scores := per_point_scores two_d scales s in
  let box_similarity := divide_no_nan (rsum scores) (INR (length scales)) in
  do weights <- masked_weights kind (pair_mask s) (s_weight s);
  let gt_similarity := mean scores weights in
  Ok (if gt_available s then gt_similarity else box_similarity).

(** tf.keras.metrics.Mean: update_state and result. *)
Record mean_state := { total : R; count : R }.
Definition mean_zero : mean_state := {| total := 0; count := 0 |}.
Definition mean_update (st : mean_state) (values weights : list R) : mean_state :=
  {| total := total st + rsum (map (fun vw => fst vw * snd vw) (combine values weights)); count := count st + rsum weights |}.
Definition mean_result (st : mean_state) : R := divide_no_nan (total st) (count st).

(** 260-277: _oks_object_weights, on the whole batch. *)
Definition object_weights (kind : weighting) (box_weight : list R) (weights : list (list R)) : result (list R) :=
  match kind with
  | Unweighted => Ok box_weight
  | PerObject => Err ValueError
  | PerPoint =>
      let sums := map rsum weights in
      Ok (map (fun wb => divide_no_nan (fst wb) (rsum sums) * snd wb) (combine sums box_weight))
  end.
(** 384-451: AveragePrecisionAtOKS: its means, one for each threshold, and the mean of averages. *)
Record ap_state := { precisions : list mean_state; average : mean_state }.
Definition ap_zero (thresholds : list R) : ap_state :=
  {| precisions := map (fun _ => mean_zero) thresholds; average := mean_zero |}.
(** 427: box_is_valid; the third size is not looked at in two dimensions. *)
Definition box_is_valid (two_d : bool) (b : box3) : bool :=
  rltb (/ 100000) (sx b) || rltb (/ 100000) (sy b) || (negb two_d && rltb (/ 100000) (sz b)).
Definition matches (threshold : R) (oks_valid : list R) : list R :=
  map (fun o => if rltb threshold o then 1 else 0) oks_valid.
(** 416-444: _update_state. *)
Definition ap_update (two_d : bool) (scales thresholds : list R) (kind : weighting) (st : ap_state) (batch : list sample)
    : result ap_state :=
  do oks <- mapM (object_keypoint_similarity two_d scales kind) batch;
  let valid := map (fun s => box_is_valid two_d (s_box s)) batch in
  let oks_valid := map (fun vo => if (fst vo : bool) then snd vo else 0) (combine valid oks) in
  do weight <- object_weights kind (map (fun v : bool => if v then 1 else 0) valid) (map s_weight batch);
  let ms := map (fun t => matches t oks_valid) thresholds in
  let means := map (fun m => mean m weight) ms in
  Ok {| precisions := map (fun pm => mean_update (fst pm) (snd pm) weight) (combine (precisions st) ms);
        average := mean_update (average st) means (map (fun _ => 1) means) |}.
(** 446-451: _result; the keys are the thresholds rather than their formatted names. *)
Definition ap_result (thresholds : list R) (st : ap_state) : list (R * R) * R :=
  (combine thresholds (map mean_result (precisions st)), mean_result (average st)).

(** 471-475, 722-736: position_error. *)
Definition position_error (s : sample) : list R :=
  map (fun gp => vnorm (vsub (location (fst gp)) (location (snd gp)))) (combine (s_gt s) (s_pr s)).
(** 290-346: the check of update_state. *)
Definition check_shapes (s : sample) : result unit :=
  if Nat.eqb (length (s_gt s)) (length (s_pr s)) then Ok tt else Err ValueError.
(** 463-483: MeanPerJointPositionError._update_state. *)
Definition mpjpe_update (kind : weighting) (st : mean_state) (batch : list sample) : result mean_state :=
  do _ <- mapM check_shapes batch;
  do weights <- mapM (fun s => masked_weights kind (pair_mask s) (s_weight s)) batch;
  Ok (mean_update st (concat (map position_error batch)) (concat weights)).

(** 654-741: PercentageOfCorrectKeypoints. *)
Record pck_config := { per_type : option (list R); use_object_scale : bool }.
(** 700-720: _keypoint_threshold, for one sample with [n] keypoints; [has_box] is false when the box argument is None. *)
Definition keypoint_threshold (two_d : bool) (c : pck_config) (has_box : bool) (threshold : R) (s : sample) : result (list R) :=
  let n := length (s_gt s) in
  do base <- (if use_object_scale c then
                if has_box then Ok (threshold * box_scale two_d (s_box s)) else Err ValueError
              else Ok threshold);
  match per_type c with
  | None => Ok (repeat base n)
  | Some ks => if Nat.eqb (length ks) n then Ok (map (fun k => base * k) ks) else Err ValueError
  end.
Definition is_correct (two_d : bool) (c : pck_config) (has_box : bool) (threshold : R) (s : sample) : result (list R) :=
  do ts <- keypoint_threshold two_d c has_box threshold s;
  Ok (map (fun et => if rleb (fst et) (snd et) then 1 else 0) (combine (position_error s) ts)).
(** 722-741: _update_state, for one threshold. *)
Definition pck_update (two_d : bool) (c : pck_config) (has_box : bool) (kind : weighting) (threshold : R) (st : mean_state)
    (batch : list sample) : result mean_state :=
  do _ <- mapM check_shapes batch;
  do correct <- mapM (is_correct two_d c has_box threshold) batch;
  do weights <- mapM (fun s => masked_weights kind (pair_mask s) (s_weight s)) batch;
  Ok (mean_update st (concat correct) (concat weights)).
