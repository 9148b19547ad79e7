(** C78, C79: keypoint similarity and the averages of keypoint metrics. *)
From Coq Require Import Reals Lra List Arith ZArith Permutation.
From Verif Require Import Base ResultLib PoseModel PoseSpec OksModel OksSpec.
From Verif Require OksProofs OksScores OksMeans OksPrecision OksWitness.
Import ListNotations.
Open Scope R_scope.

(** Every sane box has a size, and the similarity is that of the specification. *)
Theorem C78_value : forall two_d n scales kind s,
  fits n kind s -> length scales = n -> sane_box (s_box s) ->
  (exists r, is_size two_d (s_box s) r) /\
  forall r, is_size two_d (s_box s) r -> object_keypoint_similarity two_d scales kind s = Ok (similarity r kind scales s).
Proof.
  intros two_d n scales kind s F K B.
  exact (conj (OksProofs.size_exists two_d (s_box s) B) (fun r Z => OksProofs.oks_value two_d n scales kind s r F K B Z)).
Qed.
Print Assumptions C78_value.

(** It lies between zero and one. *)
Theorem C78_range : forall n scales kind s r, fits n kind s -> 0 <= similarity r kind scales s <= 1.
Proof. exact OksScores.similarity_range. Qed.
Print Assumptions C78_range.

(** A labelled object scores one exactly if some keypoint is labelled and predicted and all such are in place. *)
Theorem C78_perfect : forall scales kind s r,
  labelled s = true -> Forall (fun k => 0 < k) scales -> 0 < r -> Forall (fun w => 0 < w) (weight_row kind s) ->
  similarity r kind scales s = 1 <->
  (exists j, In j (joints kind scales s) /\ both j = true) /\
  forall j, In j (joints kind scales s) -> both j = true -> place (label j) = place (prediction j).
Proof. exact OksScores.similarity_perfect. Qed.
Print Assumptions C78_perfect.

(** Predictions closer to their labels never lower the score. *)
Theorem C78_closer : forall n scales kind s pr r,
  fits n kind s -> length pr = n -> labelled s = true ->
  (forall g p p', In (g, (p, p')) (combine (s_gt s) (combine (s_pr s) pr)) ->
     there p' = there p /\ (andb (there g) (there p) = true -> dist3 (place g) (place p') <= dist3 (place g) (place p))) ->
  similarity r kind scales s <= similarity r kind scales (predict s pr).
Proof. exact OksScores.similarity_closer. Qed.
Print Assumptions C78_closer.

(** For a labelled object the place of a missing prediction, or of one without a label, is of no matter. *)
Theorem C78_missing_place : forall n scales kind s pr r,
  fits n kind s -> length pr = n -> labelled s = true ->
  (forall g p p', In (g, (p, p')) (combine (s_gt s) (combine (s_pr s) pr)) ->
     there p' = there p /\ (andb (there g) (there p) = true -> place p' = place p)) ->
  similarity r kind scales s = similarity r kind scales (predict s pr).
Proof. exact OksScores.similarity_missing. Qed.
Print Assumptions C78_missing_place.

(** Without labels the score is one exactly if all predictions are in the box three times as large, not turned. *)
Theorem C78_surrogate : forall n scales kind s r,
  fits n kind s -> length scales = n -> (0 < n)%nat -> labelled s = false -> sane_box (s_box s) ->
  Forall (fun k => 0 < k) scales -> 0 < r ->
  similarity r kind scales s = 1 <-> Forall (fun p => in_enlarged (s_box s) (place p)) (s_pr s).
Proof. exact OksScores.similarity_surrogate. Qed.
Print Assumptions C78_surrogate.

(** The score does not depend on the unit of length. *)
Theorem C78_units : forall c two_d n scales kind s v,
  0 < c -> fits n kind s -> length scales = n -> sane_box (s_box s) ->
  object_keypoint_similarity two_d scales kind s = Ok v -> object_keypoint_similarity two_d scales kind (zoom c s) = Ok v.
Proof. exact OksWitness.units. Qed.
Print Assumptions C78_units.

(** The full score with a labelled keypoint not predicted. *)
Theorem C78_missing_counts_refuted : exists s,
  Forall (fun g => there g = true) (s_gt s) /\ (exists p, In p (s_pr s) /\ there p = false) /\
  object_keypoint_similarity false [1; 1] Unweighted s = Ok 1.
Proof. exact OksWitness.missing_counts. Qed.
Print Assumptions C78_missing_counts_refuted.

(** A box without height counts, and its object gets the full score with a prediction a thousand units off. *)
Theorem C78_flat_box_refuted : exists s,
  counts false (s_box s) = 1 /\ (forall j, In j (joints Unweighted [1] s) -> both j = true /\ gap j = 1000) /\
  object_keypoint_similarity false [1] Unweighted s = Ok 1.
Proof. exact OksWitness.flat_box. Qed.
Print Assumptions C78_flat_box_refuted.

(** An unlabelled object loses score though its prediction is in the enlarged box, whichever way headings count. *)
Theorem C78_turned_box_refuted : exists s v,
  labelled s = false /\
  (forall p, In p (s_pr s) -> in_box (enlarged_turned (s_box s)) (place p) /\ in_box_clockwise (enlarged_turned (s_box s)) (place p)) /\
  object_keypoint_similarity false [1] Unweighted s = Ok v /\ v <> 1.
Proof. exact OksWitness.turned_box. Qed.
Print Assumptions C78_turned_box_refuted.

(** Without labels the place of a missing prediction changes the score. *)
Theorem C78_unlabelled_missing_refuted : exists s pr v w,
  labelled s = false /\ Forall (fun p => there p = false) (s_pr s) /\ Forall (fun p => there p = false) pr /\
  object_keypoint_similarity false [1] Unweighted s = Ok v /\
  object_keypoint_similarity false [1] Unweighted (predict s pr) = Ok w /\ v <> w.
Proof. exact OksWitness.unlabelled_missing. Qed.
Print Assumptions C78_unlabelled_missing_refuted.

(** The mean position error over any batches is the weighted mean distance of all keypoints labelled and predicted. *)
Theorem C79_position_error : forall n kind batches,
  Forall (Forall (fits n kind)) batches ->
  exists st, foldM (mpjpe_update kind) batches mean_zero = Ok st /\ mean_result st = mean_gap kind (concat batches).
Proof. exact OksMeans.mpjpe_value. Qed.
Print Assumptions C79_position_error.

(** The percentage of correct keypoints, likewise. *)
Theorem C79_correct_keypoints : forall two_d n c has_box size kind t batches,
  sane_config n c -> (use_object_scale c = true -> has_box = true) -> Forall (Forall (proper two_d n kind size)) batches ->
  exists st, foldM (pck_update two_d c has_box kind t) batches mean_zero = Ok st /\
    mean_result st = correct_share kind c size t (concat batches).
Proof. exact OksWitness.correct_keypoints. Qed.
Print Assumptions C79_correct_keypoints.

(** It lies between zero and one and grows with the threshold. *)
Theorem C79_correct_range : forall n kind c size t t' l,
  sane_config n c -> Forall (fits n kind) l -> Forall (fun s => 0 <= size (s_box s)) l -> t <= t' ->
  0 <= correct_share kind c size t l <= correct_share kind c size t' l /\ correct_share kind c size t' l <= 1.
Proof. exact OksWitness.correct_range. Qed.
Print Assumptions C79_correct_range.

(** Neither depends on the order of the samples. *)
Theorem C79_order : forall kind c size t l m,
  Permutation l m -> mean_gap kind l = mean_gap kind m /\ correct_share kind c size t l = correct_share kind c size t m.
Proof. exact OksWitness.order. Qed.
Print Assumptions C79_order.

(** Object scale without a box is refused. *)
Theorem C79_no_box : forall two_d c kind t st s batch,
  use_object_scale c = true -> exists e, pck_update two_d c false kind t st (s :: batch) = Err e.
Proof. exact OksWitness.no_box. Qed.
Print Assumptions C79_no_box.

(** Precision without weights: the share of the boxes that count with a similarity above the threshold, over all batches;
    the average is the mean over batches of the mean over thresholds. *)
Theorem C79_precision : forall two_d n scales thresholds size batches,
  length scales = n -> Forall (Forall (proper two_d n Unweighted size)) batches ->
  let sim := fun s => similarity (size (s_box s)) Unweighted scales s in
  exists st, foldM (ap_update two_d scales thresholds Unweighted) batches (ap_zero thresholds) = Ok st /\
    ap_result thresholds st =
    (all_precisions two_d sim thresholds (concat batches),
     mean_of (sum_of (fun b => sum_of (fun t => precision two_d sim t b) thresholds) batches)
             (INR (length batches) * INR (length thresholds))).
Proof. exact OksPrecision.precision_value. Qed.
Print Assumptions C79_precision.

Theorem C79_precision_range : forall two_d sim t t' l,
  t <= t' -> 0 <= precision two_d sim t' l <= precision two_d sim t l /\ precision two_d sim t l <= 1.
Proof. exact OksWitness.precision_bounds. Qed.
Print Assumptions C79_precision_range.

(** The average is the mean of the precisions if the batches have equally many boxes that count, one batch included. *)
Theorem C79_average : forall two_d sim ts batches c,
  c <> 0 -> batches <> [] -> Forall (fun b => sum_of (fun s => counts two_d (s_box s)) b = c) batches ->
  mean_of (sum_of (fun b => sum_of (fun t => precision two_d sim t b) ts) batches) (INR (length batches) * INR (length ts)) =
  mean_over ts (fun t => precision two_d sim t (concat batches)).
Proof. exact OksPrecision.average_equal. Qed.
Print Assumptions C79_average.
Theorem C79_average_one_batch : forall two_d sim ts b,
  mean_of (sum_of (fun b => sum_of (fun t => precision two_d sim t b) ts) [b]) (INR (length [b]) * INR (length ts)) =
  mean_over ts (fun t => precision two_d sim t b).
Proof. exact OksWitness.one_batch. Qed.
Print Assumptions C79_average_one_batch.

(** In general it is not, and depends on the batches: precision one third at the only threshold, average one half. *)
Theorem C79_average_refuted : exists batches st st',
  Forall (Forall (proper false 1 Unweighted (fun _ => 1))) batches /\
  foldM (ap_update false [1] [/ 2] Unweighted) batches (ap_zero [/ 2]) = Ok st /\ ap_result [/ 2] st = ([(/ 2, / 3)], / 2) /\
  foldM (ap_update false [1] [/ 2] Unweighted) [concat batches] (ap_zero [/ 2]) = Ok st' /\ ap_result [/ 2] st' = ([(/ 2, / 3)], / 3).
Proof. exact OksWitness.average_split. Qed.
Print Assumptions C79_average_refuted.

(** Precision with weights, one batch: every object counts with the sum of the weights of its keypoints. *)
Theorem C79_weighted : forall two_d n scales thresholds size b,
  length scales = n -> Forall (proper two_d n PerPoint size) b ->
  exists st, foldM (ap_update two_d scales thresholds PerPoint) [b] (ap_zero thresholds) = Ok st /\
    fst (ap_result thresholds st) =
    map (fun t => (t, share (fun s => sum_of (fun w => w) (s_weight s) * counts two_d (s_box s))
                           (fun s => similarity (size (s_box s)) PerPoint scales s) t b)) thresholds.
Proof. exact OksPrecision.weighted_value. Qed.
Print Assumptions C79_weighted.

(** Over several batches even the precisions depend on the batches then. *)
Theorem C79_weighted_batches_refuted : exists a b,
  Forall (proper false 1 PerPoint (fun _ => 1)) [a; b] /\
  (exists st, foldM (ap_update false [1] [/ 2] PerPoint) [[a; b]] (ap_zero [/ 2]) = Ok st /\ fst (ap_result [/ 2] st) = [(/ 2, / 4)]) /\
  (exists st, foldM (ap_update false [1] [/ 2] PerPoint) [[a]; [b]] (ap_zero [/ 2]) = Ok st /\ fst (ap_result [/ 2] st) = [(/ 2, / 2)]).
Proof. exact OksWitness.weighted_batches. Qed.
Print Assumptions C79_weighted_batches_refuted.

(** The documented weights, one for each object, are always refused by the precision and accepted by the two other metrics. *)
Theorem C79_object_weights_refuted : forall two_d n scales thresholds size c has_box t st batch,
  (exists e, ap_update two_d scales thresholds PerObject st batch = Err e) /\
  (forall m, Forall (proper two_d n PerObject size) batch -> sane_config n c -> (use_object_scale c = true -> has_box = true) ->
     (exists m', mpjpe_update PerObject m batch = Ok m') /\ (exists m', pck_update two_d c has_box PerObject t m batch = Ok m')).
Proof. exact OksWitness.object_weights_refused. Qed.
Print Assumptions C79_object_weights_refuted.

(** The hypotheses are met by a labelled object with two keypoints, one of them off by a unit. *)
Example C78_case : let s := {| s_gt := [OksWitness.at_x 0 2; OksWitness.at_x 1 1]; s_pr := [OksWitness.at_x 0 2; OksWitness.at_x 2 2];
                               s_box := OksWitness.unit_box; s_weight := [1; 3] |} in
  fits 2 PerPoint s /\ sane_box (s_box s) /\ is_size false (s_box s) 1 /\ labelled s = true /\
  similarity 1 PerPoint [1; 1] s = (1 + 3 * exp (- (1) / 2)) / 4.
Proof. exact OksWitness.two_points. Qed.
Example C79_case : Forall (Forall (proper false 1 Unweighted (fun _ => 1))) [[OksWitness.found]; [OksWitness.lost; OksWitness.lost]] /\
  sane_config 1 {| per_type := Some [2]; use_object_scale := true |} /\
  correct_share Unweighted {| per_type := Some [2]; use_object_scale := true |} (fun _ => 1) (/ 4) [OksWitness.found; OksWitness.lost] = 1.
Proof. exact OksWitness.pck_case. Qed.
