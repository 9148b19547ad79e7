(** Model of turning one matching result into detection counts:
    metrics/detection_metrics.cc and metrics/metrics_utils.cc.
    Predictions and ground truths are named by their index in the matcher's subsets; what the code
    reads from the matcher for such an index is given by the functions of [dframe].
    Float values are exact rationals. *)
From Verif Require Import Base MergeModel.
Open Scope Z_scope.

Record dframe := {
  n_gt : nat;                  (* size of matcher.ground_truth_subset() *)
  in_bd : nat -> bool;         (* IsInBreakdown of a ground truth (metrics_utils.cc:394-398) *)
  nlz : nat -> bool;           (* overlap_with_nlz of a prediction *)
  diff : nat -> Z;             (* detection_difficulty_level of a ground truth *)
  iou : nat -> nat -> Q;       (* matcher.IoU(prediction, ground truth) *)
  ha : nat -> nat -> Q;        (* ComputeHeadingAccuracy(prediction, ground truth) *)
  la : nat -> nat -> Q;        (* matcher.LongitudinalAffinity(prediction, ground truth) *)
}.
Record dconfig := { gt_only : bool; level : Z; min_ha : Q; let_enabled : bool }.

(** FindGTWithLargestIoU (metrics_utils.cc:376-392): ">=" keeps the last of equal maxima; -1 is None. *)
Definition find_gt_step (fr : dframe) (p : nat) (acc : option nat * Q) (g : nat) : option nat * Q :=
  if Qle_bool (snd acc) (iou fr p g) then (Some g, iou fr p g) else acc.
Definition find_gt (fr : dframe) (p : nat) (threshold : Q) : option nat :=
  fst (fold_left (find_gt_step fr p) (seq 0 (n_gt fr)) (None, threshold)).

(** What is recorded for a frame: the Details message, by index. *)
Record outcome := { tps : list (nat * nat); fps : list nat; fns : list nat; sum_ha : Q; sum_la : Q }.

(** Loop over predictions (detection_metrics.cc:61-115). *)
Definition pd_step (c : dconfig) (fr : dframe) (acc : outcome) (im : nat * Z) : outcome :=
  let '(i, m) := im in
  let ok g := negb (gt_only c) || in_bd fr g in
  (* IsTP (metrics_utils.cc:65-69) *)
  if (0 <=? m) && ok (Z.to_nat m) then
    let g := Z.to_nat m in
    let h := ha fr i g in
    if Qle_bool h (min_ha c) then acc else
    {| tps := tps acc ++ [(i, g)]; fps := fps acc; fns := fns acc; sum_ha := (sum_ha acc + h)%Q;
       sum_la := (sum_la acc + (if let_enabled c then la fr i g else 1))%Q |}
  (* IsFP (metrics_utils.cc:71-77) *)
  else if (m <? 0) && negb (nlz fr i) then
    let is_fp :=
      if gt_only c then
        match find_gt fr i (1 # 100) with Some g => in_bd fr g | None => true end
      else true in
    if is_fp then {| tps := tps acc; fps := fps acc ++ [i]; fns := fns acc; sum_ha := sum_ha acc; sum_la := sum_la acc |}
    else acc
  else acc.
(** Loop over ground truths (detection_metrics.cc:116-130), IsDetectionFN (metrics_utils.cc:79-89). *)
Definition gt_step (c : dconfig) (fr : dframe) (acc : outcome) (im : nat * Z) : outcome :=
  let '(g, m) := im in
  if ((m <? 0) && (diff fr g <=? level c)) && (negb (gt_only c) || in_bd fr g)
  then {| tps := tps acc; fps := fps acc; fns := fns acc ++ [g]; sum_ha := sum_ha acc; sum_la := sum_la acc |}
  else acc.
Definition enum {A} (l : list A) : list (nat * A) := combine (seq 0 (length l)) l.
(** ComputeDetectionMeasurementFromMatchingResult (detection_metrics.cc:39-144): the tp id lists
    grow together, so the final size check (137-142) cannot fail and is not modelled. *)
Definition classify (c : dconfig) (fr : dframe) (pd_matches gt_matches : list Z) : outcome :=
  let o := fold_left (pd_step c fr) (enum pd_matches) {| tps := []; fps := []; fns := []; sum_ha := 0; sum_la := 0 |} in
  fold_left (gt_step c fr) (enum gt_matches) o.
(** The counters of the measurement; score_cutoff is set by the caller (detection_metrics.cc:180-181). *)
Definition measure (cutoff : Q) (o : outcome) : dmeas outcome :=
  {| d_cutoff := Some cutoff; d_tps := Z.of_nat (length (tps o)); d_fps := Z.of_nat (length (fps o));
     d_fns := Z.of_nat (length (fns o)); d_ha := sum_ha o; d_la := sum_la o; d_details := [] |}.
