(** Metrics of the occupancy flow task, /repo/src/waymo_open_dataset/utils/occupancy_flow_metrics.py.

    Conventions.
    - Numbers are real numbers; rounding is not modelled.
    - A tensor is the list of the values of its cells over batch, rows and columns; tensors compared with each
      other have the same shape, as their documentation asks.
    - The grids of vehicles are the only ones read. *)
From Coq Require Import Reals.
From Verif Require Import Base ResultLib GeomModel WayModel.
Open Scope list_scope.
Open Scope R_scope.

Definition grid := list R.
Definition flow_grid := list (R * R).
(** occupancy_flow_grids.py:90-106: the grids of the vehicles, by waypoint. *)
Record vehicle_waypoints := { observed : list grid; occluded : list grid; flows : list flow_grid; flow_origin : list grid }.

(** tf.reduce_mean. *)
Definition reduce_mean (l : grid) : R := reduce_sum l / INR (length l).
(** 158-164: _mean; the list holds scalars. *)
Definition mean (l : list R) : R :=
  let num_tensors := length l in
  if Nat.eqb num_tensors 0 then 0 else reduce_sum l / INR num_tensors.
(** 192-215: _compute_occupancy_soft_iou. *)
Definition compute_occupancy_soft_iou (true_occupancy pred_occupancy : grid) : R :=
  let intersection := reduce_mean (map (fun pt => fst pt * snd pt) (combine pred_occupancy true_occupancy)) in
  let true_sum := reduce_mean true_occupancy in
  let pred_sum := reduce_mean pred_occupancy in
  divide_no_nan intersection (pred_sum + true_sum - intersection).
(** 218-268: _compute_flow_epe; the checks of shapes pass by the convention. *)
Definition flow_exists (v : R * R) : R := if Req_EM_T (fst v) 0 then if Req_EM_T (snd v) 0 then 0 else 1 else 1.
Definition compute_flow_epe (true_flow pred_flow : flow_grid) : R :=
  let epe := map (fun tp =>
    let dx := (fst (fst tp) - fst (snd tp)) * flow_exists (fst tp) in
    let dy := (snd (fst tp) - snd (snd tp)) * flow_exists (fst tp) in
    sqrt (dx * dx + dy * dy)) (combine true_flow pred_flow) in
  divide_no_nan (reduce_sum epe) (reduce_sum (map flow_exists true_flow)).

(** 271-334: _flow_warp.  The loop reads the grids of its first waypoint and raises NotImplementedError,
    written RuntimeError; what comes after the raise is never reached. *)
Definition at_k {A} (l : list A) (k : nat) : result A := index IndexError l (Z.of_nat k).
Definition flow_warp (num_waypoints : nat) (truth prediction : vehicle_waypoints) : result (list grid) :=
  foldM (fun warped k =>
    do origin <- at_k (flow_origin truth) k;
    do pred_flow <- at_k (flows prediction) k;
    Err RuntimeError) (seq 0 num_waypoints) [].

(** 40-48, 61-68: what is accumulated; the counts are the lengths of the lists of overlaps, as each waypoint
    counted adds one value.  [had_observed] and [had_occluded] are the last entries of the dictionaries, for k - 1. *)
Record accumulated := {
  observed_auc : list R; occluded_auc : list R; observed_iou : list R; occluded_iou : list R;
  flow_epe : list R; warped_auc : list R; warped_iou : list R;
  num_observed : nat; num_occluded : nat; num_flow : nat;
  had_observed : bool; had_occluded : bool }.
Definition nothing : accumulated :=
  {| observed_auc := []; occluded_auc := []; observed_iou := []; occluded_iou := []; flow_epe := []; warped_auc := [];
     warped_iou := []; num_observed := 0; num_occluded := 0; num_flow := 0; had_observed := true; had_occluded := true |}.
(** 79-80: tf.reduce_max(grid) > 0. *)
Definition has_occupancy (g : grid) : bool := match reduce_max g with Some m => rltb 0 m | None => false end.
(** 111-127: tf.clip_by_value of a sum. *)
Definition clipped_sum (a b : grid) : grid := map (fun xy => clip01 (fst xy + snd xy)) (combine a b).
Definition product (a b : grid) : grid := map (fun xy => fst xy * snd xy) (combine a b).

Section Metrics.
(** 167-189: tf.keras.metrics.AUC is left open. *)
Variable auc : grid -> grid -> R.
(** 70-142: a waypoint.  The warped grids are read only if there is flow. *)
Definition waypoint (truth prediction : vehicle_waypoints) (warped : list grid) (m : accumulated) (k : nat) : result accumulated :=
  do true_observed <- at_k (observed truth) k;
  do pred_observed <- at_k (observed prediction) k;
  do true_occluded <- at_k (occluded truth) k;
  do pred_occluded <- at_k (occluded prediction) k;
  do true_flow <- at_k (flows truth) k;
  do pred_flow <- at_k (flows prediction) k;
  let has_observed := has_occupancy true_observed in
  let has_occluded := has_occupancy true_occluded in
  let has_flow := (has_observed && had_observed m) || (has_occluded && had_occluded m) in
  let m := {| observed_auc := observed_auc m ++ (if has_observed then [auc true_observed pred_observed] else []);
              occluded_auc := occluded_auc m ++ (if has_occluded then [auc true_occluded pred_occluded] else []);
              observed_iou := observed_iou m ++ (if has_observed then [compute_occupancy_soft_iou true_observed pred_observed] else []);
              occluded_iou := occluded_iou m ++ (if has_occluded then [compute_occupancy_soft_iou true_occluded pred_occluded] else []);
              flow_epe := flow_epe m; warped_auc := warped_auc m; warped_iou := warped_iou m;
              num_observed := num_observed m + (if has_observed then 1 else 0);
              num_occluded := num_occluded m + (if has_occluded then 1 else 0);
              num_flow := num_flow m;
              had_observed := has_observed; had_occluded := has_occluded |} in
  if has_flow then
    let true_all := clipped_sum true_observed true_occluded in
    let pred_all := clipped_sum pred_observed pred_occluded in
    do warped_origin <- at_k warped k;
    let grounded := product pred_all warped_origin in
    Ok {| observed_auc := observed_auc m; occluded_auc := occluded_auc m; observed_iou := observed_iou m; occluded_iou := occluded_iou m;
          flow_epe := flow_epe m ++ [compute_flow_epe true_flow pred_flow];
          warped_auc := warped_auc m ++ [auc true_all grounded];
          warped_iou := warped_iou m ++ [compute_occupancy_soft_iou true_all grounded];
          num_observed := num_observed m; num_occluded := num_occluded m; num_flow := num_flow m + 1;
          had_observed := had_observed m; had_occluded := had_occluded m |}
  else Ok m.

(** 143-155: the message returned. *)
Record metrics := {
  vehicles_observed_auc : R; vehicles_occluded_auc : R; vehicles_observed_iou : R; vehicles_occluded_iou : R;
  vehicles_flow_epe : R; vehicles_flow_warped_occupancy_auc : R; vehicles_flow_warped_occupancy_iou : R;
  num_waypoints_with_observed_occupancy : nat; num_waypoints_with_occluded_occupancy : nat; num_waypoints_with_flow : nat }.
Definition summary (m : accumulated) : metrics :=
  {| vehicles_observed_auc := mean (observed_auc m); vehicles_occluded_auc := mean (occluded_auc m);
     vehicles_observed_iou := mean (observed_iou m); vehicles_occluded_iou := mean (occluded_iou m);
     vehicles_flow_epe := mean (flow_epe m); vehicles_flow_warped_occupancy_auc := mean (warped_auc m);
     vehicles_flow_warped_occupancy_iou := mean (warped_iou m);
     num_waypoints_with_observed_occupancy := num_observed m; num_waypoints_with_occluded_occupancy := num_occluded m;
     num_waypoints_with_flow := num_flow m |}.
(** 56-155: the rest of compute_occupancy_flow_metrics, given the warped grids. *)
Definition metrics_given (num_waypoints : nat) (truth prediction : vehicle_waypoints) (warped : list grid) : result metrics :=
  do m <- foldM (waypoint truth prediction warped) (seq 0 num_waypoints) nothing;
  Ok (summary m).
(** 26-155: compute_occupancy_flow_metrics. *)
Definition compute_occupancy_flow_metrics (num_waypoints : nat) (truth prediction : vehicle_waypoints) : result metrics :=
  do warped <- flow_warp num_waypoints truth prediction;
  metrics_given num_waypoints truth prediction warped.
End Metrics.
