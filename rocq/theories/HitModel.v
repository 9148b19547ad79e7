(** The boxes of predicted trajectories and whether they overlap those of other tracks:
    /repo/src/waymo_open_dataset/metrics/motion_metrics_utils.cc 227-285 and motion_metrics.cc 582-600, over PolyModel.v.

    Numbers are real numbers. The loops around the test and the lookup of tracks and sizes are in MotionModel.v, where the test
    is a parameter. *)
From Coq Require Import Reals.
From Verif Require Import Base ResultLib GeomModel PolyModel.
From Verif Require FrameModel.
Open Scope list_scope.
Open Scope R_scope.

(** math/vec2d.h:210-211: Angle. *)
Definition angle (v : point) : R := FrameModel.atan2 (snd v) (fst v).
(** motion_metrics_utils.cc:241-244: AverageAngle. *)
Definition average_angle (angle_1_rad angle_2_rad : R) : R :=
  FrameModel.atan2 (sin angle_1_rad + sin angle_2_rad) (cos angle_1_rad + cos angle_2_rad).
(** 253-272: the heading at a step of the predicted positions. *)
Definition prediction_heading (positions : list point) (trajectory_step : nat) : R :=
  if Nat.eqb trajectory_step 0 then angle (psub (at_ positions 1) (at_ positions 0))
  else if Nat.eqb trajectory_step (List.length positions - 1) then
    angle (psub (at_ positions trajectory_step) (at_ positions (trajectory_step - 1)))
  else
    let previous := at_ positions (trajectory_step - 1) in
    let current := at_ positions trajectory_step in
    let next := at_ positions (trajectory_step + 1) in
    average_angle (angle (psub next current)) (angle (psub current previous)).
(** 246-279: PredictionToPolygon, given the length and width of the state; [None] is the polygon without points. *)
Definition prediction_polygon (positions : list point) (trajectory_step : nat) (len wid : R) : option polygon :=
  if Nat.ltb (List.length positions) 2 then None else
  let center := at_ positions trajectory_step in
  Some (box_polygon {| bx := fst center; by_ := snd center; blength := len; bwidth := wid;
                       bheading := prediction_heading positions trajectory_step |}).
(** motion_metrics.cc:594-599 with motion_metrics_utils.cc:281-285 (StateToPolygon). The bounding box of the polygon without
    points is the origin (math/vec2d.h:36); if it passes the test of the bounding boxes, ComputeIntersectionVertices
    (math/polygon2d.cc:400-401) reads points that do not exist, written RuntimeError. *)
Definition overlaps (prediction_box : option polygon) (state : obox) : result bool :=
  let track_box := box_polygon state in
  match prediction_box with
  | Some p => Ok (maybe_has_intersection p track_box && rltb 0 (intersection_area p track_box))
  | None =>
    let b := bounding_box track_box in
    if rltb (fst (snd b)) 0 || rltb 0 (fst (fst b)) || rltb (snd (snd b)) 0 || rltb 0 (snd (fst b)) then Ok false else Err RuntimeError
  end.
