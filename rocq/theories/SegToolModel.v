(** The command line tool of the 3D semantic segmentation metrics:
    metrics/tools/compute_segmentation_metrics_main.cc (in src/waymo_open_dataset).

    Conventions.
    - The model starts after the two frame lists are parsed and ends with the metrics that are printed.
    - A compressed label is [Some d], the data of its MatrixInt32, or [None] if zlib cannot uncompress the bytes, as
      for the empty string of a label that is not set. Uncompress then releases its buffer, makes a string of it and
      releases it again: undefined behaviour, given as RuntimeError. That the uncompressed bytes are a MatrixInt32,
      which the code does not check, is assumed.
    - CheckFailed is a failed CHECK. *)
From Coq Require Import String.
From Verif Require Import Base ResultLib SegModel ToolModel.
Open Scope list_scope.
Open Scope Z_scope.

(** LaserName.Name (dataset.proto:66-76). *)
Inductive laser_name := LASER_UNKNOWN | TOP | LASER_FRONT | SIDE_L | SIDE_R | LASER_REAR.
Definition is_top (n : laser_name) : bool := match n with TOP => true | _ => false end.
(** Laser (dataset.proto) with the labels of its two returns. *)
Record laser := { name : laser_name; ri_return1 : option (list Z); ri_return2 : option (list Z) }.
(** SegmentationFrame (segmentation_metrics.proto:21-31). *)
Record seg_frame := { context_name : string; frame_timestamp : Z; segmentation_labels : list laser }.

(** Segmentation.Type without TYPE_UNDEFINED, in the order of its descriptor (115-128, segmentation.proto:20-61). *)
Definition TYPE_UNDEFINED : Z := 0.
Definition descriptor : list Z := [0; 1; 2; 3; 4; 5; 6; 7; 8; 9; 10; 11; 12; 13; 14; 15; 16; 17; 18; 19; 20; 21; 22].
Definition segmentation_types : list Z := filter (fun t => negb (t =? TYPE_UNDEFINED)) descriptor.

(** Uncompress and ParseFromString (77-94, 184-186). *)
Definition uncompress (bytes : option (list Z)) : result (list Z) :=
  match bytes with Some d => Ok d | None => Err RuntimeError end.
(** CreateEmptyPrediction (107-111). Flatten (97-104) is the data itself. *)
Definition create_empty_prediction (num_points : nat) : list Z := repeat TYPE_UNDEFINED num_points.
(** CHECK(miou.Update(...).ok()). *)
Definition check_update (types : list Z) (m : matrix) (pd gt : list Z) : result matrix :=
  match update types m pd gt with
  | (m', Ok _) => Ok m'
  | (_, Err _) => Err CheckFailed
  end.

(** get_key (146-149); pd_map and gt_map: the last frame with a key stays (150-159). *)
Definition get_key (f : seg_frame) : string * Z := (context_name f, frame_timestamp f).
Definition frame_map (l : list seg_frame) : list ((string * Z) * seg_frame) :=
  fold_left (fun m f => upsert pair_ltb (get_key f) (fun _ => f) m) l [].
(** all_example_keys (145, 153, 158). *)
Definition all_example_keys (l : list seg_frame) : list (string * Z) :=
  map fst (fold_left (fun m f => upsert pair_ltb (get_key f) (fun _ => tt) m) l []).
(** has_valid_prediction and the laser it stands for (177-181). *)
Definition valid_prediction (pd : option seg_frame) : option laser :=
  match pd with
  | Some f => match segmentation_labels f with [l] => if is_top (name l) then Some l else None | _ => None end
  | None => None
  end.
(** One frame (182-217): the number of points of the first return is used for both returns. *)
Definition measure (types : list Z) (m : matrix) (gt : laser) (pd : option laser) : result matrix :=
  do gt_matrix <- uncompress (ri_return1 gt);
  let num_points := List.length gt_matrix in
  do pd_vector <- match pd with Some p => uncompress (ri_return1 p) | None => Ok (create_empty_prediction num_points) end;
  do m <- check_update types m pd_vector gt_matrix;
  do gt_matrix <- uncompress (ri_return2 gt);
  do pd_vector <- match pd with Some p => uncompress (ri_return2 p) | None => Ok (create_empty_prediction num_points) end;
  check_update types m pd_vector gt_matrix.
(** The loop (161-218). [None] is the return at "Only TOP laser is supported". *)
Fixpoint loop (types : list Z) (pd_map gt_map : list ((string * Z) * seg_frame)) (keys : list (string * Z)) (m : matrix)
  : result (option matrix) :=
  match keys with
  | [] => Ok (Some m)
  | k :: keys' =>
      match get pair_ltb k gt_map with
      | None => loop types pd_map gt_map keys' m
      | Some f =>
          match segmentation_labels f with
          | [] => loop types pd_map gt_map keys' m
          | [g] =>
              if is_top (name g) then
                do m <- measure types m g (valid_prediction (get pair_ltb k pd_map));
                loop types pd_map gt_map keys' m
              else Ok None
          | _ => Ok None
          end
      end
  end.
(** Compute (114-228): the metrics that are printed, [None] if the tool returns without. *)
Definition compute (pd_frames gt_frames : list seg_frame) : result (option seg_metrics) :=
  do m <- create segmentation_types;
  do r <- loop segmentation_types (frame_map pd_frames) (frame_map gt_frames) (all_example_keys (pd_frames ++ gt_frames)) m;
  Ok (match r with Some m => Some (compute_iou segmentation_types m) | None => None end).
