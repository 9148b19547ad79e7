(** Model of v2/component.py (below /repo/src/waymo_open_dataset/): flattening a dataclass tree into named
    columns and back. A dataclass type is a tree of named fields; the values stored in leaves have any
    type with a None. *)
From Coq Require Import String.
From Verif Require Import Base ResultLib.
Open Scope string_scope.

(** A field type: a leaf column, or a dataclass with its fields (name, is_repeated, type) in declaration
    order; [key] tells whether the class derives from Key (component.py:150-159). *)
Inductive ty := Leaf | Node (key : bool) (fs : list (string * bool * ty)).
(** A component class (33-60): its name and fields. *)
Record component := { cname : string; cfields : list (string * bool * ty) }.
(** A value: a leaf, None in place of a dataclass, or a dataclass instance. *)
Inductive val (V : Type) := VLeaf (x : V) | VNone | VNode (vs : list (val V)).
Arguments VLeaf {V}. Arguments VNone {V}. Arguments VNode {V}.

(** Python dictionaries in insertion order: assignment keeps the position of an existing key. *)
Definition dict (V : Type) := list (string * V).
Fixpoint dset {V} (k : string) (x : V) (d : dict V) : dict V :=
  match d with [] => [(k, x)] | (k', x') :: d' => if String.eqb k k' then (k', x) :: d' else (k', x') :: dset k x d' end.
Fixpoint dget {V} (k : string) (d : dict V) : option V :=
  match d with [] => None | (k', x) :: d' => if String.eqb k k' then Some x else dget k d' end.
(** str.removeprefix, and str.join with a dot. *)
Fixpoint strip (p k : string) : option string :=
  match p, k with
  | EmptyString, _ => Some k
  | String a p', String b k' => if Ascii.eqb a b then strip p' k' else None
  | String _ _, EmptyString => None
  end.
Definition removeprefix (p k : string) : string := match strip p k with Some r => r | None => k end.
Fixpoint join (l : list string) : string := match l with [] => "" | [x] => x | x :: l' => x ++ "." ++ join l' end.
(** _remove_prefix (316-318): a dictionary comprehension. *)
Definition remove_prefix {V} (p : string) (d : dict V) : dict V := fold_left (fun acc kv => dset (removeprefix p (fst kv)) (snd kv) acc) d [].

(** _column_name (228-251), for a field of a plain dataclass and of a component. *)
Definition plain_name (n : string) (repeated : bool) : string := if repeated then n ++ "[*]" else n.
Definition comp_name (c n : string) (repeated is_key : bool) : string :=
  if is_key then plain_name n repeated else "[" ++ c ++ "]." ++ plain_name n repeated.
Definition is_key (t : ty) : bool := match t with Leaf => false | Node k _ => k end.
(** For an instance the test isinstance(value, Key) looks at the value: None is not a Key. *)
Definition is_key_value {V} (t : ty) (v : val V) : bool := match v with VNone => false | _ => is_key t end.

(** flatten_dict (264-289). In place of a dataclass, None makes all leaves below None. *)
Fixpoint flat {V} (none : V) (t : ty) (v : val V) (path : list string) (cols : dict V) {struct t} : dict V :=
  match t with
  | Leaf => dset (join path) (match v with VLeaf x => x | _ => none end) cols
  | Node _ fs =>
      (fix go (fs : list (string * bool * ty)) (vs : list (val V)) (cols : dict V) {struct fs} : dict V :=
         match fs, vs with
         | (n, r, t') :: fs', v' :: vs' => go fs' vs' (flat none t' v' (path ++ [plain_name n r]) cols)
         | _, _ => cols
         end) fs (match v with VNode vs => vs | _ => map (fun _ => VNone) fs end) cols
  end.
(** to_flatten_dict (79-118). *)
Fixpoint flat_fields {V} (none : V) (c : string) (fs : list (string * bool * ty)) (vs : list (val V)) (cols : dict V) : dict V :=
  match fs, vs with
  | (n, r, t) :: fs', v :: vs' => flat_fields none c fs' vs' (flat none t v [comp_name c n r (is_key_value t v)] cols)
  | _, _ => cols
  end.
Definition to_flatten_dict {V} (none : V) (c : component) (vs : list (val V)) : dict V := flat_fields none (cname c) (cfields c) vs [].
(** flatten_arrow_types (292-313): the column names of the schema. Column types are not modelled. *)
Fixpoint schema_cols (t : ty) (path : list string) : list string :=
  match t with
  | Leaf => [join path]
  | Node _ fs => concat (map (fun f => schema_cols (snd f) (path ++ [plain_name (fst (fst f)) (snd (fst f))])) fs)
  end.
Definition schema (c : component) : list string :=
  concat (map (fun f => schema_cols (snd f) [comp_name (cname c) (fst (fst f)) (snd (fst f)) (is_key (snd f))]) (cfields c)).

(** unflatten_dict (321-351). *)
Fixpoint unflat {V} (t : ty) (cols : dict V) {struct t} : result (val V) :=
  match t with
  | Leaf => Err AssertionError
  | Node _ fs =>
      do vs <- (fix go (fs : list (string * bool * ty)) : result (list (val V)) :=
         match fs with
         | [] => Ok []
         | (n, r, t') :: fs' =>
             do v <- match dget (plain_name n r) cols with
                     | Some x => Ok (VLeaf x)
                     | None => unflat t' (remove_prefix (plain_name n r ++ ".") cols)
                     end;
             do vs <- go fs'; Ok (v :: vs)
         end) fs;
      Ok (VNode vs)
  end.
Fixpoint unflat_fields {V} (c : string) (fs : list (string * bool * ty)) (cols : dict V) : result (list (val V)) :=
  match fs with
  | [] => Ok []
  | (n, r, t) :: fs' =>
      do v <- match dget (comp_name c n r (is_key t)) cols with
              | Some x => Ok (VLeaf x)
              | None => unflat t (remove_prefix (comp_name c n r (is_key t) ++ ".") cols)
              end;
      do vs <- unflat_fields c fs' cols; Ok (v :: vs)
  end.
Definition from_dict {V} (c : component) (cols : dict V) : result (list (val V)) := unflat_fields (cname c) (cfields c) cols.

(** ** The component classes of the perception dataset *)
Definition leaf (n : string) : string * bool * ty := (n, false, Leaf).
Definition node (n : string) (fs : list (string * bool * ty)) : string * bool * ty := (n, false, Node false fs).
(** v2/column_types.py:32-157. The single and double, scalar and list variants have the same names. *)
Definition Vec2 := [leaf "x"; leaf "y"].
Definition Vec3 := [leaf "x"; leaf "y"; leaf "z"].
Definition Transform := [leaf "transform"].
Definition Box3d := [node "center" Vec3; node "size" Vec3; leaf "heading"].
Definition BoxAxisAligned2d := [node "center" Vec2; node "size" Vec2].
(** Keys: v2/perception/base.py:28-146, box.py:108-110 and 163-166 (fields in dataclass inheritance order). *)
Definition key (fs : list string) : string * bool * ty := ("key", false, Node true (map leaf fs)).
Definition SegmentKey := ["segment_context_name"].
Definition FrameKey := ["segment_context_name"; "frame_timestamp_micros"].
Definition SegmentLaserKey := ["segment_context_name"; "laser_name"].
Definition LaserKey := ["segment_context_name"; "frame_timestamp_micros"; "laser_name"].
Definition SegmentCameraKey := ["segment_context_name"; "camera_name"].
Definition CameraKey := ["segment_context_name"; "frame_timestamp_micros"; "camera_name"].
Definition LaserLabelKey := ["segment_context_name"; "frame_timestamp_micros"; "laser_object_id"].
Definition CameraLabelKey := ["segment_context_name"; "frame_timestamp_micros"; "camera_name"; "camera_object_id"].
Definition ObjectAssetKey := ["segment_context_name"; "frame_timestamp_micros"; "laser_object_id"; "camera_name"].
Definition ProjectedLaserLabelKey := ["segment_context_name"; "frame_timestamp_micros"; "camera_name"; "laser_object_id"].
Definition CameraToLiDARBoxAssociationKey := ["segment_context_name"; "frame_timestamp_micros"; "camera_name"; "camera_object_id"; "laser_object_id"].
(** v2/perception/box.py, camera_image.py, context.py, keypoints.py, lidar.py, object_asset.py, pose.py,
    segmentation.py: dataclasses and components. *)
Definition DifficultyLevel := [leaf "detection"; leaf "tracking"].
Definition ValuesShape := [leaf "values"; leaf "shape"].
Definition Velocity := [node "linear_velocity" Vec3; node "angular_velocity" Vec3].
Definition RollingShutterParams := [leaf "shutter"; leaf "camera_trigger_time"; leaf "camera_readout_done_time"].
Definition Intrinsic := map leaf ["f_u"; "f_v"; "c_u"; "c_v"; "k1"; "k2"; "p1"; "p2"; "k3"].
Definition BeamInclination := [leaf "min"; leaf "max"; leaf "values"].
Definition ObjectCounts := [leaf "types"; leaf "counts"].
Definition Visibility := [leaf "is_occluded"].
Definition Keypoint2d := [node "location_px" Vec2; node "visibility" Visibility].
Definition Keypoint3d := [node "location_m" Vec3; node "visibility" Visibility].
Definition CameraHumanKeypoints := [leaf "type"; node "keypoint_2d" Keypoint2d; node "keypoint_3d" Keypoint3d].
Definition LiDARHumanKeypoints := [leaf "type"; node "keypoint_3d" Keypoint3d].
Definition IdMapping := [leaf "local_instance_ids"; leaf "global_instance_ids"; leaf "is_tracked"].
Definition components : list component := [
  {| cname := "LiDARBoxComponent"; cfields := [key LaserLabelKey; node "box" Box3d; leaf "type"; leaf "num_lidar_points_in_box"; leaf "num_top_lidar_points_in_box";
       node "speed" Vec3; node "acceleration" Vec3; node "difficulty_level" DifficultyLevel] |};
  {| cname := "LiDARCameraSyncedBoxComponent"; cfields := [key LaserLabelKey; leaf "most_visible_camera_name"; node "camera_synced_box" Box3d] |};
  {| cname := "ProjectedLiDARBoxComponent"; cfields := [key ProjectedLaserLabelKey; node "box" BoxAxisAligned2d; leaf "type"] |};
  {| cname := "CameraBoxComponent"; cfields := [key CameraLabelKey; node "box" BoxAxisAligned2d; leaf "type"; node "difficulty_level" DifficultyLevel] |};
  {| cname := "CameraToLiDARBoxAssociationComponent"; cfields := [key CameraToLiDARBoxAssociationKey] |};
  {| cname := "CameraImageComponent"; cfields := [key CameraKey; leaf "image"; node "pose" Transform; node "velocity" Velocity; leaf "pose_timestamp"; node "rolling_shutter_params" RollingShutterParams] |};
  {| cname := "CameraCalibrationComponent"; cfields := [key SegmentCameraKey; node "intrinsic" Intrinsic; node "extrinsic" Transform; leaf "width"; leaf "height"; leaf "rolling_shutter_direction"] |};
  {| cname := "LiDARCalibrationComponent"; cfields := [key SegmentLaserKey; node "extrinsic" Transform; node "beam_inclination" BeamInclination] |};
  {| cname := "StatsComponent"; cfields := [key FrameKey; leaf "time_of_day"; leaf "location"; leaf "weather"; node "lidar_object_counts" ObjectCounts; node "camera_object_counts" ObjectCounts] |};
  {| cname := "CameraHumanKeypointsComponent"; cfields := [key CameraLabelKey; ("camera_keypoints", true, Node false CameraHumanKeypoints)] |};
  {| cname := "LiDARHumanKeypointsComponent"; cfields := [key LaserLabelKey; ("lidar_keypoints", true, Node false LiDARHumanKeypoints)] |};
  {| cname := "LiDARComponent"; cfields := [key LaserKey; node "range_image_return1" ValuesShape; node "range_image_return2" ValuesShape] |};
  {| cname := "LiDARCameraProjectionComponent"; cfields := [key LaserKey; node "range_image_return1" ValuesShape; node "range_image_return2" ValuesShape] |};
  {| cname := "LiDARPoseComponent"; cfields := [key LaserKey; node "range_image_return1" ValuesShape] |};
  {| cname := "LiDARFlowComponent"; cfields := [key LaserKey; node "range_image_return1" ValuesShape; node "range_image_return2" ValuesShape] |};
  {| cname := "ObjectAssetLiDARSensorComponent"; cfields := [key LaserLabelKey; node "points_xyz" ValuesShape] |};
  {| cname := "ObjectAssetCameraSensorComponent"; cfields := [key ObjectAssetKey; node "camera_region" BoxAxisAligned2d; leaf "rgb_image"; node "proj_points_dist" ValuesShape; leaf "proj_points_mask"] |};
  {| cname := "ObjectAssetRefinedPoseComponent"; cfields := [key LaserLabelKey; node "box_from_vehicle" Transform] |};
  {| cname := "ObjectAssetAutoLabelComponent"; cfields := [key ObjectAssetKey; leaf "semantic_mask"; leaf "instance_mask"; leaf "object_mask"] |};
  {| cname := "ObjectAssetRayComponent"; cfields := [key ObjectAssetKey; node "ray_origin" ValuesShape; node "ray_direction" ValuesShape] |};
  {| cname := "ObjectAssetRayCompressedComponent"; cfields := [key ObjectAssetKey; leaf "reference"; leaf "quantized_values"; leaf "shape"] |};
  {| cname := "VehiclePoseComponent"; cfields := [key FrameKey; node "world_from_vehicle" Transform] |};
  {| cname := "CameraSegmentationLabelComponent"; cfields := [key CameraKey; leaf "panoptic_label_divisor"; leaf "panoptic_label"; node "instance_id_to_global_id_mapping" IdMapping; leaf "sequence_id"; leaf "num_cameras_covered"] |};
  {| cname := "LiDARSegmentationLabelComponent"; cfields := [key LaserKey; node "range_image_return1" ValuesShape; node "range_image_return2" ValuesShape] |} ].
