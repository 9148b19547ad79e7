(** Model of the column types of v2/component.py (below /repo/src/waymo_open_dataset/) and of the column types declared by the
    components of the perception dataset, which ComponentModel.v leaves out.

    Simplification: an Arrow data type is a constructor; what values it holds is a parameter of the properties. *)
From Coq Require Import String.
From Verif Require Import Base ResultLib ComponentModel.
Open Scope string_scope.

(** The types of pyarrow that are used; pa.list_(a) and pa.list_(a, n). *)
Inductive arrow := Int8 | Int32 | Int64 | Float32 | Float64 | Text | Binary | Boolean | ListOf (a : arrow) | ListOfSize (a : arrow) (n : nat).
(** A field type with the arrow_type of its leaves (create_column 161-184, None unless given). *)
Inductive tty := TLeaf (a : option arrow) | TNode (key : bool) (fs : list (string * bool * tty)).
Record tcomponent := { tname : string; tfields : list (string * bool * tty) }.
(** Without the column types: the trees of ComponentModel.v. *)
Fixpoint erase (t : tty) : ty :=
  match t with
  | TLeaf _ => Leaf
  | TNode k fs => Node k (map (fun f => (fst (fst f), snd (fst f), erase (snd f))) fs)
  end.
Definition erase_component (c : tcomponent) : component :=
  {| cname := tname c; cfields := map (fun f => (fst (fst f), snd (fst f), erase (snd f))) (tfields c) |}.

(** flatten_arrow_types (292-313): fields of a plain dataclass, and of a component. *)
Fixpoint arrow_types (t : tty) (path : list string) (cols : dict (option arrow)) {struct t} : dict (option arrow) :=
  match t with
  | TLeaf a => dset (join path) a cols
  | TNode _ fs => fold_left (fun cols f => arrow_types (snd f) (path ++ [plain_name (fst (fst f)) (snd (fst f))])%list cols) fs cols
  end.
Definition tis_key (t : tty) : bool := match t with TLeaf _ => false | TNode k _ => k end.
Definition component_arrow_types (c : tcomponent) : dict (option arrow) :=
  fold_left (fun cols f => arrow_types (snd f) [comp_name (tname c) (fst (fst f)) (snd (fst f)) (tis_key (snd f))] cols) (tfields c) [].
(** schema (120-147): pa.schema wants a data type for each column; its TypeError is [RuntimeError] here. *)
Definition typed_schema (c : tcomponent) : result (list (string * arrow)) :=
  mapM (fun p : string * option arrow => match snd p with Some a => Ok (fst p, a) | None => Err RuntimeError end) (component_arrow_types c).

(** ** The dataset *)
Definition column (n : string) (a : arrow) : string * bool * tty := (n, false, TLeaf (Some a)).
Definition group (n : string) (fs : list (string * bool * tty)) : string * bool * tty := (n, false, TNode false fs).
(** v2/column_types.py 33-156. *)
Definition Vec2d := [column "x" Float64; column "y" Float64].
Definition Vec3s := [column "x" Float32; column "y" Float32; column "z" Float32].
Definition Vec3d := [column "x" Float64; column "y" Float64; column "z" Float64].
Definition Vec2dList := [column "x" (ListOf Float64); column "y" (ListOf Float64)].
Definition Vec3dList := [column "x" (ListOf Float64); column "y" (ListOf Float64); column "z" (ListOf Float64)].
Definition TTransform := [column "transform" (ListOfSize Float64 16)].
Definition TBox3d := [group "center" Vec3d; group "size" Vec3d; column "heading" Float64].
Definition TBoxAxisAligned2d := [group "center" Vec2d; group "size" Vec2d].
(** Keys: v2/perception/base.py 33-146, box.py 117 and 168-170. *)
Definition tkey (fs : list (string * arrow)) : string * bool * tty := ("key", false, TNode true (map (fun p => column (fst p) (snd p)) fs)).
Definition k_segment := ("segment_context_name", Text).
Definition k_frame := ("frame_timestamp_micros", Int64).
Definition k_laser := ("laser_name", Int8).
Definition k_camera := ("camera_name", Int8).
Definition k_laser_object := ("laser_object_id", Text).
Definition k_camera_object := ("camera_object_id", Text).
(** box.py 47-51. *)
Definition TDifficultyLevel := [column "detection" Int8; column "tracking" Int8].
(** lidar.py 46-47, 90-91, 130-131, 172-173; segmentation.py 107-108; object_asset.py 61-62, 79-80, 95-96. *)
Definition TImage (a : arrow) (rank : nat) := [column "values" (ListOf a); column "shape" (ListOfSize Int32 rank)].
(** camera_image.py 41-42 and 70-72. *)
Definition TVelocity := [group "linear_velocity" Vec3s; group "angular_velocity" Vec3d].
Definition TRollingShutterParams := [column "shutter" Float64; column "camera_trigger_time" Float64; column "camera_readout_done_time" Float64].
(** context.py 45-53, 96-98 and 124-125. *)
Definition TIntrinsic := map (fun n => column n Float64) ["f_u"; "f_v"; "c_u"; "c_v"; "k1"; "k2"; "p1"; "p2"; "k3"].
Definition TBeamInclination := [column "min" Float64; column "max" Float64; column "values" (ListOf Float64)].
Definition TObjectCounts := [column "types" (ListOf Int8); column "counts" (ListOf Int32)].
(** keypoints.py 41, 53-54, 70-71, 149-151 and 172-173. *)
Definition TVisibility := [column "is_occluded" (ListOf Boolean)].
Definition TKeypoint2d := [group "location_px" Vec2dList; group "visibility" TVisibility].
Definition TKeypoint3d := [group "location_m" Vec3dList; group "visibility" TVisibility].
Definition TCameraHumanKeypoints := [column "type" (ListOf Int8); group "keypoint_2d" TKeypoint2d; group "keypoint_3d" TKeypoint3d].
Definition TLiDARHumanKeypoints := [column "type" (ListOf Int8); group "keypoint_3d" TKeypoint3d].
(** segmentation.py 49-51. *)
Definition TIdMapping := [column "local_instance_ids" (ListOf Int32); column "global_instance_ids" (ListOf Int32); column "is_tracked" (ListOf Boolean)].
(** The components: box.py 55-180, camera_image.py 76-101, context.py 66-143, keypoints.py 155-180, lidar.py 55-184,
    object_asset.py 100-256, pose.py 24-27, segmentation.py 55-119. *)
Definition typed_components : list tcomponent := [
  {| tname := "LiDARBoxComponent"; tfields := [tkey [k_segment; k_frame; k_laser_object]; group "box" TBox3d; column "type" Int8;
       column "num_lidar_points_in_box" Int64; column "num_top_lidar_points_in_box" Int64; group "speed" Vec3d; group "acceleration" Vec3d; group "difficulty_level" TDifficultyLevel] |};
  {| tname := "LiDARCameraSyncedBoxComponent"; tfields := [tkey [k_segment; k_frame; k_laser_object]; column "most_visible_camera_name" Int8; group "camera_synced_box" TBox3d] |};
  {| tname := "ProjectedLiDARBoxComponent"; tfields := [tkey [k_segment; k_frame; k_camera; k_laser_object]; group "box" TBoxAxisAligned2d; column "type" Int8] |};
  {| tname := "CameraBoxComponent"; tfields := [tkey [k_segment; k_frame; k_camera; k_camera_object]; group "box" TBoxAxisAligned2d; column "type" Int8; group "difficulty_level" TDifficultyLevel] |};
  {| tname := "CameraToLiDARBoxAssociationComponent"; tfields := [tkey [k_segment; k_frame; k_camera; k_camera_object; k_laser_object]] |};
  {| tname := "CameraImageComponent"; tfields := [tkey [k_segment; k_frame; k_camera]; column "image" Binary; group "pose" TTransform; group "velocity" TVelocity;
       column "pose_timestamp" Float64; group "rolling_shutter_params" TRollingShutterParams] |};
  {| tname := "CameraCalibrationComponent"; tfields := [tkey [k_segment; k_camera]; group "intrinsic" TIntrinsic; group "extrinsic" TTransform;
       column "width" Int32; column "height" Int32; column "rolling_shutter_direction" Int8] |};
  {| tname := "LiDARCalibrationComponent"; tfields := [tkey [k_segment; k_laser]; group "extrinsic" TTransform; group "beam_inclination" TBeamInclination] |};
  {| tname := "StatsComponent"; tfields := [tkey [k_segment; k_frame]; column "time_of_day" Text; column "location" Text; column "weather" Text;
       group "lidar_object_counts" TObjectCounts; group "camera_object_counts" TObjectCounts] |};
  {| tname := "CameraHumanKeypointsComponent"; tfields := [tkey [k_segment; k_frame; k_camera; k_camera_object]; ("camera_keypoints", true, TNode false TCameraHumanKeypoints)] |};
  {| tname := "LiDARHumanKeypointsComponent"; tfields := [tkey [k_segment; k_frame; k_laser_object]; ("lidar_keypoints", true, TNode false TLiDARHumanKeypoints)] |};
  {| tname := "LiDARComponent"; tfields := [tkey [k_segment; k_frame; k_laser]; group "range_image_return1" (TImage Float32 3); group "range_image_return2" (TImage Float32 3)] |};
  {| tname := "LiDARCameraProjectionComponent"; tfields := [tkey [k_segment; k_frame; k_laser]; group "range_image_return1" (TImage Float32 3); group "range_image_return2" (TImage Float32 3)] |};
  {| tname := "LiDARPoseComponent"; tfields := [tkey [k_segment; k_frame; k_laser]; group "range_image_return1" (TImage Float32 3)] |};
  {| tname := "LiDARFlowComponent"; tfields := [tkey [k_segment; k_frame; k_laser]; group "range_image_return1" (TImage Float32 3); group "range_image_return2" (TImage Float32 3)] |};
  {| tname := "ObjectAssetLiDARSensorComponent"; tfields := [tkey [k_segment; k_frame; k_laser_object]; group "points_xyz" (TImage Float32 2)] |};
  {| tname := "ObjectAssetCameraSensorComponent"; tfields := [tkey [k_segment; k_frame; k_laser_object; k_camera]; group "camera_region" TBoxAxisAligned2d; column "rgb_image" Binary;
       group "proj_points_dist" (TImage Float32 2); column "proj_points_mask" Binary] |};
  {| tname := "ObjectAssetRefinedPoseComponent"; tfields := [tkey [k_segment; k_frame; k_laser_object]; group "box_from_vehicle" TTransform] |};
  {| tname := "ObjectAssetAutoLabelComponent"; tfields := [tkey [k_segment; k_frame; k_laser_object; k_camera]; column "semantic_mask" Binary; column "instance_mask" Binary; column "object_mask" Binary] |};
  {| tname := "ObjectAssetRayComponent"; tfields := [tkey [k_segment; k_frame; k_laser_object; k_camera]; group "ray_origin" (TImage Float32 3); group "ray_direction" (TImage Float32 3)] |};
  {| tname := "ObjectAssetRayCompressedComponent"; tfields := [tkey [k_segment; k_frame; k_laser_object; k_camera]; column "reference" (ListOf Float32);
       column "quantized_values" (ListOf Int32); column "shape" (ListOf Int32)] |};
  {| tname := "VehiclePoseComponent"; tfields := [tkey [k_segment; k_frame]; group "world_from_vehicle" TTransform] |};
  {| tname := "CameraSegmentationLabelComponent"; tfields := [tkey [k_segment; k_frame; k_camera]; column "panoptic_label_divisor" Int32; column "panoptic_label" Binary;
       group "instance_id_to_global_id_mapping" TIdMapping; column "sequence_id" Text; column "num_cameras_covered" Binary] |};
  {| tname := "LiDARSegmentationLabelComponent"; tfields := [tkey [k_segment; k_frame; k_laser]; group "range_image_return1" (TImage Int32 3); group "range_image_return2" (TImage Int32 3)] |} ].
