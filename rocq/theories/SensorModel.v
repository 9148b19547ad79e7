(** The other extractors from version 1 frames to version 2 components: keypoints, lidar data, segmentation, camera images,
    calibrations, statistics and poses: v2/perception/compat_v1/keypoints.py, lidar.py, segmentation.py, camera_image.py, context.py,
    pose.py and v2/perception/utils/lidar_utils.py (in src/waymo_open_dataset).

    The conventions are those of ExtractModel.v. RuntimeError stands for the ExtractionError of interfaces.py:73-74, and for the
    errors of the decompression. *)
From Coq Require Import String Ascii.
From Verif Require Import Base ResultLib ExtractModel.
Open Scope list_scope.
Open Scope Z_scope.

Definition flag_of (o : option bool) : bool := match o with Some v => v | None => false end.
Definition list_of {A} (o : option (list A)) : list A := match o with Some v => v | None => [] end.

(** ** Keypoints (protos/keypoint.proto, protos/vector.proto) *)
Record vector2 := { v2_x : option Z; v2_y : option Z }.
Record vector3 := { v3_x : option Z; v3_y : option Z; v3_z : option Z }.
(** KeypointVisibility is its only field, is_occluded. *)
Record keypoint2d1 := { location_px : option vector2; visibility2 : option (option bool) }.
Record keypoint3d1 := { location_m : option vector3; visibility3 : option (option bool) }.
Record camera_keypoint := { ckp_type : option Z; ckp_2d : option keypoint2d1; ckp_3d : option keypoint3d1 }.
Record laser_keypoint := { lkp_type : option Z; lkp_3d : option keypoint3d1 }.
(** The part of a label that is read: its id and one of the two kinds of keypoints (label.proto:91-96, a oneof). *)
Inductive keypoints1 := LaserKeypoints (l : list laser_keypoint) | CameraKeypoints (l : list camera_keypoint).
Record klabel := { kl_id : option text; kl_keypoints : option keypoints1 }.

(** Columns (v2/perception/keypoints.py, v2/column_types.py Vec2dList, Vec3dList). *)
Record camera_hkp := { ch_type : list Z; ch_x : list Z; ch_y : list Z; ch_occluded : list bool }.
Record lidar_hkp := { lh_type : list Z; lh_x : list Z; lh_y : list Z; lh_z : list Z; lh_occluded : list bool }.

(** assert_has_fields (interfaces.py:77-81). *)
Definition assert_has_fields (fields : list bool) : result unit := if forallb (fun b => b) fields then Ok tt else Err RuntimeError.
Definition x2_of (v : option vector2) : Z := match v with Some v => num_of (v2_x v) | None => 0 end.
Definition y2_of (v : option vector2) : Z := match v with Some v => num_of (v2_y v) | None => 0 end.
Definition x3_of (v : option vector3) : Z := match v with Some v => num_of (v3_x v) | None => 0 end.
Definition y3_of (v : option vector3) : Z := match v with Some v => num_of (v3_y v) | None => 0 end.
Definition z3_of (v : option vector3) : Z := match v with Some v => num_of (v3_z v) | None => 0 end.
Definition occluded_of (o : option (option bool)) : bool := match o with Some b => flag_of b | None => false end.

(** _assert_camera_keypoint_has_required_fields (keypoints.py:26-32): an unset keypoint_2d has no fields. *)
Definition camera_required (k : camera_keypoint) : result unit :=
  do _ <- assert_has_fields [has (ckp_type k); has (ckp_2d k)];
  match ckp_2d k with
  | Some p => assert_has_fields [has (location_px p); has (visibility2 p)]
  | None => assert_has_fields [false; false]
  end.
(** _camera_hkp_from_label_proto (keypoints.py:35-56): the four lists are appended to in the loop. *)
Definition camera_append (h : camera_hkp) (k : camera_keypoint) : result camera_hkp :=
  do _ <- camera_required k;
  let p := match ckp_2d k with Some p => p | None => {| location_px := None; visibility2 := None |} end in
  Ok {| ch_type := ch_type h ++ [num_of (ckp_type k)];
        ch_x := ch_x h ++ [x2_of (location_px p)];
        ch_y := ch_y h ++ [y2_of (location_px p)];
        ch_occluded := ch_occluded h ++ [occluded_of (visibility2 p)] |}.
Definition camera_hkp_from_label (l : klabel) : result (option camera_hkp) :=
  match kl_keypoints l with
  | Some (CameraKeypoints ks) =>
      do h <- foldM camera_append ks {| ch_type := []; ch_x := []; ch_y := []; ch_occluded := [] |}; Ok (Some h)
  | _ => Ok None
  end.

(** _assert_lidar_hkp_has_required_fields (keypoints.py:59-65). *)
Definition lidar_required (k : laser_keypoint) : result unit :=
  do _ <- assert_has_fields [has (lkp_type k); has (lkp_3d k)];
  match lkp_3d k with
  | Some p => assert_has_fields [has (location_m p); has (visibility3 p)]
  | None => assert_has_fields [false; false]
  end.
(** _lidar_hkp_from_label_proto (keypoints.py:68-90). *)
Definition lidar_append (h : lidar_hkp) (k : laser_keypoint) : result lidar_hkp :=
  do _ <- lidar_required k;
  let p := match lkp_3d k with Some p => p | None => {| location_m := None; visibility3 := None |} end in
  Ok {| lh_type := lh_type h ++ [num_of (lkp_type k)];
        lh_x := lh_x h ++ [x3_of (location_m p)];
        lh_y := lh_y h ++ [y3_of (location_m p)];
        lh_z := lh_z h ++ [z3_of (location_m p)];
        lh_occluded := lh_occluded h ++ [occluded_of (visibility3 p)] |}.
Definition lidar_hkp_from_label (l : klabel) : result (option lidar_hkp) :=
  match kl_keypoints l with
  | Some (LaserKeypoints ks) =>
      do h <- foldM lidar_append ks {| lh_type := []; lh_x := []; lh_y := []; lh_z := []; lh_occluded := [] |}; Ok (Some h)
  | _ => Ok None
  end.

(** CameraHumanKeypointsFrameExtractor (keypoints.py:93-112): the truth value of the dataclass is true whenever it is not None. *)
Definition extract_camera_keypoints (segment : text) (time camera : Z) (l : klabel) : result (list (camera_key * camera_hkp)) :=
  do h <- camera_hkp_from_label l;
  match h with
  | Some h => Ok [({| ck_segment := segment; ck_time := time; ck_camera := camera; ck_object := text_of (kl_id l) |}, h)]
  | None => Ok []
  end.
(** LiDARHumanKeypointsFrameExtractor (keypoints.py:115-131). *)
Definition extract_lidar_keypoints (segment : text) (time : Z) (l : klabel) : result (list (laser_key * lidar_hkp)) :=
  do h <- lidar_hkp_from_label l;
  match h with
  | Some h => Ok [({| lk_segment := segment; lk_time := time; lk_object := text_of (kl_id l) |}, h)]
  | None => Ok []
  end.

(** ** Lidar data (dataset.proto RangeImage and Laser): four compressed images for each of two returns. *)
Definition bytes := list Z.
Record returns1 := { r_range : option bytes; r_projection : option bytes; r_pose : option bytes; r_segmentation : option bytes }.
Record laser1 := { la_name : option Z; la_return1 : returns1; la_return2 : returns1 }.
Record image2 := { im_values : list Z; im_shape : list Z }.
(** v2/perception/base.py LaserKey. *)
Record sensor_key := { sk_segment : text; sk_time : Z; sk_name : Z }.
Record two_returns := { tr_key : sensor_key; tr_first : option image2; tr_second : option image2 }.

Section Decode.
  (** tf.io.decode_compressed and the parsing of a matrix of floats or of integers (lidar_utils.py:217-231). *)
  Variable floats : bytes -> result (list Z * list Z).
  Variable integers : bytes -> result (list Z * list Z).
  Inductive image_class := RangeImage | PoseImage | ProjectionImage | SegmentationImage.
  (** parse_range_image (lidar_utils.py:207-238): an unset field reads as no bytes. *)
  Definition parse_range_image (b : option bytes) (c : image_class) : result (option image2) :=
    match list_of b with
    | [] => Ok None
    | b =>
        do (values, shape) <- match c with ProjectionImage | SegmentationImage => integers b | RangeImage | PoseImage => floats b end;
        Ok (Some {| im_values := values; im_shape := shape |})
    end.
  (** get_laser_key (lidar_utils.py:241-246). *)
  Definition get_laser_key (segment : text) (time : Z) (l : laser1) : sensor_key :=
    {| sk_segment := segment; sk_time := time; sk_name := num_of (la_name l) |}.
  (** lidar.py:29-43, 54-68; segmentation.py:69-84: the three extractors differ in the field and the class. *)
  Definition extract_returns (field : returns1 -> option bytes) (c : image_class) (segment : text) (time : Z) (l : laser1)
    : result (list two_returns) :=
    do r1 <- parse_range_image (field (la_return1 l)) c;
    do r2 <- parse_range_image (field (la_return2 l)) c;
    match r1, r2 with
    | None, None => Ok []
    | _, _ => Ok [{| tr_key := get_laser_key segment time l; tr_first := r1; tr_second := r2 |}]
    end.
  (** LiDARComponentExtractor (lidar.py:23-43). *)
  Definition extract_lidar := extract_returns r_range RangeImage.
  (** LiDARCameraProjectionComponentExtractor (lidar.py:46-68). *)
  Definition extract_projection := extract_returns r_projection ProjectionImage.
  (** LiDARSegmentationLabelComponentExtractor (segmentation.py:61-84). *)
  Definition extract_lidar_segmentation := extract_returns r_segmentation SegmentationImage.
  (** LiDARPoseComponentExtractor (lidar.py:71-86). *)
  Definition extract_lidar_pose (segment : text) (time : Z) (l : laser1) : result (list (sensor_key * image2)) :=
    do r1 <- parse_range_image (r_pose (la_return1 l)) PoseImage;
    match r1 with
    | Some i => Ok [(get_laser_key segment time l, i)]
    | None => Ok []
    end.
End Decode.

(** ** Camera segmentation (dataset.proto:274-315) *)
Record mapping1 := { mp_local : option Z; mp_global : option Z; mp_tracked : option bool }.
Record segmentation1 := {
  sg_divisor : option Z; sg_label : option bytes; sg_mapping : list mapping1; sg_sequence : option text; sg_covered : option bytes }.
Record segmentation2 := {
  s2_key : sensor_key; s2_divisor : Z; s2_label : bytes; s2_local : list Z; s2_global : list Z; s2_tracked : list bool;
  s2_sequence : text; s2_covered : bytes }.
(** CameraSegmentationLabelComponentExtractor (segmentation.py:24-58): the lists are appended to in the loop. *)
Definition mapping_append (acc : list Z * list Z * list bool) (m : mapping1) : list Z * list Z * list bool :=
  let '(a, b, c) := acc in (a ++ [num_of (mp_local m)], b ++ [num_of (mp_global m)], c ++ [flag_of (mp_tracked m)]).
Definition extract_segmentation (segment : text) (time : Z) (camera : option Z) (label : option segmentation1) : list segmentation2 :=
  match label with
  | None => []
  | Some s =>
      let '(a, b, c) := fold_left mapping_append (sg_mapping s) ([], [], []) in
      [ {| s2_key := {| sk_segment := segment; sk_time := time; sk_name := num_of camera |}; s2_divisor := num_of (sg_divisor s);
           s2_label := list_of (sg_label s); s2_local := a; s2_global := b; s2_tracked := c; s2_sequence := text_of (sg_sequence s);
           s2_covered := list_of (sg_covered s) |} ]
  end.

(** ** Calibrations and statistics (dataset.proto CameraCalibration, LaserCalibration, Context.Stats) *)
Record intrinsic2 := { f_u : Z; f_v : Z; c_u : Z; c_v : Z; k1 : Z; k2 : Z; p1 : Z; p2 : Z; k3 : Z }.
(** intrinsic_v1[i] of a repeated field raises IndexError past its end. *)
Definition at_index (l : list Z) (i : nat) : result Z := match nth_error l i with Some v => Ok v | None => Err IndexError end.
(** context.py:33-43. *)
Definition get_intrinsic (v : list Z) : result intrinsic2 :=
  do a0 <- at_index v 0; do a1 <- at_index v 1; do a2 <- at_index v 2; do a3 <- at_index v 3; do a4 <- at_index v 4;
  do a5 <- at_index v 5; do a6 <- at_index v 6; do a7 <- at_index v 7; do a8 <- at_index v 8;
  Ok {| f_u := a0; f_v := a1; c_u := a2; c_v := a3; k1 := a4; k2 := a5; p1 := a6; p2 := a7; k3 := a8 |}.
(** context.py:72-86: the values of the inclinations are left out when there are none. *)
Record inclination2 := { in_min : Z; in_max : Z; in_values : option (list Z) }.
Definition get_inclination (least most : option Z) (values : list Z) : inclination2 :=
  match values with
  | _ :: _ => {| in_min := num_of least; in_max := num_of most; in_values := Some values |}
  | [] => {| in_min := num_of least; in_max := num_of most; in_values := None |}
  end.
(** _parse_object_counts (context.py:95-104). *)
Definition parse_object_counts (l : list (option Z * option Z)) : option (list Z * list Z) :=
  match l with
  | [] => None
  | _ => Some (map (fun p => num_of (fst p)) l, map (fun p => num_of (snd p)) l)
  end.
