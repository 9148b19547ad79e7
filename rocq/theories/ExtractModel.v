(** The extractors that turn the box labels of a version 1 frame into version 2 components:
    v2/perception/compat_v1/box.py, v2/perception/compat_v1/interfaces.py, v2/perception/box.py and v2/perception/camera_image.py
    (in src/waymo_open_dataset).

    Conventions.
    - A text is the list of its code points; a slice of a text is a prefix or a suffix of that list.
    - Numbers are copied, never computed with: integers stand for the doubles.
    - An optional field of a message is an option; reading an unset field gives the default of its type (0 or the empty text).
    - An extractor is a generator that yields at most one component: the result is the list of what it yields, or the exception
      that the iteration raises. AssertionError and KeyError are those of Python. *)
From Coq Require Import String Ascii.
From Verif Require Import Base ResultLib.
Open Scope list_scope.
Open Scope Z_scope.

Definition text := list nat.
Definition codes (s : string) : text := map nat_of_ascii (list_ascii_of_string s).
Definition text_eqb (a b : text) : bool := if list_eq_dec Nat.eq_dec a b then true else false.

(** Reading an optional field. *)
Definition num_of (o : option Z) : Z := match o with Some v => v | None => 0 end.
Definition text_of (o : option text) : text := match o with Some v => v | None => [] end.

(** ** The messages of version 1 (label.proto:23-136) *)
Record box1 := { center_x : option Z; center_y : option Z; center_z : option Z; length_ : option Z; width : option Z; height : option Z; heading : option Z }.
Record metadata1 := { speed_x : option Z; speed_y : option Z; speed_z : option Z; accel_x : option Z; accel_y : option Z; accel_z : option Z }.
(** label.proto:104-108: the association message holds the optional id. *)
Record label1 := {
  l_box : option box1; l_metadata : option metadata1; l_type : option Z; l_id : option text;
  l_detection : option Z; l_tracking : option Z; l_points : option Z; l_top_points : option Z;
  l_association : option (option text); l_camera : option text; l_synced : option box1 }.
(** dataset.proto CameraLabels: the name of the camera and the labels on its image. *)
Record camera_labels1 := { cl_name : option Z; cl_labels : list label1 }.
(** dataset.proto Frame: context.name, timestamp_micros, laser_labels, projected_lidar_labels, camera_labels. *)
Record frame1 := {
  f_context : option text; f_timestamp : option Z; f_laser_labels : list label1;
  f_projected : list camera_labels1; f_camera_labels : list camera_labels1 }.

(** ** The columns of version 2 (v2/column_types.py Vec2d, Vec3d, Box3d, BoxAxisAligned2d; v2/perception/box.py:43-47) *)
Record vec3 := { x3 : Z; y3 : Z; z3 : Z }.
Record vec2 := { x2 : Z; y2 : Z }.
Record box3 := { center3 : vec3; size3 : vec3; heading3 : Z }.
Record box2 := { center2 : vec2; size2 : vec2 }.
Record difficulty2 := { detection2 : Z; tracking2 : Z }.

(** v2/perception/base.py LaserLabelKey and CameraLabelKey; v2/perception/box.py:118-128, 176-178. *)
Record laser_key := { lk_segment : text; lk_time : Z; lk_object : text }.
Record camera_key := { ck_segment : text; ck_time : Z; ck_camera : Z; ck_object : text }.
Record projected_key := { pk_segment : text; pk_time : Z; pk_camera : Z; pk_object : text }.
Record association_key := { ak_segment : text; ak_time : Z; ak_camera : Z; ak_object : text; ak_laser : text }.

(** v2/perception/box.py:50-183. *)
Record lidar_box := {
  lb_key : laser_key; lb_box : box3; lb_type : Z; lb_speed : option vec3; lb_acceleration : option vec3;
  lb_points : Z; lb_top_points : Z; lb_difficulty : option difficulty2 }.
Record synced_box := { sb_key : laser_key; sb_camera : Z; sb_box : box3 }.
Record projected_box := { pb_key : projected_key; pb_box : box2; pb_type : Z }.
Record camera_box := { cb_key : camera_key; cb_box : box2; cb_type : Z; cb_difficulty : option difficulty2 }.

(** ** v2/perception/camera_image.py CameraName: the value of a name; CameraName[name] raises KeyError for other texts. *)
Definition camera_names : list (text * Z) :=
  [ (codes "UNKNOWN", 0); (codes "FRONT", 1); (codes "FRONT_LEFT", 2); (codes "FRONT_RIGHT", 3);
    (codes "SIDE_LEFT", 4); (codes "SIDE_RIGHT", 5) ].
Definition camera_value (name : text) : result Z :=
  match find (fun p => text_eqb (fst p) name) camera_names with
  | Some p => Ok (snd p)
  | None => Err KeyError
  end.

(** assert HasField. *)
Definition has {A} (o : option A) : bool := match o with Some _ => true | None => false end.
Definition assert_that (b : bool) : result unit := if b then Ok tt else Err AssertionError.

(** ** _get_box3d (box.py:26-46) *)
Definition get_box3d (b : box1) : result box3 :=
  do _ <- assert_that (has (center_x b));
  do _ <- assert_that (has (center_y b));
  do _ <- assert_that (has (center_z b));
  do _ <- assert_that (has (length_ b));
  do _ <- assert_that (has (width b));
  do _ <- assert_that (has (height b));
  do _ <- assert_that (has (heading b));
  Ok {| center3 := {| x3 := num_of (center_x b); y3 := num_of (center_y b); z3 := num_of (center_z b) |};
        size3 := {| x3 := num_of (length_ b); y3 := num_of (width b); z3 := num_of (height b) |};
        heading3 := num_of (heading b) |}.

(** ** _get_box_axis_aligned_2d (box.py:49-68) *)
Definition get_box_axis_aligned_2d (b : box1) : result box2 :=
  do _ <- assert_that (has (center_x b));
  do _ <- assert_that (has (center_y b));
  do _ <- assert_that (has (length_ b));
  do _ <- assert_that (has (width b));
  do _ <- assert_that (negb (has (center_z b)));
  do _ <- assert_that (negb (has (height b)));
  do _ <- assert_that (negb (has (heading b)));
  Ok {| center2 := {| x2 := num_of (center_x b); y2 := num_of (center_y b) |};
        size2 := {| x2 := num_of (length_ b); y2 := num_of (width b) |} |}.

(** ** _get_metadata_vector (box.py:71-90): the prefix, 'speed' or 'accel', picks three fields of the metadata. *)
Inductive prefix := Speed | Accel.
Definition field_x (p : prefix) (m : metadata1) := match p with Speed => speed_x m | Accel => accel_x m end.
Definition field_y (p : prefix) (m : metadata1) := match p with Speed => speed_y m | Accel => accel_y m end.
Definition field_z (p : prefix) (m : metadata1) := match p with Speed => speed_z m | Accel => accel_z m end.
Definition get_metadata_vector (l : label1) (p : prefix) : result (option vec3) :=
  match l_metadata l with
  | None => Ok None
  | Some m =>
      do _ <- assert_that (has (field_x p m));
      do _ <- assert_that (has (field_y p m));
      let z := if has (field_z p m) then num_of (field_z p m) else 0 in
      Ok (Some {| x3 := num_of (field_x p m); y3 := num_of (field_y p m); z3 := z |})
  end.

(** ** _get_difficulty (box.py:93-103) *)
Definition get_difficulty (l : label1) : option difficulty2 :=
  if negb (has (l_detection l)) && negb (has (l_tracking l)) then None
  else Some {| detection2 := num_of (l_detection l); tracking2 := num_of (l_tracking l) |}.

(** box.py:114-118, 143-147. *)
Definition laser_key_of (f : frame1) (l : label1) : laser_key :=
  {| lk_segment := text_of (f_context f); lk_time := num_of (f_timestamp f); lk_object := text_of (l_id l) |}.

(** ** LiDARBoxComponentExtractor (box.py:106-128) *)
Definition extract_lidar_box (f : frame1) (l : label1) : result (list lidar_box) :=
  match l_box l with
  | None => Ok []
  | Some b =>
      do box <- get_box3d b;
      do speed <- get_metadata_vector l Speed;
      do acceleration <- get_metadata_vector l Accel;
      Ok [ {| lb_key := laser_key_of f l; lb_box := box; lb_type := num_of (l_type l); lb_speed := speed;
              lb_acceleration := acceleration; lb_points := num_of (l_points l); lb_top_points := num_of (l_top_points l);
              lb_difficulty := get_difficulty l |} ]
  end.

(** ** LiDARCameraSyncedBoxComponentExtractor (box.py:131-154) *)
Definition extract_synced_box (f : frame1) (l : label1) : result (list synced_box) :=
  match text_of (l_camera l) with
  | [] => Ok []
  | name =>
      match l_synced l with
      | None => Ok []
      | Some b =>
          do camera <- camera_value name;
          do box <- get_box3d b;
          Ok [ {| sb_key := laser_key_of f l; sb_camera := camera; sb_box := box |} ]
      end
  end.

(** ** _parse_lidar_object_id (box.py:157-162) *)
Definition parse_lidar_object_id (id : text) : result (text * Z) :=
  let lidar_object_id := firstn 22 id in
  do camera_name <- camera_value (skipn 23 id);
  Ok (lidar_object_id, camera_name).

(** ** ProjectedLiDARBoxComponentExtractor (box.py:165-187): the camera of the labels of the frame is not read. *)
Definition extract_projected_box (f : frame1) (c : camera_labels1) (l : label1) : result (list projected_box) :=
  match l_box l with
  | None => Ok []
  | Some b =>
      do (lidar_object_id, camera_name) <- parse_lidar_object_id (text_of (l_id l));
      do box <- get_box_axis_aligned_2d b;
      Ok [ {| pb_key := {| pk_segment := text_of (f_context f); pk_time := num_of (f_timestamp f); pk_camera := camera_name;
                           pk_object := lidar_object_id |};
              pb_box := box; pb_type := num_of (l_type l) |} ]
  end.

(** ** CameraBoxComponentExtractor (box.py:190-210) *)
Definition extract_camera_box (f : frame1) (c : camera_labels1) (l : label1) : result (list camera_box) :=
  match l_box l with
  | None => Ok []
  | Some b =>
      do box <- get_box_axis_aligned_2d b;
      Ok [ {| cb_key := {| ck_segment := text_of (f_context f); ck_time := num_of (f_timestamp f); ck_camera := num_of (cl_name c);
                           ck_object := text_of (l_id l) |};
              cb_box := box; cb_type := num_of (l_type l); cb_difficulty := get_difficulty l |} ]
  end.

(** ** CameraToLiDARBoxAssociationComponentExtractor (box.py:213-231): the component holds its key only. *)
Definition extract_association (f : frame1) (c : camera_labels1) (l : label1) : result (list association_key) :=
  match l_association l with
  | None => Ok []
  | Some a =>
      Ok [ {| ak_segment := text_of (f_context f); ak_time := num_of (f_timestamp f); ak_camera := num_of (cl_name c);
              ak_object := text_of (l_id l); ak_laser := text_of a |} ]
  end.

(** ** The pipeline of ComponentSource (interfaces.py:36-70): the extractor is called for each label, in order, and what it
    yields is put together; the first exception ends it. *)
Definition over_labels {S C} (extract : S -> result (list C)) (sources : list S) : result (list C) :=
  do parts <- mapM extract sources; Ok (concat parts).
(** CROSS JOIN UNNEST(frame.camera_labels) CROSS JOIN UNNEST(camera_label.labels). *)
Definition label_sources (cs : list camera_labels1) : list (camera_labels1 * label1) :=
  flat_map (fun c => map (fun l => (c, l)) (cl_labels c)) cs.

Definition all_lidar_boxes (f : frame1) : result (list lidar_box) := over_labels (extract_lidar_box f) (f_laser_labels f).
Definition all_synced_boxes (f : frame1) : result (list synced_box) := over_labels (extract_synced_box f) (f_laser_labels f).
Definition all_projected_boxes (f : frame1) : result (list projected_box) :=
  over_labels (fun s => extract_projected_box f (fst s) (snd s)) (label_sources (f_projected f)).
Definition all_camera_boxes (f : frame1) : result (list camera_box) :=
  over_labels (fun s => extract_camera_box f (fst s) (snd s)) (label_sources (f_camera_labels f)).
Definition all_associations (f : frame1) : result (list association_key) :=
  over_labels (fun s => extract_association f (fst s) (snd s)) (label_sources (f_camera_labels f)).
