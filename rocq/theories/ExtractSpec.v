(** What the extraction of box labels should give, said on the messages themselves. *)
From Coq Require Import String Ascii.
From Verif Require Import Base ExtractModel.
Open Scope list_scope.
Open Scope Z_scope.

(** The value of a field that may be unset. *)
Definition or_default {A} (d : A) (o : option A) : A := match o with Some v => v | None => d end.

(** The seven fields of [b] are set, and [r] holds them. *)
Definition same_box3 (b : box1) (r : box3) : Prop :=
  center_x b = Some (x3 (center3 r)) /\ center_y b = Some (y3 (center3 r)) /\ center_z b = Some (z3 (center3 r)) /\
  length_ b = Some (x3 (size3 r)) /\ width b = Some (y3 (size3 r)) /\ height b = Some (z3 (size3 r)) /\
  heading b = Some (heading3 r).
(** The four fields of a box on an image are set, the other three are not, and [r] holds them. *)
Definition same_box2 (b : box1) (r : box2) : Prop :=
  center_x b = Some (x2 (center2 r)) /\ center_y b = Some (y2 (center2 r)) /\
  length_ b = Some (x2 (size2 r)) /\ width b = Some (y2 (size2 r)) /\
  center_z b = None /\ height b = None /\ heading b = None.

(** A vector with an optional third number. *)
Definition same_vector (x y z : option Z) (v : vec3) : Prop := x = Some (x3 v) /\ y = Some (y3 v) /\ z3 v = or_default 0 z.
(** There is a speed and an acceleration exactly when there is metadata. *)
Definition same_motion (m : option metadata1) (speed acceleration : option vec3) : Prop :=
  match m with
  | None => speed = None /\ acceleration = None
  | Some m => exists s a, speed = Some s /\ acceleration = Some a /\
                same_vector (speed_x m) (speed_y m) (speed_z m) s /\ same_vector (accel_x m) (accel_y m) (accel_z m) a
  end.
(** There is a difficulty exactly when one of the two levels is set. *)
Definition same_difficulty (detection tracking : option Z) (d : option difficulty2) : Prop :=
  match detection, tracking with
  | None, None => d = None
  | _, _ => d = Some {| detection2 := or_default 0 detection; tracking2 := or_default 0 tracking |}
  end.

Definition key_laser (f : frame1) (l : label1) (k : laser_key) : Prop :=
  lk_segment k = or_default [] (f_context f) /\ lk_time k = or_default 0 (f_timestamp f) /\ lk_object k = or_default [] (l_id l).

Definition is_lidar_box (f : frame1) (l : label1) (c : lidar_box) : Prop :=
  (exists b, l_box l = Some b /\ same_box3 b (lb_box c)) /\ key_laser f l (lb_key c) /\
  lb_type c = or_default 0 (l_type l) /\ same_motion (l_metadata l) (lb_speed c) (lb_acceleration c) /\
  lb_points c = or_default 0 (l_points l) /\ lb_top_points c = or_default 0 (l_top_points l) /\
  same_difficulty (l_detection l) (l_tracking l) (lb_difficulty c).

(** The five cameras of version 2, and the unknown one. *)
Inductive camera : text -> Z -> Prop :=
| cam_unknown : camera (codes "UNKNOWN") 0
| cam_front : camera (codes "FRONT") 1
| cam_front_left : camera (codes "FRONT_LEFT") 2
| cam_front_right : camera (codes "FRONT_RIGHT") 3
| cam_side_left : camera (codes "SIDE_LEFT") 4
| cam_side_right : camera (codes "SIDE_RIGHT") 5.

Definition is_synced_box (f : frame1) (l : label1) (c : synced_box) : Prop :=
  (exists b, l_synced l = Some b /\ same_box3 b (sb_box c)) /\ key_laser f l (sb_key c) /\
  (exists name, l_camera l = Some name /\ camera name (sb_camera c)).

(** A camera label is seen with the name of the camera of its group. *)
Definition camera_label := (option Z * label1)%type.
Definition labels_of (cs : list camera_labels1) : list camera_label := flat_map (fun c => map (pair (cl_name c)) (cl_labels c)) cs.

Definition is_camera_box (f : frame1) (s : camera_label) (c : camera_box) : Prop :=
  (exists b, l_box (snd s) = Some b /\ same_box2 b (cb_box c)) /\
  ck_segment (cb_key c) = or_default [] (f_context f) /\ ck_time (cb_key c) = or_default 0 (f_timestamp f) /\
  ck_camera (cb_key c) = or_default 0 (fst s) /\ ck_object (cb_key c) = or_default [] (l_id (snd s)) /\
  cb_type c = or_default 0 (l_type (snd s)) /\ same_difficulty (l_detection (snd s)) (l_tracking (snd s)) (cb_difficulty c).

(** The id of a projected box: 22 characters, one more, and the name of a camera. *)
Definition projected_id (id object : text) (cam : Z) : Prop :=
  exists separator name, id = object ++ separator :: name /\ List.length object = 22%nat /\ camera name cam.
Definition underscore : nat := 95.
(** The id as documented: the id of the laser object, an underscore, and the name of the camera. *)
Definition documented_id (id object : text) (cam : Z) : Prop :=
  exists name, id = object ++ underscore :: name /\ camera name cam.

Definition is_projected_box (f : frame1) (l : label1) (c : projected_box) : Prop :=
  (exists b, l_box l = Some b /\ same_box2 b (pb_box c)) /\
  pk_segment (pb_key c) = or_default [] (f_context f) /\ pk_time (pb_key c) = or_default 0 (f_timestamp f) /\
  projected_id (or_default [] (l_id l)) (pk_object (pb_key c)) (pk_camera (pb_key c)) /\
  pb_type c = or_default 0 (l_type l).

Definition is_association (f : frame1) (s : camera_label) (k : association_key) : Prop :=
  (exists a, l_association (snd s) = Some a /\ ak_laser k = or_default [] a) /\
  ak_segment k = or_default [] (f_context f) /\ ak_time k = or_default 0 (f_timestamp f) /\
  ak_camera k = or_default 0 (fst s) /\ ak_object k = or_default [] (l_id (snd s)).

Definition has_box (l : label1) : bool := match l_box l with Some _ => true | None => false end.
Definition has_association (l : label1) : bool := match l_association l with Some _ => true | None => false end.
(** The name of a camera is set and not empty, and so is the box moved to its time. *)
Definition has_synced_box (l : label1) : bool :=
  match l_camera l, l_synced l with Some (_ :: _), Some _ => true | _, _ => false end.
Definition id_of (l : label1) : text := or_default [] (l_id l).
