(** What the extraction of keypoints, lidar data and calibrations should give, said on the messages. *)
From Verif Require Import Base ExtractModel ExtractSpec SensorModel.
Open Scope list_scope.
Open Scope Z_scope.

(** One keypoint on an image: everything required is set, and the row holds it. *)
Record row2 := { r2_type : Z; r2_x : Z; r2_y : Z; r2_occluded : bool }.
Definition camera_point (k : camera_keypoint) (r : row2) : Prop :=
  ckp_type k = Some (r2_type r) /\
  exists v o, option_map location_px (ckp_2d k) = Some (Some v) /\ option_map visibility2 (ckp_2d k) = Some (Some o) /\
    r2_x r = or_default 0 (v2_x v) /\ r2_y r = or_default 0 (v2_y v) /\ r2_occluded r = or_default false o.
(** The lists of a component are the columns of a table with one row for every keypoint. *)
Definition camera_table (ks : list camera_keypoint) (h : camera_hkp) : Prop :=
  exists rows, Forall2 camera_point ks rows /\ ch_type h = map r2_type rows /\ ch_x h = map r2_x rows /\ ch_y h = map r2_y rows /\
    ch_occluded h = map r2_occluded rows.
Definition complete_camera_point (k : camera_keypoint) : Prop :=
  ckp_type k <> None /\ exists p, ckp_2d k = Some p /\ location_px p <> None /\ visibility2 p <> None.

(** One keypoint in space. *)
Record row3 := { r3_type : Z; r3_x : Z; r3_y : Z; r3_z : Z; r3_occluded : bool }.
Definition laser_point (k : laser_keypoint) (r : row3) : Prop :=
  lkp_type k = Some (r3_type r) /\
  exists v o, option_map location_m (lkp_3d k) = Some (Some v) /\ option_map visibility3 (lkp_3d k) = Some (Some o) /\
    r3_x r = or_default 0 (v3_x v) /\ r3_y r = or_default 0 (v3_y v) /\ r3_z r = or_default 0 (v3_z v) /\ r3_occluded r = or_default false o.
Definition laser_table (ks : list laser_keypoint) (h : lidar_hkp) : Prop :=
  exists rows, Forall2 laser_point ks rows /\ lh_type h = map r3_type rows /\ lh_x h = map r3_x rows /\ lh_y h = map r3_y rows /\
    lh_z h = map r3_z rows /\ lh_occluded h = map r3_occluded rows.
Definition complete_laser_point (k : laser_keypoint) : Prop :=
  lkp_type k <> None /\ exists p, lkp_3d k = Some p /\ location_m p <> None /\ visibility3 p <> None.

(** What some bytes hold: nothing when there are none, and otherwise what the decoder gives. *)
Definition holds (decode : bytes -> result (list Z * list Z)) (b : option bytes) (i : option image2) : Prop :=
  (or_default [] b = [] /\ i = None) \/
  (or_default [] b <> [] /\ exists values shape, decode (or_default [] b) = Ok (values, shape) /\ i = Some {| im_values := values; im_shape := shape |}).
(** One of the returns has bytes. *)
Definition has_return (field : returns1 -> option bytes) (l : laser1) : bool :=
  match or_default [] (field (la_return1 l)), or_default [] (field (la_return2 l)) with [], [] => false | _, _ => true end.
Definition is_returns (decode : bytes -> result (list Z * list Z)) (field : returns1 -> option bytes) (segment : text) (time : Z)
    (l : laser1) (c : two_returns) : Prop :=
  has_return field l = true /\ tr_key c = {| sk_segment := segment; sk_time := time; sk_name := or_default 0 (la_name l) |} /\
  holds decode (field (la_return1 l)) (tr_first c) /\ holds decode (field (la_return2 l)) (tr_second c).
Definition has_pose (l : laser1) : bool := match or_default [] (r_pose (la_return1 l)) with [] => false | _ => true end.
Definition is_pose (decode : bytes -> result (list Z * list Z)) (segment : text) (time : Z) (l : laser1) (c : sensor_key * image2) : Prop :=
  fst c = {| sk_segment := segment; sk_time := time; sk_name := or_default 0 (la_name l) |} /\ holds decode (r_pose (la_return1 l)) (Some (snd c)).

(** The nine numbers of an intrinsic, in order; further numbers are left out. *)
Definition nine (v : list Z) (i : intrinsic2) : Prop :=
  exists rest, v = [f_u i; f_v i; c_u i; c_v i; k1 i; k2 i; p1 i; p2 i; k3 i] ++ rest.
