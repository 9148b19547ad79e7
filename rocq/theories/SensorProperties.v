(** C120: keypoints, lidar data, segmentation and calibrations of version 1 as components of version 2. *)
From Verif Require Import Base ResultLib ExtractModel ExtractSpec SensorModel SensorSpec SensorProofs.
Open Scope list_scope.
Open Scope Z_scope.
(** The lists of a component are the columns of a table with one row for every keypoint, in order. *)
Theorem C120_camera_keypoints segment time camera l r : extract_camera_keypoints segment time camera l = Ok r <->
  ((forall ks, kl_keypoints l <> Some (CameraKeypoints ks)) /\ r = []) \/
  (exists ks h, kl_keypoints l = Some (CameraKeypoints ks) /\ camera_table ks h /\
     r = [({| ck_segment := segment; ck_time := time; ck_camera := camera; ck_object := or_default [] (kl_id l) |}, h)]).
Proof. exact (camera_keypoints_ok segment time camera l r). Qed.
Print Assumptions C120_camera_keypoints.
(** One keypoint without a required field stops it. *)
Theorem C120_camera_keypoints_error segment time camera l e : extract_camera_keypoints segment time camera l = Err e <->
  e = RuntimeError /\ exists ks k, kl_keypoints l = Some (CameraKeypoints ks) /\ In k ks /\ ~ complete_camera_point k.
Proof. exact (camera_keypoints_err segment time camera l e). Qed.
Print Assumptions C120_camera_keypoints_error.
(** The same for keypoints in space. *)
Theorem C120_lidar_keypoints segment time l r : extract_lidar_keypoints segment time l = Ok r <->
  ((forall ks, kl_keypoints l <> Some (LaserKeypoints ks)) /\ r = []) \/
  (exists ks h, kl_keypoints l = Some (LaserKeypoints ks) /\ laser_table ks h /\
     r = [({| lk_segment := segment; lk_time := time; lk_object := or_default [] (kl_id l) |}, h)]).
Proof. exact (lidar_keypoints_ok segment time l r). Qed.
Print Assumptions C120_lidar_keypoints.
Theorem C120_lidar_keypoints_error segment time l e : extract_lidar_keypoints segment time l = Err e <->
  e = RuntimeError /\ exists ks k, kl_keypoints l = Some (LaserKeypoints ks) /\ In k ks /\ ~ complete_laser_point k.
Proof. exact (lidar_keypoints_err segment time l e). Qed.
Print Assumptions C120_lidar_keypoints_error.
(** The lasers with data in one of the returns, in order, with what their bytes hold. *)
Theorem C120_lidar floats integers segment time lasers r : over_labels (extract_lidar floats integers segment time) lasers = Ok r <->
  Forall2 (is_returns floats r_range segment time) (filter (has_return r_range) lasers) r.
Proof. exact (lidar_components floats integers segment time lasers r). Qed.
Print Assumptions C120_lidar.
(** Camera projections. *)
Theorem C120_projection floats integers segment time lasers r : over_labels (extract_projection floats integers segment time) lasers = Ok r <->
  Forall2 (is_returns integers r_projection segment time) (filter (has_return r_projection) lasers) r.
Proof. exact (projection_components floats integers segment time lasers r). Qed.
Print Assumptions C120_projection.
(** Labels of the points. *)
Theorem C120_segmentation floats integers segment time lasers r : over_labels (extract_lidar_segmentation floats integers segment time) lasers = Ok r <->
  Forall2 (is_returns integers r_segmentation segment time) (filter (has_return r_segmentation) lasers) r.
Proof. exact (segmentation_components floats integers segment time lasers r). Qed.
Print Assumptions C120_segmentation.
(** Poses of the pixels: those of the first return. *)
Theorem C120_pose floats integers segment time lasers r : over_labels (extract_lidar_pose floats integers segment time) lasers = Ok r <->
  Forall2 (is_pose floats segment time) (filter has_pose lasers) r.
Proof. exact (pose_components floats integers segment time lasers r). Qed.
Print Assumptions C120_pose.
(** Their keys are distinct exactly when the lasers have distinct names. *)
Theorem C120_lidar_keys floats integers segment time lasers r : over_labels (extract_lidar floats integers segment time) lasers = Ok r ->
  (NoDup (map tr_key r) <-> NoDup (map (fun l => or_default 0 (la_name l)) (filter (has_return r_range) lasers))).
Proof. exact (lidar_component_keys floats integers segment time lasers r). Qed.
Print Assumptions C120_lidar_keys.
(** All components of one laser have one key. *)
Theorem C120_one_laser floats integers segment time l c p q : extract_lidar floats integers segment time l = Ok [c] -> extract_projection floats integers segment time l = Ok [p] ->
  extract_lidar_pose floats integers segment time l = Ok [q] -> tr_key c = tr_key p /\ fst q = tr_key c.
Proof. exact (same_laser floats integers segment time l c p q). Qed.
Print Assumptions C120_one_laser.
(** The segmentation of a camera image: the mapping is a table with one row per instance. *)
Theorem C120_camera_segmentation segment time camera label : extract_segmentation segment time camera label =
  match label with
  | None => []
  | Some s =>
      [ {| s2_key := {| sk_segment := segment; sk_time := time; sk_name := or_default 0 camera |}; s2_divisor := or_default 0 (sg_divisor s);
           s2_label := or_default [] (sg_label s); s2_local := map (fun m => or_default 0 (mp_local m)) (sg_mapping s);
           s2_global := map (fun m => or_default 0 (mp_global m)) (sg_mapping s);
           s2_tracked := map (fun m => or_default false (mp_tracked m)) (sg_mapping s);
           s2_sequence := or_default [] (sg_sequence s); s2_covered := or_default [] (sg_covered s) |} ]
  end.
Proof. exact (camera_segmentation segment time camera label). Qed.
Print Assumptions C120_camera_segmentation.
(** The nine numbers of a camera. *)
Theorem C120_intrinsic v i : get_intrinsic v = Ok i <-> nine v i.
Proof. exact (intrinsic_ok v i). Qed.
Print Assumptions C120_intrinsic.
(** Fewer numbers are refused. *)
Theorem C120_intrinsic_error v e : get_intrinsic v = Err e <-> e = IndexError /\ (List.length v < 9)%nat.
Proof. exact (intrinsic_err v e). Qed.
Print Assumptions C120_intrinsic_error.
(** The inclinations can be read back. *)
Theorem C120_inclination least most values : in_min (get_inclination least most values) = or_default 0 least /\ in_max (get_inclination least most values) = or_default 0 most /\
  or_default [] (in_values (get_inclination least most values)) = values /\
  (in_values (get_inclination least most values) = None <-> values = []).
Proof. exact (inclination_back least most values). Qed.
Print Assumptions C120_inclination.
(** So can the counts of objects. *)
Theorem C120_counts l : parse_object_counts l = (if (List.length l =? 0)%nat then None
                           else Some (map (fun p => or_default 0 (fst p)) l, map (fun p => or_default 0 (snd p)) l)).
Proof. exact (counts_back l). Qed.
Print Assumptions C120_counts.
(** The position in space of a camera keypoint is dropped. *)
Theorem C120_spatial_refuted : exists segment time camera k k' r,
  ckp_3d k = None /\ ckp_3d k' <> None /\
  extract_camera_keypoints segment time camera (key_label [k]) = Ok r /\ extract_camera_keypoints segment time camera (key_label [k']) = Ok r.
Proof. exact (spatial_refuted ). Qed.
Print Assumptions C120_spatial_refuted.
(** A position without numbers is not refused. *)
Theorem C120_position_refuted : exists segment time camera p key h,
  option_map v2_x (location_px p) = Some None /\
  extract_camera_keypoints segment time camera (key_label [nose p None]) = Ok [(key, h)] /\ ch_x h = [0].
Proof. exact (position_refuted ). Qed.
Print Assumptions C120_position_refuted.
(** No keypoints are not the same as no component. *)
Theorem C120_empty_refuted : exists segment time camera key h,
  extract_camera_keypoints segment time camera (key_label []) = Ok [(key, h)] /\ ch_type h = [].
Proof. exact (empty_refuted ). Qed.
Print Assumptions C120_empty_refuted.
(** Poses of the second return are dropped. *)
Theorem C120_second_pose_refuted : exists floats integers segment time l,
  or_default [] (r_pose (la_return2 l)) <> [] /\ extract_lidar_pose floats integers segment time l = Ok [].
Proof. exact (second_pose_refuted ). Qed.
Print Assumptions C120_second_pose_refuted.

Example C120_keypoints_nonvacuous : exists key h, extract_camera_keypoints [] 5 1 (key_label [nose point_2d None; nose point_2d (Some point_3d)]) = Ok [(key, h)] /\
  ch_x h = [5; 5] /\ ch_occluded h = [true; true].
Proof. do 2 eexists. split; vm_compute; auto. Qed.
Example C120_laser_keypoints_nonvacuous : exists key h,
  extract_lidar_keypoints [] 5 {| kl_id := None; kl_keypoints := Some (LaserKeypoints [{| lkp_type := Some 1; lkp_3d := Some point_3d |}]) |} = Ok [(key, h)] /\ lh_z h = [3].
Proof. do 2 eexists. split; vm_compute; auto. Qed.
Definition ex_returns (b : bytes) : returns1 := {| r_range := Some b; r_projection := Some b; r_pose := Some b; r_segmentation := None |}.
Definition ex_laser (n : Z) (a b : bytes) : laser1 := {| la_name := Some n; la_return1 := ex_returns a; la_return2 := ex_returns b |}.
Definition ex_decode (b : bytes) : result (list Z * list Z) := Ok (b, [Z.of_nat (List.length b)]).
(** The second laser has no data. *)
Example C120_lidar_nonvacuous : exists c d, over_labels (extract_lidar ex_decode ex_decode [] 5) [ex_laser 1 [7] []; ex_laser 2 [] []; ex_laser 3 [] [8]] = Ok [c; d] /\
  sk_name (tr_key d) = 3 /\ tr_first d = None.
Proof. do 2 eexists. split; vm_compute; auto. Qed.
Example C120_one_laser_nonvacuous : exists c p q, extract_lidar ex_decode ex_decode [] 5 (ex_laser 1 [7] []) = Ok [c] /\
  extract_projection ex_decode ex_decode [] 5 (ex_laser 1 [7] []) = Ok [p] /\ extract_lidar_pose ex_decode ex_decode [] 5 (ex_laser 1 [7] []) = Ok [q].
Proof. do 3 eexists. repeat split; vm_compute; reflexivity. Qed.
Example C120_intrinsic_nonvacuous : exists i, get_intrinsic [1; 2; 3; 4; 5; 6; 7; 8; 9] = Ok i /\ k3 i = 9.
Proof. eexists. split; vm_compute; auto. Qed.
