(** Lidar range images, frames and points: property theorems only. *)
From Coq Require Import Reals List ZArith Permutation.
From Verif Require Import Base ResultLib FrameModel FrameSpec LidModel LidSpec LidImages LidBeams LidReturn LidParse LidFrames LidVersions LidFacts.
Import ListNotations.
Open Scope R_scope.

(** ** C89: where the pixels of a range image are *)
Theorem C89_points : forall ri e incl fp w psi, rectangle w ri -> mounted e psi ->
  (forall pts, extract_point_cloud ri e incl None fp = Ok pts ->
     length incl = length ri /\ same_shape ri pts /\
     forall r c x i, nth_error incl r = Some i -> pixel_at ri r c = Some x -> pixel_at pts r c = Some (beam_end e psi w c i x)) /\
  ((exists pts, extract_point_cloud ri e incl None fp = Ok pts) <-> length incl = length ri).
Proof. exact extract_plain. Qed.
Print Assumptions C89_points.
Theorem C89_moving_points : forall ri e incl poses f w psi, rectangle w ri -> mounted e psi ->
  (forall pts, extract_point_cloud ri e incl (Some poses) (Some f) = Ok pts ->
     same_shape ri pts /\
     forall r c x i t, nth_error incl r = Some i -> pixel_at ri r c = Some x -> pixel_at poses r c = Some t ->
       exists p, pixel_at pts r c = Some p /\ world f p = world t (beam_end e psi w c i x) /\
         forall q, world f q = world t (beam_end e psi w c i x) -> q = p) /\
  ((exists pts, extract_point_cloud ri e incl (Some poses) (Some f) = Ok pts) <->
   length incl = length ri /\ same_shape poses ri /\ ~ singular (rotation f)).
Proof. exact extract_posed. Qed.
Print Assumptions C89_moving_points.
Theorem C89_mounting : forall e, exists psi, mounted e psi.
Proof. intros e. exists (az_correction e). exact (mounted_exists e). Qed.
Print Assumptions C89_mounting.
Theorem C89_distance : forall e psi w c i x, proper (rotation e) -> square_distance (beam_end e psi w c i x) (translation e) = x * x.
Proof. exact beam_distance. Qed.
Print Assumptions C89_distance.
Theorem C89_level : forall t psi w c i x, mounted {| rotation := get_yaw_rotation psi; translation := t |} psi /\
  beam_end {| rotation := get_yaw_rotation psi; translation := t |} psi w c i x = add3 (times x (direction (bearing w c) i)) t.
Proof. intros t psi w c i x. exact (conj (yaw_mounted t psi) (beam_level t psi w c i x)). Qed.
Print Assumptions C89_level.
Theorem C89_still : forall ri e incl poses f pts w, rectangle w ri -> extract_point_cloud ri e incl None None = Ok pts ->
  same_shape poses ri -> (forall r c t, pixel_at poses r c = Some t -> t = f) -> ~ singular (rotation f) ->
  extract_point_cloud ri e incl (Some poses) (Some f) = Ok pts.
Proof. exact extract_still. Qed.
Print Assumptions C89_still.
Theorem C89_no_frame_pose : forall ri e incl poses, length incl = length ri -> extract_point_cloud ri e incl (Some poses) None = Err ValueError.
Proof. exact extract_unposed_frame. Qed.
Print Assumptions C89_no_frame_pose.
Theorem C89_pixel_pose : forall v, (forall t, pixel_transform v = Ok t -> forall p, moved v p (world t p)) /\ ((exists t, pixel_transform v = Ok t) <-> length v = 6%nat).
Proof. intros v. exact (conj (pixel_transform_ok v) (pixel_transform_exists v)). Qed.
Print Assumptions C89_pixel_pose.
Theorem C89_uniform_rows : forall lo hi h, lo <= hi ->
  length (compute_inclination lo hi h) = h /\
  (forall k x, nth_error (compute_inclination lo hi h) k = Some x -> lo <= x <= hi /\ x - lo = (2 * INR k + 1) * ((hi - lo) / (2 * INR h))) /\
  (lo < hi -> forall j k x y, (j < k)%nat -> nth_error (compute_inclination lo hi h) j = Some x -> nth_error (compute_inclination lo hi h) k = Some y -> x < y).
Proof. exact uniform_inclinations. Qed.
Print Assumptions C89_uniform_rows.
Theorem C89_hits : forall ranges, all_hits ranges (where_positive ranges).
Proof. exact where_hits. Qed.
Print Assumptions C89_hits.
Theorem C89_gathered : forall A (t : list (list A)) index out, gather t index = Ok out <->
  Forall2 (fun rc v => pixel_at t (fst rc) (snd rc) = Some v) index out.
Proof. intros A. exact gather_ok. Qed.
Print Assumptions C89_gathered.
Example C89_case : rectangle 2 [[5; 0]] /\ mounted (turned 0) 0 /\ extract_point_cloud [[5; 0]] (turned 0) [0] None None = Ok [[(0, 5, 0); (0, 0, 0)]].
Proof. split; [repeat constructor|]. split; [apply yaw_mounted | exact example_points]. Qed.

(** ** C90: from points back to range images *)
Theorem C90_defined : forall points n e incl w psi, ~ singular (rotation e) -> (0 < w)%nat -> incl <> [] -> facing e psi ->
  (exists im, build_range_image points n e incl w = Ok im) <->
  forall p q a, In p points -> sensed e p q -> azimuth_of q a -> ~ (Nat.Even w /\ a + psi = - PI).
Proof. exact image_defined. Qed.
Print Assumptions C90_defined.
Theorem C90_content : forall points n e incl w psi im, ~ singular (rotation e) -> (0 < w)%nat -> facing e psi -> build_range_image points n e incl w = Ok im ->
  length im = (length incl * w)%nat /\
  exists pixels, length pixels = length points /\
    (forall j p, nth_error points j = Some p -> exists r c d, nth_error pixels j = Some (Z.of_nat r, Z.of_nat c, d) /\ (r < length incl)%nat /\ (c < w)%nat /\ 0 <= d /\
       forall q a b, sensed e p q -> azimuth_of q a -> inclination_of q b -> first_closest incl b r /\ in_column w (a + psi) c /\ d * d = dot3 q q) /\
    forall r c, (r < length incl)%nat -> (c < w)%nat -> exists x, nth_error im (r * w + c) = Some x /\ nearest_or_zero (firstn n pixels) (Z.of_nat r, Z.of_nat c) x.
Proof. exact image_content. Qed.
Print Assumptions C90_content.
Theorem C90_round_trip : forall ri e incl w pts points n, proper (rotation e) -> rectangle w ri -> (0 < w)%nat -> NoDup incl ->
  (forall i, In i incl -> - (PI / 2) < i < PI / 2) ->
  extract_point_cloud ri e incl None None = Ok pts -> gather pts (where_positive ri) = Ok points -> (length points <= n)%nat ->
  exists im, build_range_image points n e incl w = Ok im /\ length im = (length incl * w)%nat /\
    forall r c x, pixel_at ri r c = Some x -> nth_error im (r * w + c) = Some (Rmax x 0).
Proof. exact image_returns. Qed.
Print Assumptions C90_round_trip.
Theorem C90_singular : forall e incl w p, singular (rotation e) -> pixel_of_point e incl w p = Err RuntimeError.
Proof. exact pixel_singular. Qed.
Print Assumptions C90_singular.
(** A point straight behind the vehicle is refused by a lidar that looks to the right. *)
Theorem C90_seam_refuted : exists points n e incl w, proper (rotation e) /\ (0 < w)%nat /\ incl <> [] /\ build_range_image points n e incl w = Err ValueError.
Proof.
  exists [(-1, 0, 0)], 1%nat, (turned (- (PI / 2))), [0], 2%nat. split; [apply turned_proper|]. split; [repeat constructor|]. split; [discriminate | exact seam_lost].
Qed.
Print Assumptions C90_seam_refuted.
Example C90_case : proper (rotation (turned 0)) /\ ~ singular (rotation (turned 0)) /\ facing (turned 0) 0 /\ NoDup [0] /\
  extract_point_cloud [[5; 0]] (turned 0) [0] None None = Ok [[(0, 5, 0); (0, 0, 0)]].
Proof.
  split; [apply turned_proper|]. split; [apply FrameProofs.proper_not_singular, turned_proper|]. split; [apply turned_facing; pose proof PI_RGT_0; split; [apply Ropp_lt_gt_0_contravar; assumption | now apply Rlt_le]|].
  split; [repeat constructor; intros [] | exact example_points].
Qed.

(** ** C91: frames *)
Theorem C91_parse_defined : forall f, distinct_lasers f ->
  ((exists p, parse_frame f = Ok p) <-> Forall in_sequence (lasers f)) /\ (~ Forall in_sequence (lasers f) -> parse_frame f = Err KeyError).
Proof. exact parse_defined. Qed.
Print Assumptions C91_parse_defined.
Theorem C91_parse_content : forall f p, distinct_lasers f -> parse_frame f = Ok p ->
  (forall l, In l (lasers f) ->
     get (range_images p) (laser_name l) = match returns range_image l with [] => None | _ => Some (returns range_image l) end /\
     get (camera_projections p) (laser_name l) = match projections l with [] => None | _ => Some (projections l) end /\
     get (seg_labels p) (laser_name l) = match returns segmentation_label l with [] => None | _ => Some (returns segmentation_label l) end) /\
  (forall n, ~ In n (map laser_name (lasers f)) -> get (range_images p) n = None /\ get (camera_projections p) n = None /\ get (seg_labels p) n = None) /\
  (forall l ri, In l (lasers f) -> laser_name l = TOP -> range_image (ri_return1 l) = Some ri -> range_image_top_pose p = decode (range_image_pose (ri_return1 l))) /\
  ((forall l, In l (lasers f) -> laser_name l = TOP -> range_image (ri_return1 l) = None) -> range_image_top_pose p = no_matrix).
Proof. exact parse_content. Qed.
Print Assumptions C91_parse_content.
Theorem C91_cartesian : forall f p k keep, distinct_lasers f -> parse_frame f = Ok p ->
  ((exists out, convert_range_image_to_cartesian f (range_images p) (range_image_top_pose p) k keep = Ok out) <->
   exists top, top_poses f top /\ pose_image top /\ forall c, In c (laser_calibrations f) -> exists ri, image_of f k (calib_name c) ri /\ fits f top c ri) /\
  forall out, convert_range_image_to_cartesian f (range_images p) (range_image_top_pose p) k keep = Ok out ->
    (forall n, ~ In n (map calib_name (laser_calibrations f)) -> get out n = None) /\
    (distinct_calibrations f -> forall c, In c (laser_calibrations f) ->
       exists top ri img, top_poses f top /\ image_of f k (calib_name c) ri /\ get out (calib_name c) = Some img /\ cartesian_image f top c ri keep img).
Proof. exact frame_cartesian. Qed.
Print Assumptions C91_cartesian.
Theorem C91_point_clouds : forall f p k keep, distinct_lasers f -> distinct_calibrations f -> parse_frame f = Ok p ->
  ((exists out, convert_range_image_to_point_cloud f (range_images p) (camera_projections p) (range_image_top_pose p) k keep = Ok out) <->
   exists top, top_poses f top /\ pose_image top /\ forall c, In c (laser_calibrations f) ->
     exists ri cp, image_of f k (calib_name c) ri /\ fits f top c ri /\ projection_of f k (calib_name c) cp /\ covers cp ri) /\
  forall points cps, convert_range_image_to_point_cloud f (range_images p) (camera_projections p) (range_image_top_pose p) k keep = Ok (points, cps) ->
    exists cs top, Permutation cs (laser_calibrations f) /\ ordered cs /\ top_poses f top /\ length points = length cs /\ length cps = length cs /\
      forall j c, nth_error cs j = Some c -> exists ri cp pts ps, image_of f k (calib_name c) ri /\ projection_of f k (calib_name c) cp /\
        nth_error points j = Some pts /\ nth_error cps j = Some ps /\ lidar_cloud f top c ri cp keep pts ps.
Proof. exact frame_clouds. Qed.
Print Assumptions C91_point_clouds.
Theorem C91_dictionary : forall f, distinct_lasers f -> distinct_calibrations f ->
  ((exists d, lidar_dict f = Ok d) <->
   Forall in_sequence (lasers f) /\ exists top, top_poses f top /\ pose_image top /\ forall c, In c (laser_calibrations f) ->
     exists ri1 ri2 cp1 cp2, image_of f 0 (calib_name c) ri1 /\ image_of f 1 (calib_name c) ri2 /\ fits f top c ri1 /\ fits f top c ri2 /\
       projection_of f 0 (calib_name c) cp1 /\ projection_of f 1 (calib_name c) cp2 /\ an_image cp1 /\ an_image cp2) /\
  forall d, lidar_dict f = Ok d ->
    (forall n, ~ In n (map calib_name (laser_calibrations f)) -> get d n = None) /\
    exists top, top_poses f top /\ forall c, In c (laser_calibrations f) ->
      exists ri1 ri2 cp1 cp2 e, image_of f 0 (calib_name c) ri1 /\ image_of f 1 (calib_name c) ri2 /\ projection_of f 0 (calib_name c) cp1 /\ projection_of f 1 (calib_name c) cp2 /\
        get d (calib_name c) = Some e /\ lidar_entry f top c ri1 ri2 cp1 cp2 e.
Proof. exact lidar_dict_spec. Qed.
Print Assumptions C91_dictionary.
Theorem C91_topless : forall f p k keep, distinct_lasers f -> parse_frame f = Ok p -> (forall l, laser_of f TOP l -> range_image (ri_return1 l) = None) ->
  convert_range_image_to_cartesian f (range_images p) (range_image_top_pose p) k keep = Err ValueError /\
  convert_range_image_to_point_cloud f (range_images p) (camera_projections p) (range_image_top_pose p) k keep = Err ValueError.
Proof. exact frame_topless. Qed.
Print Assumptions C91_topless.
Theorem C91_side_lidars_refuted : exists f p, distinct_lasers f /\ distinct_calibrations f /\ parse_frame f = Ok p /\ laser_calibrations f <> [] /\
  (forall c, In c (laser_calibrations f) -> exists ri cp, image_of f 0 (calib_name c) ri /\ (forall top, fits f top c ri) /\ projection_of f 0 (calib_name c) cp /\ covers cp ri) /\
  forall keep, convert_range_image_to_point_cloud f (range_images p) (camera_projections p) (range_image_top_pose p) 0 keep = Err ValueError.
Proof. exact side_refused. Qed.
Print Assumptions C91_side_lidars_refuted.
Example C91_case : distinct_lasers two_lidars /\ distinct_calibrations two_lidars /\
  (exists p out, parse_frame two_lidars = Ok p /\ convert_range_image_to_point_cloud two_lidars (range_images p) (camera_projections p) (range_image_top_pose p) 0 false = Ok out) /\
  exists d, lidar_dict two_lidars = Ok d.
Proof. exact (conj (proj1 two_distinct) (conj (proj1 (proj2 two_distinct)) (conj two_clouds two_dict))). Qed.

(** ** C92: the second version of the data and the motion data *)
Theorem C92_image : forall f top c ri keep, (calib_name c = TOP -> pose_image top) ->
  ((exists img, v2_cartesian ri (calibration_component c) (needs c top) (needs c (vehicle_pose f)) keep = Ok img) <-> fits f top c ri) /\
  forall img, v2_cartesian ri (calibration_component c) (needs c top) (needs c (vehicle_pose f)) keep = Ok img -> cartesian_image f top c ri keep img.
Proof. exact v2_defined. Qed.
Print Assumptions C92_image.
Theorem C92_points : forall f top c ri keep, (calib_name c = TOP -> pose_image top) ->
  ((exists pts, v2_point_cloud ri (calibration_component c) (needs c top) (needs c (vehicle_pose f)) keep = Ok pts) <-> fits f top c ri) /\
  forall pts, v2_point_cloud ri (calibration_component c) (needs c top) (needs c (vehicle_pose f)) keep = Ok pts ->
    exists hits, hits_of ri hits /\ Forall2 (fun rc v => lidar_pixel f top c ri keep (fst rc) (snd rc) v) hits pts.
Proof. exact v2_cloud_spec. Qed.
Print Assumptions C92_points.
Theorem C92_same_clouds : forall f images projections top k keep points cps, distinct_calibrations f ->
  convert_range_image_to_point_cloud f images projections top k keep = Ok (points, cps) ->
  exists cs, Permutation cs (laser_calibrations f) /\ ordered cs /\ forall j c, nth_error cs j = Some c -> exists ri cp pts ps,
    fetch images (calib_name c) k = Ok ri /\ fetch projections (calib_name c) k = Ok cp /\ nth_error points j = Some pts /\ nth_error cps j = Some ps /\
    v2_point_cloud ri (calibration_component c) (needs c top) (needs c (vehicle_pose f)) keep = Ok pts /\ v2_camera_projection ri cp = Ok ps.
Proof.
  intros f images projections top k keep points cps D E. exists (sort (laser_calibrations f)).
  exact (conj (sort_perm _) (conj (sort_ordered _) (v2_clouds f images projections top k keep points cps D E))).
Qed.
Print Assumptions C92_same_clouds.
Theorem C92_frame_pose : forall ri c pp keep, v2_cartesian ri c (Some pp) None keep = Err AssertionError /\ v2_point_cloud ri c (Some pp) None keep = Err AssertionError.
Proof. exact v2_no_frame_pose. Qed.
Print Assumptions C92_frame_pose.
Theorem C92_laser : forall ls n, NoDup (map laser_name ls) ->
  (forall l, get_laser_by_name ls n = Ok l <-> In l ls /\ laser_name l = n) /\ (get_laser_by_name ls n = Err ValueError <-> ~ In n (map laser_name ls)).
Proof. exact v2_laser. Qed.
Print Assumptions C92_laser.
Theorem C92_motion_side : forall m1 m2 ri1 ri2 c, tensor m1 = Ok (womd_image ri1) -> tensor m2 = Ok (womd_image ri2) ->
  ((exists o, extract_side_lidar_points ri1 ri2 c = Ok o) <->
   (exists p1, v2_point_cloud m1 (calibration_component c) None None true = Ok p1) /\ exists p2, v2_point_cloud m2 (calibration_component c) None None true = Ok p2) /\
  forall x1 f1 x2 f2 p1 p2, extract_side_lidar_points ri1 ri2 c = Ok (x1, f1, x2, f2) ->
    v2_point_cloud m1 (calibration_component c) None None true = Ok p1 -> v2_point_cloud m2 (calibration_component c) None None true = Ok p2 -> joined f1 x1 p1 /\ joined f2 x2 p2.
Proof. exact womd_side. Qed.
Print Assumptions C92_motion_side.
Theorem C92_motion_top : forall m1 m2 top ri1 ri2 fp c, tensor m1 = Ok (womd_image ri1) -> tensor m2 = Ok (womd_image ri2) -> tensor top = Ok (womd_pose ri1) -> beam_inclinations c <> [] ->
  ((exists o, extract_top_lidar_points ri1 ri2 fp c = Ok o) <->
   (exists p1, v2_point_cloud m1 (calibration_component c) (Some top) (Some fp) true = Ok p1) /\ exists p2, v2_point_cloud m2 (calibration_component c) (Some top) (Some fp) true = Ok p2) /\
  forall x1 f1 x2 f2 p1 p2, extract_top_lidar_points ri1 ri2 fp c = Ok (x1, f1, x2, f2) ->
    v2_point_cloud m1 (calibration_component c) (Some top) (Some fp) true = Ok p1 -> v2_point_cloud m2 (calibration_component c) (Some top) (Some fp) true = Ok p2 -> joined f1 x1 p1 /\ joined f2 x2 p2.
Proof. exact womd_top. Qed.
Print Assumptions C92_motion_top.
Theorem C92_motion_top_unlisted : forall ri1 ri2 fp c, beam_inclinations c = [] -> exists e, extract_top_lidar_points ri1 ri2 fp c = Err e.
Proof. exact womd_top_unlisted. Qed.
Print Assumptions C92_motion_top_unlisted.
Theorem C92_motion_top_refuted : exists m top ri fp c pts, tensor m = Ok (womd_image ri) /\ tensor top = Ok (womd_pose ri) /\
  v2_point_cloud m (calibration_component c) (Some top) (Some fp) true = Ok pts /\ extract_top_lidar_points ri ri fp c = Err RuntimeError.
Proof. exact top_refused. Qed.
Print Assumptions C92_motion_top_refuted.
Example C92_case : exists m top ri fp c o, tensor m = Ok (womd_image ri) /\ tensor top = Ok (womd_pose ri) /\ beam_inclinations c <> [] /\ extract_top_lidar_points ri ri fp c = Ok o.
Proof. exact top_accepted. Qed.

(** ** C93: sensor data of a scenario *)
Theorem C93_lidar : forall M L T (s d : scenario M L T),
  motion (augment_with_lidar s d) = motion s /\ frame_camera_tokens (augment_with_lidar s d) = frame_camera_tokens s /\
  compressed_frame_laser_data (augment_with_lidar s d) = compressed_frame_laser_data s ++ compressed_frame_laser_data d.
Proof. intros M L T. exact augment_content. Qed.
Print Assumptions C93_lidar.
Theorem C93_tokens : forall M L T (s d : scenario M L T),
  motion (add_camera_tokens s d) = motion s /\ compressed_frame_laser_data (add_camera_tokens s d) = compressed_frame_laser_data s /\
  frame_camera_tokens (add_camera_tokens s d) = frame_camera_tokens s ++ frame_camera_tokens d.
Proof. intros M L T. exact tokens_content. Qed.
Print Assumptions C93_tokens.
Theorem C93_any_order : forall M L T (s d e : scenario M L T), add_camera_tokens (augment_with_lidar s d) e = augment_with_lidar (add_camera_tokens s e) d.
Proof. intros M L T. exact augment_commutes. Qed.
Print Assumptions C93_any_order.
Theorem C93_twice : forall M L T (s d : scenario M L T),
  augment_with_lidar (augment_with_lidar s d) d = augment_with_lidar s d <-> compressed_frame_laser_data d = [].
Proof. intros M L T. exact augment_twice. Qed.
Print Assumptions C93_twice.
Theorem C93_codebook : forall E (codebook : list E) tokens,
  ((exists out, get_camera_embedding codebook tokens = Ok out) <-> tokens <> [] /\ Forall (in_codebook codebook) tokens) /\
  (~ (tokens <> [] /\ Forall (in_codebook codebook) tokens) -> get_camera_embedding codebook tokens = Err ValueError) /\
  forall out, get_camera_embedding codebook tokens = Ok out -> Forall2 (fun t v => nth_error codebook (Z.to_nat t) = Some v) tokens out.
Proof. intros E. exact codebook_spec. Qed.
Print Assumptions C93_codebook.
Example C93_case : get_camera_embedding [10; 20; 30]%Z [2; 0; 2]%Z = Ok [30; 10; 30]%Z /\ get_camera_embedding [10; 20; 30]%Z [3; 0]%Z = Err ValueError /\
  compressed_frame_laser_data (augment_with_lidar {| motion := tt; compressed_frame_laser_data := [1]; frame_camera_tokens := [7] |}%Z {| motion := tt; compressed_frame_laser_data := [2; 3]; frame_camera_tokens := [] |}%Z) = [1; 2; 3]%Z.
Proof. repeat split. Qed.
