(** C124: wireframes of keypoints, and crops. *)
From Coq Require Import String Qround.
From Verif Require Import Base KpModel KpDrawModel KpDrawSpec KpDrawProofs KpCropProofs.
Open Scope list_scope.
Open Scope Z_scope.
(** The last keypoint of a type is unique. *)
Theorem C124_latest ks t a b : latest ks t a -> latest ks t b -> a = b.
Proof. exact (latest_unique ks t a b). Qed.
Print Assumptions C124_latest.
(** Every type present is listed, once. *)
Theorem C124_types ks : NoDup (types_of [] ks) /\ forall t, In t (types_of [] ks) <-> present ks t.
Proof. exact (types_spec ks). Qed.
Print Assumptions C124_types.
(** A wireframe has one dot for each type and the lines of each edge. *)
Theorem C124_shows d ks c : same_dim d ks -> Forall (drawable_type c) (types_of [] ks) -> Forall (drawable_edge ks c) (edges c) ->
  exists w parts, build_wireframe ks c = Ok w /\ Forall2 (dot_shows ks c) (types_of [] ks) (dots w)
    /\ lines w = concat parts /\ Forall2 (edge_shows d ks c) (edges c) parts.
Proof. exact (wireframe_shows d ks c). Qed.
Print Assumptions C124_shows.
(** Exactly when a wireframe is built. *)
Theorem C124_outcome d ks c : same_dim d ks ->
  ((exists w, build_wireframe ks c = Ok w) <-> Forall (drawable_type c) (types_of [] ks) /\ Forall (drawable_edge ks c) (edges c)).
Proof. exact (wireframe_outcome d ks c). Qed.
Print Assumptions C124_outcome.
(** With the default configurations: exactly when every type is one of the fifteen. *)
Theorem C124_default d ks c : same_dim d ks -> c = camera_config \/ c = laser_config ->
  ((exists w, build_wireframe ks c = Ok w) <-> forall k, In k ks -> In (kp_type k) known_types).
Proof. exact (default_outcome d ks c). Qed.
Print Assumptions C124_default.
(** Otherwise KeyError. *)
Theorem C124_default_error d ks c : same_dim d ks -> c = camera_config \/ c = laser_config -> (exists k, In k ks /\ ~ In (kp_type k) known_types) ->
  build_wireframe ks c = Err KeyError.
Proof. exact (default_error d ks c). Qed.
Print Assumptions C124_default_error.
(** Drawing a laser wireframe needs a dot. *)
Theorem C124_laser w : (dots w <> [] -> exists ts, draw_laser_wireframe w = Ok ts /\ List.length ts = S (List.length (lines w))) /\ (dots w = [] -> draw_laser_wireframe w = Err ValueError).
Proof. exact (laser_drawn w). Qed.
Print Assumptions C124_laser.
(** What is drawn: each line, then all dots. *)
Theorem C124_traces : forall w ts, draw_laser_wireframe w = Ok ts ->
  exists ls ds, ts = ls ++ [DotTrace ds] /\ Forall2 (fun l t => t = LineTrace (l_start l) (l_end l) (l_color l) (l_width l)) (lines w) ls
    /\ Forall2 (fun d x => x = (d_location d, d_name d, d_color d, d_size d, actual_border_color d)) (dots w) ds.
Proof. exact (laser_traces ). Qed.
Print Assumptions C124_traces.
(** The default edges, by the names of their points. *)
Theorem C124_skeletons : skeleton "FOREHEAD" (edges camera_config) /\ skeleton "HEAD_CENTER" (edges laser_config).
Proof. exact (default_skeletons ). Qed.
Print Assumptions C124_skeletons.
(** The default sizes. *)
Theorem C124_sizes : forall t, In t known_types -> exists s, entry default_point_sizes t = Some s /\ (0 < s <= 1)%Q /\ entry default_point_sizes (mirror t) = Some s
  /\ ((s == 1)%Q <-> t = 8 \/ t = 16).
Proof. exact (default_sizes ). Qed.
Print Assumptions C124_sizes.
(** The default colors tell points apart, but for the two of the head. *)
Theorem C124_colors : forall s t c, entry default_colors s = Some c -> entry default_colors t = Some c -> s = t \/ (s = 19 /\ t = 20) \/ (s = 20 /\ t = 19).
Proof. exact (default_colors_differ ). Qed.
Print Assumptions C124_colors.
(** The default factors. *)
Theorem C124_factors : dot_size_factor camera_config = 6%Q /\ line_width_factor camera_config = 1%Q /\ dot_size_factor laser_config = 15%Q /\ line_width_factor laser_config = 4%Q.
Proof. exact (default_factors ). Qed.
Print Assumptions C124_factors.
(** Exactly which pixels a crop shows. *)
Theorem C124_pixels : forall (A K : Type) height width (image : list (list A)) (ks : list (cam_kp K)) b margin, image_ok height width image -> 1 <= height -> 1 <= width ->
  (-1 < right_side b margin)%Q -> (-1 < bottom_side b margin)%Q ->
  forall y x, pixel (fst (crop_camera_keypoints height width image ks b margin)) y x
    = if (0 <=? y) && (0 <=? x) && (y <? end_shown height (bottom_side b margin) - first_shown (top_side b margin))
         && (x <? end_shown width (right_side b margin) - first_shown (left_side b margin))
      then pixel image (first_shown (top_side b margin) + y) (first_shown (left_side b margin) + x) else None.
Proof. exact (crop_pixels ). Qed.
Print Assumptions C124_pixels.
(** Every keypoint is kept and moved with the image. *)
Theorem C124_moved : forall (A K : Type) height width (image : list (list A)) (ks : list (cam_kp K)) b margin,
  Forall2 (fun k k' => (px k' == px k - inject_Z (first_shown (left_side b margin)))%Q /\ (py k' == py k - inject_Z (first_shown (top_side b margin)))%Q /\ rest k' = rest k)
    ks (snd (crop_camera_keypoints height width image ks b margin)).
Proof. exact (crop_moved ). Qed.
Print Assumptions C124_moved.
(** The pixel under a keypoint stays under it. *)
Theorem C124_follows : forall (A K : Type) height width (image : list (list A)) (k : cam_kp K) b margin y x, image_ok height width image -> 1 <= height -> 1 <= width ->
  (-1 < right_side b margin)%Q -> (-1 < bottom_side b margin)%Q -> (px k == inject_Z x)%Q -> (py k == inject_Z y)%Q ->
  first_shown (left_side b margin) <= x < end_shown width (right_side b margin) -> first_shown (top_side b margin) <= y < end_shown height (bottom_side b margin) ->
  exists crop k' x' y', crop_camera_keypoints height width image [k] b margin = (crop, [k']) /\ (px k' == inject_Z x')%Q /\ (py k' == inject_Z y')%Q
    /\ pixel crop y' x' = pixel image y x /\ pixel crop y' x' <> None.
Proof. exact (crop_follows ). Qed.
Print Assumptions C124_follows.
(** Inside the box and before the last column or row, a pixel is shown. *)
Theorem C124_inside width side_lo side_hi x : 0 <= x < width - 1 -> (side_lo <= inject_Z x)%Q -> (inject_Z (x + 1) <= side_hi)%Q ->
  first_shown side_lo <= x < end_shown width side_hi.
Proof. exact (crop_inside width side_lo side_hi x). Qed.
Print Assumptions C124_inside.
(** The last column and row never are. *)
Theorem C124_last : forall (A K : Type) height width (image : list (list A)) (ks : list (cam_kp K)) b margin, image_ok height width image -> 1 <= height -> 1 <= width ->
  (-1 < right_side b margin)%Q -> (-1 < bottom_side b margin)%Q ->
  forall y x, pixel (fst (crop_camera_keypoints height width image ks b margin)) y x <> None ->
    first_shown (top_side b margin) + y < height - 1 /\ first_shown (left_side b margin) + x < width - 1.
Proof. exact (crop_last ). Qed.
Print Assumptions C124_last.
(** A laser wireframe without keypoints is built and cannot be drawn. *)
Theorem C124_empty_refuted : exists w, build_wireframe [] laser_config = Ok w /\ draw_laser_wireframe w = Err ValueError.
Proof. exact (empty_refuted ). Qed.
Print Assumptions C124_empty_refuted.
(** One keypoint of an unknown type loses the whole wireframe. *)
Theorem C124_unspecified_refuted : exists ks k, In k ks /\ In (kp_type k) known_types /\ build_wireframe ks camera_config = Err KeyError.
Proof. exact (unspecified_refuted ). Qed.
Print Assumptions C124_unspecified_refuted.
(** A type without a color is drawn by one kind of edge and fails in another. *)
Theorem C124_missing_color_refuted : exists ks e e', let c := {| edges := [e]; point_colors := []; point_sizes := []; dot_size_factor := 1; line_width_factor := 1 |} in
  let c' := {| edges := [e']; point_colors := []; point_sizes := []; dot_size_factor := 1; line_width_factor := 1 |} in
  e = Multipoint [5] [13] 1 /\ e' = Bicolored 5 13 1 /\ (exists ls, create_lines e' (keypoint_coordinates ks) (point_colors c') = Ok ls /\ ls <> [])
  /\ create_lines e (keypoint_coordinates ks) (point_colors c) = Err KeyError.
Proof. exact (missing_color_refuted ). Qed.
Print Assumptions C124_missing_color_refuted.
(** A box around the whole image cuts its last row and column. *)
Theorem C124_whole_refuted : exists height width (image : list (list Z)) b, image_ok height width image /\ (left_side b 0 == 0)%Q /\ (right_side b 0 == inject_Z width)%Q
  /\ (top_side b 0 == 0)%Q /\ (bottom_side b 0 == inject_Z height)%Q
  /\ image = [[1; 2; 3]; [4; 5; 6]] /\ fst (crop_camera_keypoints (K := unit) height width image [] b 0) = [[1; 2]].
Proof. exact (whole_refuted ). Qed.
Print Assumptions C124_whole_refuted.
(** A box outside the image on the left shows a part of the image. *)
Theorem C124_outside_refuted : exists height width (image : list (list Z)) b, image_ok height width image /\ (right_side b 0 < 0)%Q
  /\ image = [[1; 2; 3; 4; 5]; [6; 7; 8; 9; 10]] /\ fst (crop_camera_keypoints (K := unit) height width image [] b 0) = [[1; 2; 3]].
Proof. exact (outside_refuted ). Qed.
Print Assumptions C124_outside_refuted.

(** Two keypoints of a shoulder and an elbow, and one edge. *)
Example C124_nonvacuous :
  let ks := [ {| kp_type := 5; kp_location := [1; 2]%Q; kp_occluded := false |}; {| kp_type := 6; kp_location := [3; 4]%Q; kp_occluded := true |} ] in
  same_dim 2 ks /\ (forall k, In k ks -> In (kp_type k) known_types)
  /\ match build_wireframe ks camera_config with Ok w => List.length (dots w) = 2%nat /\ lines w <> [] | Err _ => False end.
Proof.
  split; [repeat constructor|]. split; [intros k [<-|[<-|[]]]; unfold known_types; cbn; tauto|]. vm_compute. split; [reflexivity|discriminate].
Qed.
(** A crop inside an image. *)
Example C124_crop_nonvacuous :
  let b := {| center_x := 2; center_y := 1; length_ := 2; width_ := 2 |} in
  let image := [[1; 2; 3; 4]; [5; 6; 7; 8]; [9; 10; 11; 12]] in
  image_ok 3 4 image /\ fst (crop_camera_keypoints (K := unit) 3 4 image [] b 0) = [[2; 3]; [6; 7]] /\ pixel image 1 2 = Some 7.
Proof. split; [split; [reflexivity|repeat constructor]|]. split; vm_compute; reflexivity. Qed.
