(** The tutorials of the pose estimation challenge, /repo/tutorial/tutorial_keypoints.ipynb (K below), and of the object assets,
    /repo/tutorial/tutorial_object_asset.ipynb (A below). Lines are those of the notebook files.
    Numbers are rationals, without rounding of floats. Files, archives and figures are not modelled. *)
From Coq Require Import QArith Qround String.
From Verif Require Import Base ResultLib CombModel.
Open Scope list_scope.

(** K 482-491: keypoint_pb2.LaserKeypoint; [L] are locations. *)
Record keypoint (L : Type) := Keypoint { k_type : Z; k_location : L; k_occluded : bool }.
Arguments Keypoint {L}. Arguments k_type {L}. Arguments k_location {L}. Arguments k_occluded {L}.
(** K 498-503: zip stops at the shortest; [order] is the rest of CANONICAL_ORDER_LASER. *)
Fixpoint keypoints_loop {L} (all_loc : list L) (all_vis order : list Z) : list (keypoint L) :=
  match all_loc, all_vis, order with
  | loc :: ls, vis :: vs, kp_type :: ts =>
      if (vis =? 0)%Z then keypoints_loop ls vs ts else Keypoint kp_type loc false :: keypoints_loop ls vs ts
  | _, _, _ => []
  end.
(** K 494-504: _create_all_keypoints_proto. *)
Definition create_all_keypoints_proto {L} (all_loc : list L) (all_vis : list Z) : list (keypoint L) := keypoints_loop all_loc all_vis CANONICAL_ORDER_LASER.
(** keypoints_submission_pb2.PoseEstimation; [B] are boxes. *)
Record pose (L B : Type) := Pose { p_context : string; p_time : Z; p_box : B; p_keypoints : list (keypoint L) }.
Arguments Pose {L B}. Arguments p_context {L B}. Arguments p_time {L B}. Arguments p_box {L B}. Arguments p_keypoints {L B}.
(** K 537-549: the objects of a frame, for any detector: locations, visibility and boxes (centre, size and heading together here). *)
Fixpoint pose_estimation {L B} (context : string) (time : Z) (locations : list (list L)) (is_visible : list (list Z)) (boxes : list B) : list (pose L B) :=
  match locations, is_visible, boxes with
  | l :: ls, v :: vs, b :: bs => Pose context time b (create_all_keypoints_proto l v) :: pose_estimation context time ls vs bs
  | _, _, _ => []
  end.
(** A frame with what the detector returns for it. *)
Record detected (L B : Type) := Detected { d_context : string; d_time : Z; d_locations : list (list L); d_visible : list (list Z); d_boxes : list B }.
Arguments Detected {L B}. Arguments d_context {L B}. Arguments d_time {L B}. Arguments d_locations {L B}. Arguments d_visible {L B}. Arguments d_boxes {L B}.
(** K 560-579: the objects of the submission, the number of keypoints and of frames that is printed.
    The frames are taken in file order; num_parallel_reads interleaves the files. *)
Fixpoint make_submission {L B} (frames : list (detected L B)) (submission : list (pose L B)) (num_frames : nat) : list (pose L B) * nat :=
  match frames with
  | [] => (submission, num_frames)
  | f :: frames' => make_submission frames' (submission ++ pose_estimation (d_context f) (d_time f) (d_locations f) (d_visible f) (d_boxes f)) (num_frames + 1)
  end.
Definition keypoint_count {L B} (submission : list (pose L B)) : nat := fold_left (fun n e => (n + List.length (p_keypoints e))%nat) submission O.

(** A 164-172: one channel of one pixel of apply_color_mask; astype(np.uint8) cuts off the fraction and keeps the lowest byte. *)
Definition color_value (value : Z) (mask : bool) (color : Z) (alpha : Q) : Z :=
  let bg := (inject_Z value * (1 - alpha) + alpha * inject_Z color)%Q in
  (if mask then Qfloor bg else value) mod 256.
(** All pixels, with the mask of the same height and width. *)
Fixpoint apply_color_mask (image : list (list Z)) (mask : list bool) (color : list Z) (alpha : Q) : result (list (list Z)) :=
  match image, mask with
  | [], [] => Ok []
  | p :: image', m :: mask' =>
      if (List.length p =? List.length color)%nat then
        do rest <- apply_color_mask image' mask' color alpha;
        Ok (map (fun vc => color_value (fst vc) m (snd vc) alpha) (combine p color) :: rest)
      else Err ValueError
  | _, _ => Err ValueError
  end.

(** What plt.subplots(h, w) returns: axes, a list of axes, or rows of axes; numbers that are not positive are refused (ValueError). *)
Inductive subplots := One | Line (n : nat) | Rows (h w : nat).
Definition plt_subplots (h w : nat) : result subplots :=
  if ((h =? 0) || (w =? 0))%nat then Err ValueError
  else if ((h =? 1) && (w =? 1))%nat then Ok One
  else if (h =? 1)%nat then Ok (Line w)
  else if (w =? 1)%nat then Ok (Line h)
  else Ok (Rows h w).
(** A 181-182: axes[i] and its imshow. The test len(images) > 0 is always true in the loop. Axes cannot be indexed (TypeError) and a row has no imshow (AttributeError), both RuntimeError here. *)
Definition place (axes : subplots) (num_images i : nat) : result nat :=
  if (0 <? num_images)%nat then
    match axes with
    | One => Err RuntimeError
    | Line n => if (i <? n)%nat then Ok i else Err IndexError
    | Rows h w => if (i <? h)%nat then Err RuntimeError else Err IndexError
    end
  else match axes with One => Ok O | _ => Err RuntimeError end.
(** A 175-183: grid_imshow: the images with the number of their axes. *)
Definition grid_imshow {A} (h w : nat) (images : list A) : result (list (nat * A)) :=
  do axes <- plt_subplots h w;
  mapM (fun ia => do p <- place axes (List.length images) (fst ia); Ok (p, snd ia)) (combine (seq 0 (List.length images)) images).

(** reshape: rows of [w]. *)
Fixpoint chunks {A} (h w : nat) (l : list A) : list (list A) := match h with O => [] | S h' => firstn w l :: chunks h' w (skipn w l) end.
(** A 224-233: _compute_ray_mask. The function uses the global variables ray_component and lidar_box_component, given here as [g_origin], [g_direction] and [g_size];
    of its arguments only the height and width of the first is used. [hit] says whether a ray meets the box (get_ray_box_intersects).
    An image with other numbers of pixels than rays is refused here (ValueError); the code accepts multiples, with more values for each pixel. *)
Definition compute_ray_mask {V S} (hit : V -> V -> S -> bool) (g_origin g_direction : list (list V)) (g_size : S) (ray_origin ray_direction : list (list V)) (box_size : S) : result (list (list bool)) :=
  let im_height := List.length ray_origin in
  let im_width := List.length (hd [] ray_origin) in
  let ray_mask := map (fun od => hit (fst od) (snd od) g_size) (combine (concat g_origin) (concat g_direction)) in
  if (List.length ray_mask =? im_height * im_width)%nat then Ok (chunks im_height im_width ray_mask) else Err ValueError.
(** A 237-279 (limit 2) and 471-489 (limit 9): the frames processed until the break at the end of the loop body. *)
Fixpoint frames_shown {A} (limit i : nat) (frames : list A) : list A :=
  match frames with
  | [] => []
  | f :: frames' => f :: (if (limit <? i)%nat then [] else frames_shown limit (i + 1) frames')
  end.
