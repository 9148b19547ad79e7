(** C150: the tutorials of the pose estimation challenge and of the object assets. *)
From Coq Require Import QArith Qabs String Lia.
From Verif Require Import Base ResultLib CombModel KatModel KatSpec KatProofs.
Open Scope list_scope.

(** The keypoints of an object: the visible joints, with type and location. *)
Theorem C150_keypoints (L : Type) (ls : list L) vs k : In k (create_all_keypoints_proto ls vs) <-> exists i, visible_joint ls vs i k.
Proof. exact (keypoints_exact ls vs k). Qed.
Print Assumptions C150_keypoints.
(** None twice. *)
Theorem C150_keypoints_distinct (L : Type) (ls : list L) vs : NoDup (map k_type (create_all_keypoints_proto ls vs)).
Proof. exact (keypoints_distinct ls vs). Qed.
Print Assumptions C150_keypoints_distinct.
(** The submission: for each frame in turn the pose of each object, and the number of frames. *)
Theorem C150_submission (L B : Type) (frames : list (detected L B)) :
  (forall f, In f frames -> List.length (d_visible f) = List.length (d_locations f) /\ List.length (d_boxes f) = List.length (d_locations f)) ->
  snd (make_submission frames [] 0) = List.length frames /\ exists parts, fst (make_submission frames [] 0) = concat parts /\
    Forall2 (fun f ps => List.length ps = List.length (d_locations f) /\ forall i p, nth_error ps i = Some p -> pose_of f i p) frames parts.
Proof. exact (submission_exact frames). Qed.
Print Assumptions C150_submission.
(** The number of keypoints printed. *)
Theorem C150_count (L B : Type) (s : list (pose L B)) : keypoint_count s = List.length (flat_map p_keypoints s).
Proof. exact (count_exact s). Qed.
Print Assumptions C150_count.
(** The grid of images works exactly for no image, or for one row or column of more than one place with a place for each image. *)
Theorem C150_grid (A : Type) h w (images : list A) r : grid_imshow h w images = Ok r <->
  (0 < h)%nat /\ (0 < w)%nat /\ r = combine (seq 0 (List.length images)) images /\
  (images = [] \/ ((h = 1%nat /\ (1 < w)%nat \/ w = 1%nat /\ (1 < h)%nat) /\ (List.length images <= h * w)%nat)).
Proof. exact (grid_exact h w images r). Qed.
Print Assumptions C150_grid.
(** The mask of rays, called as in the tutorial: each pixel says whether its ray meets the box. *)
Theorem C150_ray_mask (V S : Type) (hit : V -> V -> S -> bool) h w origin direction size : (0 < h)%nat -> rectangle h w origin -> rectangle h w direction ->
  exists mask, compute_ray_mask hit origin direction size origin direction size = Ok mask /\ rectangle h w mask /\
  forall y x o d, pixel origin y x = Some o -> pixel direction y x = Some d -> pixel mask y x = Some (hit o d size).
Proof. exact (ray_mask_exact hit h w origin direction size). Qed.
Print Assumptions C150_ray_mask.
(** A loop with the break after frame number limit + 1 shows limit + 2 frames. *)
Theorem C150_frames_shown (A : Type) limit (frames : list A) : frames_shown limit 0 frames = firstn (limit + 2) frames.
Proof. exact (shown_exact limit frames). Qed.
Print Assumptions C150_frames_shown.
(** The coloured image: pixels outside the mask are unchanged, others are the blend, to within one. *)
Theorem C150_mask image : forall mask color alpha r, apply_color_mask image mask color alpha = Ok r -> Forall (Forall byte) image -> Forall byte color -> (0 <= alpha <= 1)%Q ->
  List.length r = List.length image /\ List.length mask = List.length image /\ forall i p m q, nth_error image i = Some p -> nth_error mask i = Some m -> nth_error r i = Some q ->
  List.length q = List.length p /\ forall j v c w, nth_error p j = Some v -> nth_error color j = Some c -> nth_error q j = Some w -> byte w /\ blended v m c alpha w.
Proof. exact (mask_exact image). Qed.
Print Assumptions C150_mask.
(** A grid with enough places can fail: one image in one place does. *)
Theorem C150_single_image_refuted : ~ (forall A h w (images : list A), (0 < h)%nat -> (0 < w)%nat -> (List.length images <= h * w)%nat -> exists r, grid_imshow h w images = Ok r).
Proof. exact (single_image_refuted ). Qed.
Print Assumptions C150_single_image_refuted.
(** The mask of rays does not use the rays and the box it is given, but the global ones. *)
Theorem C150_ray_mask_refuted : ~ (forall (hit : Z -> Z -> Z -> bool) go gd gs o d s mask, compute_ray_mask hit go gd gs o d s = Ok mask ->
  forall y x a b, pixel o y x = Some a -> pixel d y x = Some b -> pixel mask y x = Some (hit a b s)).
Proof. exact (ray_mask_refuted ). Qed.
Print Assumptions C150_ray_mask_refuted.

Example C150_nonvacuous_keypoints : map k_type (create_all_keypoints_proto ["a"; "b"; "c"]%string [1; 0; 1]%Z) = [1; 13]%Z.
Proof. reflexivity. Qed.
Example C150_nonvacuous_submission : let frames := [Detected "x" 1 [["a"; "b"]%string] [[0; 1]%Z] [tt]; Detected "x" 2 [] [] []; Detected "y" 1 [["c"]%string; []] [[1%Z]; []] [tt; tt]] in
  map p_time (fst (make_submission frames [] 0)) = [1; 1; 1]%Z /\ snd (make_submission frames [] 0) = 3%nat /\ keypoint_count (fst (make_submission frames [] 0)) = 2%nat.
Proof. repeat split. Qed.
Example C150_nonvacuous_mask : apply_color_mask [[100; 200; 50]; [1; 2; 3]]%Z [true; false] [0; 255; 0]%Z (1 # 2) = Ok [[50; 227; 25]; [1; 2; 3]]%Z.
Proof. reflexivity. Qed.
Example C150_nonvacuous_grid : grid_imshow 1 5 ["a"; "b"]%string = Ok [(0%nat, "a"%string); (1%nat, "b"%string)].
Proof. reflexivity. Qed.
Example C150_nonvacuous_ray_mask : compute_ray_mask (fun o d s => (o + d <? s)%Z) [[1; 2]; [3; 4]]%Z [[0; 0]; [0; 0]]%Z 3%Z [[1; 2]; [3; 4]]%Z [[0; 0]; [0; 0]]%Z 3%Z = Ok [[true; true]; [false; false]].
Proof. reflexivity. Qed.
