(** C73, C74: points in boxes, changing the frame of points and boxes. *)
From Coq Require Import Reals Lra List.
From Verif Require Import Base ResultLib GeomModel FrameModel FrameSpec FrameProofs FrameBoxes.
Import ListNotations.
Open Scope R_scope.

(** ** C73: points in boxes *)
(** A row per point, an entry per box: whether the box has a volume and the point is in it. *)
Theorem C73_within_3d : forall points boxes, exists rows, is_within_box_3d points boxes = Ok rows /\ length rows = length points /\
  forall i p, nth_error points i = Some p -> exists row, nth_error rows i = Some row /\ length row = length boxes /\
    forall j b, nth_error boxes j = Some b -> exists v, nth_error row j = Some v /\ (v = true <-> solid b /\ in_box b p).
Proof. exact within_3d. Qed.
Print Assumptions C73_within_3d.
Theorem C73_within_2d : forall points boxes, exists rows, is_within_box_2d points boxes = Ok rows /\ length rows = length points /\
  forall i p, nth_error points i = Some p -> exists row, nth_error rows i = Some row /\ length row = length boxes /\
    forall j b, nth_error boxes j = Some b -> exists v, nth_error row j = Some v /\ (v = true <-> solid_2d b /\ in_box_2d b p).
Proof. exact within_2d. Qed.
Print Assumptions C73_within_2d.
(** A count per box: the points in it. *)
Theorem C73_count : forall points boxes, exists counts, compute_num_points_in_box_3d points boxes = Ok counts /\ length counts = length boxes /\
  forall j b, nth_error boxes j = Some b -> exists inside, nth_error counts j = Some (length inside) /\ NoDup inside /\
    forall i, In i inside <-> exists p, nth_error points i = Some p /\ solid b /\ in_box b p.
Proof. exact count_3d. Qed.
Print Assumptions C73_count.
(** A box is the convex hull of its corners. *)
Theorem C73_hull : forall b p, sized b -> in_box b p <-> hull (get_upright_3d_box_corners b) p.
Proof. exact box_hull. Qed.
Print Assumptions C73_hull.
(** The lower corners counter-clockwise from the front left one, then the upper ones. *)
Theorem C73_corners : forall b, get_upright_3d_box_corners b =
  let '(l, w, h) := dim b in
  [point_of b (l / 2) (w / 2) (- h / 2); point_of b (- l / 2) (w / 2) (- h / 2); point_of b (- l / 2) (- w / 2) (- h / 2); point_of b (l / 2) (- w / 2) (- h / 2);
   point_of b (l / 2) (w / 2) (h / 2); point_of b (- l / 2) (w / 2) (h / 2); point_of b (- l / 2) (- w / 2) (h / 2); point_of b (l / 2) (- w / 2) (h / 2)].
Proof. exact corners_list. Qed.
Print Assumptions C73_corners.
(** The two- and the three-dimensional box agree. *)
Theorem C73_from_above : forall b x y z, in_box b (x, y, z) <->
  in_box_2d (from_above b) (x, y) /\ Rabs (z - snd (center b)) <= snd (dim b) / 2.
Proof. exact seen_from_above. Qed.
Print Assumptions C73_from_above.
Example C73_case : sized plank /\ in_box plank (2, 0, 0) /\ ~ in_box plank (0, 0, -2).
Proof.
  split; [unfold sized, plank; cbn [dim]; lra|]. split; apply in_box_local || (intros H; apply in_box_local in H; revert H); unfold local, plank, X, Y, Z_; cbn [center dim heading fst snd];
    rewrite cos_0, sin_0, ?Rminus_0_r, ?Rmult_0_l, ?Rmult_0_r, ?Rmult_1_l, ?Rplus_0_r, ?Ropp_0, ?Rmult_0_l, ?Rplus_0_l, ?Rabs_R0.
  - rewrite Rabs_right by lra. repeat split; lra.
  - intros (_ & _ & H). unfold Rabs in H. destruct (Rcase_abs (-2)); lra.
Qed.
Print Assumptions C73_case.

(** ** C74: changing the frame *)
(** The result is the point of the new frame at the same place in the world. *)
Theorem C74_point : forall p f t q, transform_point p f t = Ok q <-> ~ singular (rotation t) /\ world t q = world f p.
Proof. exact transform_point_iff. Qed.
Print Assumptions C74_point.
(** A singular target frame is refused. *)
Theorem C74_singular : forall p b f t, singular (rotation t) -> transform_point p f t = Err RuntimeError /\ transform_box b f t = Err RuntimeError.
Proof. intros p b f t S. exact (conj (transform_point_error p f t S) (transform_box_error b f t S)). Qed.
Print Assumptions C74_singular.
(** Staying, going on and going back. *)
Theorem C74_same : forall p f, ~ singular (rotation f) -> transform_point p f f = Ok p.
Proof. exact transform_point_same. Qed.
Print Assumptions C74_same.
Theorem C74_chain : forall p f g h q, transform_point p f g = Ok q -> transform_point q g h = transform_point p f h.
Proof. exact transform_point_chain. Qed.
Print Assumptions C74_chain.
Theorem C74_back : forall p f g q, ~ singular (rotation f) -> transform_point p f g = Ok q -> transform_point q g f = Ok p.
Proof. exact transform_point_back. Qed.
Print Assumptions C74_back.
(** Rigid frames keep distances. *)
Theorem C74_distance : forall f t p q p' q', proper (rotation f) -> proper (rotation t) ->
  transform_point p f t = Ok p' -> transform_point q f t = Ok q' -> distance p' q' = distance p q.
Proof. exact transform_distance. Qed.
Print Assumptions C74_distance.
(** Between rigid frames with the same up direction a box keeps its size and its points, place by place. *)
Theorem C74_box : forall b f t, proper (rotation f) -> proper (rotation t) -> level f t ->
  exists b', transform_box b f t = Ok b' /\ dim b' = dim b /\
    forall u v w, transform_point (point_of b u v w) f t = Ok (point_of b' u v w).
Proof. exact transform_box_points. Qed.
Print Assumptions C74_box.
Theorem C74_box_within : forall b f t b' p q, proper (rotation f) -> proper (rotation t) -> level f t ->
  transform_box b f t = Ok b' -> transform_point p f t = Ok q -> (in_box b p <-> in_box b' q).
Proof. exact transform_box_within. Qed.
Print Assumptions C74_box_within.
Theorem C74_box_corners : forall b f t b', proper (rotation f) -> proper (rotation t) -> level f t -> transform_box b f t = Ok b' ->
  mapM (fun c => transform_point c f t) (get_upright_3d_box_corners b) = Ok (get_upright_3d_box_corners b').
Proof. exact transform_box_corners. Qed.
Print Assumptions C74_box_corners.
(** Not so between other rigid frames. *)
Theorem C74_not_level_refuted : exists b f t b' p q, proper (rotation f) /\ proper (rotation t) /\ sized b /\
  transform_box b f t = Ok b' /\ transform_point p f t = Ok q /\ in_box b p /\ ~ in_box b' q.
Proof. exact not_level. Qed.
Print Assumptions C74_not_level_refuted.
(** Rotation matrices: a turn about x, then about y, then about z; always a rotation. *)
Theorem C74_rotation : forall roll pitch yaw p,
  mulv (get_rotation_matrix roll pitch yaw) p = about_z yaw (about_y pitch (about_x roll p)).
Proof. exact rotation_action. Qed.
Print Assumptions C74_rotation.
Theorem C74_proper : forall roll pitch yaw, proper (get_rotation_matrix roll pitch yaw) /\ ~ singular (get_rotation_matrix roll pitch yaw).
Proof. intros roll pitch yaw. exact (conj (rotation_proper roll pitch yaw) (proper_not_singular _ (rotation_proper roll pitch yaw))). Qed.
Print Assumptions C74_proper.
Theorem C74_yaw : forall yaw, get_rotation_matrix 0 0 yaw = get_yaw_rotation yaw.
Proof. exact rotation_yaw. Qed.
Print Assumptions C74_yaw.
Example C74_case : forall a b s t, let f := get_transform (get_yaw_rotation a) s in let g := get_transform (get_yaw_rotation b) t in
  proper (rotation f) /\ proper (rotation g) /\ level f g.
Proof. intros a b s t f g. split; [apply yaw_proper|]. split; [apply yaw_proper | reflexivity]. Qed.
Print Assumptions C74_case.
