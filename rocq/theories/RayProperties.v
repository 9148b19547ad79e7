(** Rays and boxes of object assets: the properties. *)
From Coq Require Import Reals Lra.
From Verif Require Import Base GeomModel FrameModel FrameSpec RayModel RaySpec RayProofs RayBoxes.
Open Scope R_scope.

(** ** C94: where a ray meets a box *)
Theorem C94_exact : forall o d s f a b, slanted d -> get_ray_box_intersects o d s = (f, a, b) ->
  (forall t, in_centered s (ray_at o d t) <-> a <= t <= b) /\
  (lengths s -> (f = true <-> meets_ahead s o d) /\ (f = false <-> b < a \/ b <= 0)).
Proof. exact slanted_exact. Qed.
Print Assumptions C94_exact.
Theorem C94_zero_components : forall o d d' s f a b, nudged d d' -> get_ray_box_intersects o d s = (f, a, b) ->
  (forall t, in_centered s (ray_at o d' t) <-> a <= t <= b) /\
  (lengths s -> (f = true <-> meets_ahead s o d') /\ (f = false <-> b < a \/ b <= 0)).
Proof. exact intersects_exact. Qed.
Print Assumptions C94_zero_components.
Theorem C94_inside : forall o d s f a b, strictly_in_centered s o -> get_ray_box_intersects o d s = (f, a, b) ->
  f = true /\ a < 0 < b.
Proof. exact inside_origin. Qed.
Print Assumptions C94_inside.
Theorem C94_flagged_near : forall o d s f a b, lengths s -> get_ray_box_intersects o d s = (f, a, b) -> f = true ->
  exists t s', 0 < t <= b /\ widened d (t / 10 ^ 10) s s' /\ in_centered s' (ray_at o d t).
Proof. exact flagged_near. Qed.
Print Assumptions C94_flagged_near.
Theorem C94_clear_hit : forall o d s s' f a b t, lengths s -> 0 < t -> widened d (- (t / 10 ^ 10)) s s' ->
  in_centered s' (ray_at o d t) -> get_ray_box_intersects o d s = (f, a, b) -> f = true /\ a <= t <= b.
Proof. exact clear_hit_flagged. Qed.
Print Assumptions C94_clear_hit.
Theorem C94_distance : forall o d t, distance (ray_at o d t) o = Rabs t * length3 d.
Proof. exact parameter_distance. Qed.
Print Assumptions C94_distance.
Theorem C94_face_ray_refuted : exists o o' d s a b a' b',
  (forall t, 3 / 2 <= t <= 5 / 2 -> in_centered s (ray_at o d t) /\ in_centered s (ray_at o' d t)) /\
  get_ray_box_intersects o d s = (false, a, b) /\ get_ray_box_intersects o' d s = (true, a', b').
Proof. exact face_ray_refuted. Qed.
Print Assumptions C94_face_ray_refuted.
Theorem C94_outside_flagged_refuted : exists o d s a b,
  (forall t, ~ in_centered s (ray_at o d t)) /\ d <> (0, 0, 0) /\ get_ray_box_intersects o d s = (true, a, b).
Proof. exact outside_flagged_refuted. Qed.
Print Assumptions C94_outside_flagged_refuted.
Theorem C94_still_ray_refuted : exists o s a b,
  (forall t, ray_at o (0, 0, 0) t = o) /\ ~ in_centered s o /\ get_ray_box_intersects o (0, 0, 0) s = (true, a, b).
Proof. exact still_ray_refuted. Qed.
Print Assumptions C94_still_ray_refuted.
Theorem C94_missed_positive_refuted : exists o d s a b,
  get_ray_box_intersects o d s = (false, a, b) /\ slanted d /\ lengths s /\ 0 < a /\ 0 < b.
Proof. exact missed_positive_refuted. Qed.
Print Assumptions C94_missed_positive_refuted.
Theorem C94_face_origin_refuted : exists o d s b, in_centered s o /\ slanted d /\ get_ray_box_intersects o d s = (true, 0, b).
Proof. exact face_origin_refuted. Qed.
Print Assumptions C94_face_origin_refuted.
Example C94_case : slanted (1, 2, -1) /\ lengths (2, 2, 2) /\ meets_ahead (2, 2, 2) (-3, -6, 3) (1, 2, -1) /\ ~ in_centered (2, 2, 2) (-3, -6, 3) /\
  nudged (1, 0, -1) (1, / 10 ^ 10, -1) /\ strictly_in_centered (2, 2, 2) (0, / 2, 0).
Proof.
  unfold slanted, lengths, meets_ahead, in_centered, strictly_in_centered, ray_at, nudged, nudge.
  split; [lra|]. split; [lra|]. split; [exists 3; split; [lra|]; repeat split; unfold Rabs; destruct (Rcase_abs _); lra|].
  split; [intros (H & _); revert H; unfold Rabs; destruct (Rcase_abs _); lra|]. split; [lra|].
  repeat split; unfold Rabs; destruct (Rcase_abs _); lra.
Qed.

(** ** C95: frames and box coordinates of rays *)
Theorem C95_rotation : forall p q a b,
  rotate_points_along_z p a = about_z a p /\
  rotate_points_along_z (rotate_points_along_z p b) a = rotate_points_along_z p (a + b) /\
  rotate_points_along_z p 0 = p /\
  distance (rotate_points_along_z p a) (rotate_points_along_z q a) = distance p q.
Proof. exact rotate_facts. Qed.
Print Assumptions C95_rotation.
Theorem C95_box_coordinates : forall b p q,
  (forall u v w, transform_points_to_box_coord p b = (u, v, w) <-> p = point_of b u v w) /\
  transform_points_to_box_coord_reverse (transform_points_to_box_coord p b) b = p /\
  transform_points_to_box_coord (transform_points_to_box_coord_reverse p b) b = p /\
  distance (transform_points_to_box_coord p b) (transform_points_to_box_coord q b) = distance p q /\
  (in_box b p <-> in_centered (dim b) (transform_points_to_box_coord p b)).
Proof. exact box_coordinates. Qed.
Print Assumptions C95_box_coordinates.
Theorem C95_turned_box : forall b o d f t0 t1,
  slanted (transform_directions_to_box_coord d b) ->
  get_ray_box_intersects (transform_points_to_box_coord o b) (transform_directions_to_box_coord d b) (dim b) = (f, t0, t1) ->
  (forall t, in_box b (ray_at o d t) <-> t0 <= t <= t1) /\
  (lengths (dim b) -> (f = true <-> meets_box_ahead b o d)).
Proof. exact ray_box_world. Qed.
Print Assumptions C95_turned_box.
Theorem C95_frames : forall f p q d t,
  transform_points_to_frame p f = world f p /\
  transform_directions_to_frame d f = minus3 (world f (ray_at p d 1)) (world f p) /\
  world f (ray_at p d t) = ray_at (transform_points_to_frame p f) (transform_directions_to_frame d f) t /\
  (proper (rotation f) -> length3 (transform_directions_to_frame d f) = length3 d /\
     distance (transform_points_to_frame p f) (transform_points_to_frame q f) = distance p q).
Proof. exact frame_facts. Qed.
Print Assumptions C95_frames.
Example C95_case : exists b, slanted (transform_directions_to_box_coord (1, 1, 1) b) /\ lengths (dim b) /\ heading b = PI / 2 /\ in_box b (1, 2, 3).
Proof.
  exists {| center := (1, 2, 3); dim := (4, 2, 2); heading := PI / 2 |}. cbn [dim heading]. split; [|split; [unfold lengths; lra|split; [reflexivity|]]].
  - unfold transform_directions_to_box_coord, rotate_points_along_z, X, Y, Z_, slanted. cbn [fst snd heading].
    replace (-1 * (PI / 2)) with (- (PI / 2)) by ring. rewrite cos_neg, sin_neg, cos_PI2, sin_PI2. lra.
  - unfold in_box. cbn [dim]. exists 0, 0, 0. unfold point_of. cbn [center heading]. rewrite Rabs_R0. repeat split; try lra.
    rewrite !Rmult_0_l, !Rplus_0_r, Rminus_0_r, !Rplus_0_r. reflexivity.
Qed.
