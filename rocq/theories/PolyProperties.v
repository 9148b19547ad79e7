(** C70: the common part of two convex polygons, and the overlap of boxes seen from above. *)
From Coq Require Import Reals Lra List Arith Lia Bool.
From Verif Require Import Base GeomModel PolyModel PolySpec PolyBoxSpec PolyInside PolyMeet PolySame PolyBoxProofs PolyMeaning PolyExamples PolyWitness.
Import ListNotations.
Open Scope R_scope.

(** Two segments: a point of both is found if there is one. *)
Theorem C70_segment : forall p0 p1 q0 q1 : pt, p0 <> p1 -> q0 <> q1 ->
  (forall x, exact_segment_intersection p0 p1 q0 q1 = Some x -> between p0 p1 x /\ between q0 q1 x) /\
  (exact_segment_intersection p0 p1 q0 q1 = None -> forall x, between p0 p1 x -> between q0 q1 x -> False).
Proof. exact segment_found. Qed.
Print Assumptions C70_segment.
(** A point in a convex polygon of any size: the answer is right, boundary included. *)
Theorem C70_inside : forall P, convex P -> forall z, point_inside P z = true <-> inside P z.
Proof. exact point_inside_iff. Qed.
Print Assumptions C70_inside.
Example C70_inside_example : forall n, (3 <= n)%nat -> convex (parabola n).
Proof. exact parabola_convex. Qed.
(** Polygons with a common point pass the test of their bounding boxes. *)
Theorem C70_maybe : forall P Q z, convex P -> convex Q -> inside P z -> inside Q z -> maybe_has_intersection P Q = true.
Proof. exact maybe_complete. Qed.
Print Assumptions C70_maybe.

(** If vertices are returned, they are those of a strictly convex polygon whose points are the common points. *)
Theorem C70_vertices : forall P Q, convex P -> convex Q -> intersection_vertices P Q <> [] ->
  convex (intersection_vertices P Q) /\ forall z, inside (intersection_vertices P Q) z <-> inside P z /\ inside Q z.
Proof. exact vertices_exact. Qed.
Print Assumptions C70_vertices.
(** They are returned if there is a common point and no corner of one lies on the boundary of the other. *)
Theorem C70_found : forall P Q z, convex P -> convex Q -> no_contact P Q -> inside P z -> inside Q z ->
  intersection_vertices P Q <> [].
Proof. exact vertices_found. Qed.
Print Assumptions C70_found.
Example C70_found_example : convex (box_polygon low_box) /\ convex (box_polygon high_box) /\
  no_contact (box_polygon low_box) (box_polygon high_box) /\ covers low_box (3 / 2, 3 / 2) /\ covers high_box (3 / 2, 3 / 2).
Proof.
  split; [apply box_convex; cbn; lra|]. split; [apply box_convex; cbn; lra|]. split; [exact squares_no_contact|].
  apply overlap_points. unfold covers, in_rectangle; cbn [overlap_box bx by_ blength bwidth bheading fst snd].
  rewrite cos_0, sin_0. split; (rewrite Rabs_right; lra).
Qed.
(** None are returned if there is no common point, and those of the polygon itself for a polygon and itself. *)
Theorem C70_apart : forall P Q, convex P -> convex Q -> (forall z, inside P z -> inside Q z -> False) ->
  intersection_vertices P Q = [] /\ intersection_area P Q = 0.
Proof. intros P Q A B N. exact (conj (apart_empty P Q A B N) (apart_area P Q A B N)). Qed.
Print Assumptions C70_apart.
Theorem C70_self : forall P, convex P -> intersection_vertices P P = P.
Proof. exact vertices_self. Qed.
Print Assumptions C70_self.

(** The area: that of every convex polygon with the common points, and 0 below the threshold. *)
Theorem C70_area : forall P Q W, convex P -> convex Q -> intersection_vertices P Q <> [] ->
  convex W -> (forall z, inside W z <-> inside P z /\ inside Q z) ->
  intersection_area P Q = (if Rle_dec (twice_area W) (/ 10000000000) then 0 else twice_area W / 2).
Proof. exact area_exact. Qed.
Print Assumptions C70_area.
(** Polygons with the same points have the same area. *)
Theorem C70_area_of_points : forall P Q, convex P -> convex Q -> (forall z, inside P z <-> inside Q z) ->
  twice_area P = twice_area Q.
Proof. exact area_of_points. Qed.
Print Assumptions C70_area_of_points.
Theorem C70_symmetric : forall P Q, convex P -> convex Q -> no_contact P Q -> intersection_area P Q = intersection_area Q P.
Proof. exact area_symmetric. Qed.
Print Assumptions C70_symmetric.
(** The area shared with a box is between 0 and that of the box, with or without contact. *)
Theorem C70_bounds : forall P b, convex P -> 0 < blength b -> 0 < bwidth b ->
  0 <= intersection_area P (box_polygon b) <= blength b * bwidth b /\
  0 <= intersection_area (box_polygon b) P <= blength b * bwidth b.
Proof. exact area_bounds. Qed.
Print Assumptions C70_bounds.

(** The polygon of a box is convex, with the points and the area of the rectangle. *)
Theorem C70_box : forall b, 0 < blength b -> 0 < bwidth b ->
  convex (box_polygon b) /\ (forall z, inside (box_polygon b) z <-> covers b z) /\
  twice_area (box_polygon b) / 2 = blength b * bwidth b.
Proof.
  intros b L W. split; [now apply box_convex|]. split; [intros z; now apply box_inside|]. rewrite box_area by auto. field.
Qed.
Print Assumptions C70_box.

(** The overlap of two boxes is between 0 and 1 and no check fails, for all boxes. *)
Theorem C70_iou_range : forall b1 b2, exists v, compute_iou_2d b1 b2 = Ok v /\ 0 <= v <= 1.
Proof. exact iou_range. Qed.
Print Assumptions C70_iou_range.
(** It is the area of the common part over that of the union. *)
Theorem C70_iou_area : forall b1 b2 W, big b1 -> big b2 -> no_contact (box_polygon b1) (box_polygon b2) ->
  convex W -> (forall z, inside W z <-> covers b1 z /\ covers b2 z) ->
  let s := (if Rle_dec (twice_area W) (/ 10000000000) then 0 else twice_area W / 2) in
  compute_iou_2d b1 b2 = Ok (s / (blength b1 * bwidth b1 + blength b2 * bwidth b2 - s)).
Proof. exact iou_area. Qed.
Print Assumptions C70_iou_area.
(** There is such a polygon whenever there is a common point. *)
Theorem C70_iou_common : forall b1 b2, big b1 -> big b2 -> no_contact (box_polygon b1) (box_polygon b2) ->
  (exists z, covers b1 z /\ covers b2 z) ->
  exists W, convex W /\ (forall z, inside W z <-> covers b1 z /\ covers b2 z) /\
    let s := (if Rle_dec (twice_area W) (/ 10000000000) then 0 else twice_area W / 2) in
    compute_iou_2d b1 b2 = Ok (s / (blength b1 * bwidth b1 + blength b2 * bwidth b2 - s)).
Proof. exact iou_common. Qed.
Print Assumptions C70_iou_common.
Example C70_iou_example : compute_iou_2d low_box high_box = Ok (1 / 7).
Proof. exact squares_iou. Qed.
Theorem C70_iou_apart : forall b1 b2, big b1 -> big b2 -> (forall z, covers b1 z -> covers b2 z -> False) ->
  compute_iou_2d b1 b2 = Ok 0.
Proof. exact iou_apart. Qed.
Print Assumptions C70_iou_apart.
(** And 0 if a side is at most a centimetre. *)
Theorem C70_iou_small : forall b1 b2, ~ (big b1 /\ big b2) -> compute_iou_2d b1 b2 = Ok 0.
Proof. exact iou_small. Qed.
Print Assumptions C70_iou_small.
Theorem C70_iou_self : forall b, big b -> compute_iou_2d b b = Ok 1.
Proof. intros b [L W]. exact (iou_self b L W). Qed.
Print Assumptions C70_iou_self.
Theorem C70_iou_symmetric : forall b1 b2, 0 < blength b1 -> 0 < bwidth b1 -> 0 < blength b2 -> 0 < bwidth b2 ->
  no_contact (box_polygon b1) (box_polygon b2) -> compute_iou_2d b1 b2 = compute_iou_2d b2 b1.
Proof. exact iou_symmetric. Qed.
Print Assumptions C70_iou_symmetric.
(** With contact it need not be right or symmetric: for a box that covers another one and shares two edge lines
    with it, the result is 0 in one order and 1/4, which is right, in the other. *)
Theorem C70_contact_refuted : exists b1 b2, big b1 /\ big b2 /\ (forall z, covers b1 z -> covers b2 z) /\
  compute_iou_2d b1 b2 = Ok 0 /\ compute_iou_2d b2 b1 = Ok (1 / 4).
Proof. exact iou_asymmetric. Qed.
Print Assumptions C70_contact_refuted.
