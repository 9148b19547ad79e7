(** C64-C66: distances to polygons, between boxes, and to the nearest object of a scene. *)
From Coq Require Import Reals Lra List Bool.
From Verif Require Import Base GeomModel GeomSpec GeomSceneSpec GeomDistProofs GeomMinkProofs GeomBoxProofs GeomNearestProofs GeomExamples.
Import ListNotations.
Open Scope R_scope.

(** C64: for every polygon the magnitude is the distance to its boundary. *)
Theorem C64_boundary : forall q poly, poly <> [] ->
  exists d, signed_distance q poly = Some d /\ distance_to (on_boundary poly) q (Rabs d).
Proof. exact boundary_abs. Qed.
Print Assumptions C64_boundary.

(** Outside a convex polygon: the distance to the polygon. *)
Theorem C64_outside : forall poly, convex_polygon poly -> proper_edges poly -> forall q, ~ hull poly q ->
  exists d, signed_distance q poly = Some d /\ 0 < d /\ distance_to (hull poly) q d.
Proof. exact outside_distance. Qed.
Print Assumptions C64_outside.

(** Inside: minus the distance to the boundary, the radius of the largest disc around the point. *)
Theorem C64_inside : forall poly, convex_polygon poly -> proper_edges poly -> forall q, hull poly q ->
  exists d, signed_distance q poly = Some (- d) /\ 0 <= d /\
    distance_to (on_boundary poly) q d /\ forall x, dist q x < d -> hull poly x.
Proof. exact inside_distance. Qed.
Print Assumptions C64_inside.

(** With a repeated vertex no distance is negative. *)
Theorem C64_repeated_vertex : forall q poly i, poly <> [] -> vertex poly i = vertex poly (S i) ->
  exists d, signed_distance q poly = Some d /\ 0 <= d /\ distance_to (on_boundary poly) q d.
Proof. exact repeated_outside. Qed.
Print Assumptions C64_repeated_vertex.
Theorem C64_repeated_vertex_refuted : exists poly q, convex_polygon poly /\ interior (hull poly) q /\
  exists d, signed_distance q poly = Some d /\ 0 < d.
Proof. exact repeated_refuted. Qed.
Print Assumptions C64_repeated_vertex_refuted.
Example C64_square : convex_polygon square /\ proper_edges square.
Proof. exact square_convex. Qed.

(** C65: the eight points are a counter-clockwise convex polygon without repeated vertices, and it is
    the set of the sums of a point of each box. *)
Theorem C65_sum : forall a b,
  is_rectangle (c0 a) (c1 a) (c2 a) (c3 a) -> is_rectangle (c0 b) (c1 b) (c2 b) (c3 b) ->
  length (minkowski_sum a b) = 8%nat /\ convex_polygon (minkowski_sum a b) /\ proper_edges (minkowski_sum a b) /\
  forall x, hull (minkowski_sum a b) x <-> sum_of (hull [c0 a; c1 a; c2 a; c3 a]) (hull [c0 b; c1 b; c2 b; c3 b]) x.
Proof. exact minkowski_sum_correct. Qed.
Print Assumptions C65_sum.
(** The corners of a box of positive size are such a rectangle, and span the box. *)
Theorem C65_corners : forall b, 0 < blength b -> 0 < bwidth b ->
  is_rectangle (c0 (box_corners b)) (c1 (box_corners b)) (c2 (box_corners b)) (c3 (box_corners b)) /\
  forall p, hull [c0 (box_corners b); c1 (box_corners b); c2 (box_corners b); c3 (box_corners b)] p <->
    in_rectangle (bx b) (by_ b) (blength b) (bwidth b) (bheading b) p.
Proof. intros b Hl Hw. split; [exact (box_corners_rectangle b Hl Hw)|exact (box_corners_hull b Hl Hw)]. Qed.
Print Assumptions C65_corners.
Example C65_square : is_rectangle (0, 0) (1, 0) (1, 1) (0, 1).
Proof. unfold is_rectangle, turn. cbn. lra. Qed.

(** C66: two boxes.  Negative exactly when the rounded boxes overlap, else the gap between them. *)
Theorem C66_pair : forall factor, 0 <= factor < 1 -> forall a b,
  0 < blength a -> 0 < bwidth a -> 0 < blength b -> 0 < bwidth b ->
  exists d, box_distance factor a b = Ok d /\ (d < 0 <-> overlap factor a b) /\ (0 <= d -> gap factor a b d).
Proof. exact pair_spec. Qed.
Print Assumptions C66_pair.
(** Every scene gets an answer with a row for each evaluated object. *)
Theorem C66_total : forall factor num_steps objects mask, length mask = length objects ->
  (forall r, In r objects -> length r = num_steps) ->
  exists out, distance_to_nearest_object factor num_steps objects mask = Ok out /\
    length out = count_occ bool_dec mask true /\ Forall (fun r => length r = num_steps) out.
Proof. exact whole_total. Qed.
Print Assumptions C66_total.
(** The collision indicator of an evaluated object at a step: it is valid and overlaps another valid object. *)
Theorem C66_collision : forall factor num_steps objects mask out,
  distance_to_nearest_object factor num_steps objects mask = Ok out -> 0 <= factor < 1 -> sized objects ->
  forall g t, nth_error mask g = Some true -> (t < num_steps)%nat ->
  exists d, entry out (row_of mask g) t = Some d /\
    (is_colliding d = true <->
     exists b g' b', valid_at objects g t b /\ g' <> g /\ valid_at objects g' t b' /\ overlap factor b b').
Proof. exact whole_collision. Qed.
Print Assumptions C66_collision.
(** Without a collision: the gap to the nearest other valid object, if there is one nearer than about 1e10. *)
Theorem C66_distance : forall factor num_steps objects mask out,
  distance_to_nearest_object factor num_steps objects mask = Ok out -> 0 <= factor < 1 -> sized objects ->
  forall g t b d, nth_error mask g = Some true -> (t < num_steps)%nat -> valid_at objects g t b ->
  entry out (row_of mask g) t = Some d -> 0 <= d ->
  (forall g' b' p q, g' <> g -> valid_at objects g' t b' -> box_shape factor b p -> box_shape factor b' q -> d <= dist p q) /\
  (10000000000 - bwidth b <= d \/ exists g' b', g' <> g /\ valid_at objects g' t b' /\ gap factor b b' d).
Proof. exact whole_distance. Qed.
Print Assumptions C66_distance.
(** An evaluated object that is not valid at a step. *)
Theorem C66_invalid : forall factor num_steps objects mask out,
  distance_to_nearest_object factor num_steps objects mask = Ok out ->
  forall g t b, nth_error mask g = Some true -> (t < num_steps)%nat -> at_step objects g t = Some (b, false) ->
  entry out (row_of mask g) t = Some 10000000000.
Proof. exact whole_invalid. Qed.
Print Assumptions C66_invalid.
(** A rounding factor of one, documented as giving capsules: crossing boxes get a positive distance. *)
Theorem C66_capsule_refuted : exists a b, 0 < blength a /\ 0 < bwidth a /\ 0 < blength b /\ 0 < bwidth b /\
  overlap 1 a b /\ exists d, box_distance 1 a b = Ok d /\ 2 <= d.
Proof. exact capsule_refuted. Qed.
Print Assumptions C66_capsule_refuted.
Example C66_scene : exists out, distance_to_nearest_object (7 / 10) 2 scene scene_mask = Ok out /\ sized scene /\
  overlap (7 / 10) car_2 car_1.
Proof.
  destruct (whole_total (7 / 10) 2 scene scene_mask) as [out [E _]]; [reflexivity| |].
  - intros r [<-|[<-|[]]]; reflexivity.
  - exists out. split; [exact E|]. split; [exact scene_sized|exact cars_overlap].
Qed.
