(** C67: the distance to the road edge. *)
From Coq Require Import Reals Lra List Bool Lia.
From Verif Require Import Base GeomModel GeomSpec GeomSceneSpec RoadModel RoadSpec RoadProofs RoadLocalProofs RoadLoopProofs RoadBoxProofs RoadExamples.
Import ListNotations.
Open Scope R_scope.

(** A value for every box, or ValueError exactly if no road edge has two points. *)
Theorem C67_total : forall objects mask road, length mask = length objects ->
  (exists p, In p road /\ (2 <= length p)%nat) ->
  exists out, distance_to_road_edge objects mask road = Ok out /\ length out = count_occ bool_dec mask true /\
    forall g row, nth_error mask g = Some true -> nth_error objects g = Some row ->
      exists r, nth_error out (row_of mask g) = Some r /\ length r = length row.
Proof. exact road_total. Qed.
Print Assumptions C67_total.
Theorem C67_no_edges : forall objects mask road, (forall p, In p road -> (length p < 2)%nat) ->
  distance_to_road_edge objects mask road = Err ValueError.
Proof. exact road_error. Qed.
Print Assumptions C67_no_edges.

(** A box: the largest distance of its bottom corners; -1e10 if it is not valid. *)
Theorem C67_box : forall objects mask road out g t b v, distance_to_road_edge objects mask road = Ok out ->
  nth_error mask g = Some true -> cell_at objects g t = Some (b, v) ->
  exists d, entry out (row_of mask g) t = Some d /\
    (v = false -> d = -10000000000) /\
    (v = true -> (exists q, is_bottom_corner b q /\ point_distance road q d) /\
       forall q d', is_bottom_corner b q -> point_distance road q d' -> d' <= d).
Proof. exact road_entry. Qed.
Print Assumptions C67_box.

(** A point: the planar distance to the foot on the segment nearest in stretched space, negative on its left.
    Beyond an end of the segment the side is that of the corner with the adjoining segment; at a free end that
    of the line; around the closing point of a closed polyline only if no polyline has more points. *)
Theorem C67_point : forall road q d, proper road -> point_distance road q d ->
  (exists a b f, segment_in road a b /\ foot a b q f /\ stretched q f < 10000000000) ->
  exists p i a b f, In p road /\ is_segment p i a b /\ nearest road q a b f /\
    (~ past_start a b q -> ~ past_end a b q -> signed_by d q f (0 < turn3 a b q) (turn3 a b q < 0)) /\
    (past_start a b q -> forall j c, i = S j -> nth_error p j = Some c -> turn3 c a b <> 0 ->
       signed_by d q f (left_of_corner c a b q) (right_of_corner c a b q)) /\
    (past_end a b q -> forall c, nth_error p (S (S i)) = Some c -> turn3 a b c <> 0 ->
       signed_by d q f (left_of_corner a b c q) (right_of_corner a b c q)) /\
    ((past_start a b q /\ i = 0%nat \/ past_end a b q /\ S (S i) = length p) -> open_ended p ->
       signed_by d q f (0 < turn3 a b q) (turn3 a b q < 0)) /\
    (closed p -> longest road p ->
       (past_start a b q -> i = 0%nat -> forall c, nth_error p (length p - 2) = Some c -> turn3 c a b <> 0 ->
          signed_by d q f (left_of_corner c a b q) (right_of_corner c a b q)) /\
       (past_end a b q -> S (S i) = length p -> forall c, nth_error p 1 = Some c -> turn3 a b c <> 0 ->
          signed_by d q f (left_of_corner a b c q) (right_of_corner a b c q))).
Proof. intros road q d Hp [rows [Hr Hd]]. exact (local_sign road rows q d Hp Hr Hd). Qed.
Print Assumptions C67_point.

(** Nearest to a closed convex loop with the most points: negative exactly inside, positive exactly outside, the
    distance to the loop in magnitude. *)
Theorem C67_loop : forall road p poly q d, proper road -> point_distance road q d ->
  (exists a b f, segment_in road a b /\ foot a b q f /\ stretched q f < 10000000000) ->
  In p road -> convex_loop p poly -> longest road p -> nearest_polyline road q p ->
  (d < 0 <-> hull poly (xy q) /\ ~ on_boundary poly (xy q)) /\ (0 < d <-> ~ hull poly (xy q)) /\
  distance_to (on_boundary poly) (xy q) (Rabs d).
Proof. intros road p poly q d Hp [rows [Hr Hd]]. exact (convex_loop_correct road rows p poly q d Hp Hr Hd). Qed.
Print Assumptions C67_loop.
(** There a box is off the road exactly if some point of it is outside. *)
Theorem C67_offroad : forall objects mask road out p poly g t b, distance_to_road_edge objects mask road = Ok out ->
  proper road -> In p road -> convex_loop p poly -> longest road p ->
  nth_error mask g = Some true -> cell_at objects g t = Some (b, true) ->
  0 < blength (b_box b) -> 0 < bwidth (b_box b) ->
  (forall q, is_bottom_corner b q -> nearest_polyline road q p /\
     exists i a' b' f, is_segment p i a' b' /\ foot a' b' q f /\ stretched q f < 10000000000) ->
  exists d, entry out (row_of mask g) t = Some d /\
    (is_offroad d = true <-> exists x, footprint b x /\ ~ hull poly x).
Proof. exact loop_offroad. Qed.
Print Assumptions C67_offroad.

(** A longer road edge far away flips the sign at the closing point of a loop. *)
Theorem C67_padding_refuted : exists p far poly q d d',
  convex_loop p poly /\ proper [p; far] /\ nearest_polyline [p; far] q p /\ ~ hull poly (xy q) /\
  point_distance [p] q d /\ 0 < d /\ point_distance [p; far] q d' /\ d' < 0.
Proof. exact padded_refuted. Qed.
Print Assumptions C67_padding_refuted.
(** Straight behind a free end the distance is zero, however far away. *)
Theorem C67_free_end_refuted : exists road q, proper road /\ point_distance road q 0 /\
  forall a b s, segment_in road a b -> 0 <= s <= 1 -> 4 <= planar q (at_part a b s).
Proof. exact free_end_refuted. Qed.
Print Assumptions C67_free_end_refuted.
Example C67_triangle : proper [triangle_edge] /\ convex_loop triangle_edge triangle /\ longest [triangle_edge] triangle_edge /\
  nearest_polyline [triangle_edge] corner_query triangle_edge.
Proof. exact triangle_example. Qed.
Example C67_triangle_near : exists a b f, segment_in [triangle_edge] a b /\ foot a b corner_query f /\ stretched corner_query f < 10000000000.
Proof. apply corner_near. now left. Qed.
