(** C135: making, checking and moving polygons. *)
From Coq Require Import Reals List Arith.
From Verif Require Import Base ResultLib GeomModel PolyModel PolySpec HullModel HullSpec.
From Verif Require Import HullProofs HullCheck HullExample.
Import ListNotations.
Open Scope R_scope.
(** When a polygon is made, which points it keeps, and that its box is the smallest one. *)
Theorem C135_made debug l : ((length l < 3)%nat -> make_polygon debug l = Err CheckFailed) /\
  ((3 <= length l)%nat -> debug = true -> is_convex_hull l = None -> make_polygon debug l = Err CheckFailed) /\
  ((3 <= length l)%nat -> (debug = true -> is_convex_hull l <> None) -> exists g k, make_polygon debug l = Ok g /\
    part_of k l /\ hd_error k = hd_error l /\ spaced k /\ (forall p, In p l -> exists q, In q k /\ square_distance p q < (2 * / 10000000000)²) /\
    points g = (match k with [p] => [p; p; p; p] | [p; q] => [p; q; q; p] | _ => k end) /\
    (k = l <-> spaced l /\ open_ends l) /\ (3 <= length (points g))%nat /\ tight (points g) (bbox_bottom_left g) (bbox_top_right g)).
Proof. exact (made debug l). Qed.
Print Assumptions C135_made.
(** The first and the last point kept can still be close. *)
Theorem C135_ring_refuted : exists l g, (3 <= length l)%nat /\ make_polygon false l = Ok g /\ (3 <= length (points g))%nat /\ ~ open_ends (points g).
Proof. exact (ring_refuted ). Qed.
Print Assumptions C135_ring_refuted.
(** A convex polygon passes the check and is found counter-clockwise. *)
Theorem C135_convex l : convex l -> is_convex_hull l = Some true.
Proof. exact (convex_accepted l). Qed.
Print Assumptions C135_convex.
(** A clockwise polygon passes it too. *)
Theorem C135_clockwise l : clockwise l -> is_convex_hull l <> None.
Proof. exact (clockwise_accepted l). Qed.
Print Assumptions C135_clockwise.
(** So a polygon that passed can have points inside that are found outside. *)
Theorem C135_clockwise_refuted : exists P g z, clockwise P /\ make_polygon true P = Ok g /\ inside (map mirrored P) (mirrored z) /\ point_inside (points g) z = false.
Proof. exact (clockwise_refuted ). Qed.
Print Assumptions C135_clockwise_refuted.
(** With three or four corners that turn clearly the check is exact. *)
Theorem C135_small l : length l = 3%nat \/ length l = 4%nat ->
  (forall i, / 10000000000 < Rabs (turn (corner l i) (corner l (S i)) (corner l (S (S i))))) ->
  is_convex_hull l = Some true <-> convex l.
Proof. exact (small_exact l). Qed.
Print Assumptions C135_small.
(** With more corners it is not: a spiral passes. *)
Theorem C135_spiral_refuted : exists P, is_convex_hull P = Some true /\ (exists g, make_polygon true P = Ok g /\ points g = P) /\
  ~ convex P /\ ~ clockwise P.
Proof. exact (spiral_refuted ). Qed.
Print Assumptions C135_spiral_refuted.
(** Any sequence of movements carries the points, and the box stays the smallest one. *)
Theorem C135_moved ms : forall g, (3 <= length (points g))%nat -> tight (points g) (bbox_bottom_left g) (bbox_top_right g) ->
  exists g', foldM (fun g m => transform (by_angle m) (around m) (then_by m) g) ms g = Ok g' /\
    points g' = map (carried_all ms) (points g) /\ tight (points g') (bbox_bottom_left g') (bbox_top_right g').
Proof. exact (moved_all ms). Qed.
Print Assumptions C135_moved.
(** Movements keep distances and areas. *)
Theorem C135_rigid ms : (forall a b, square_distance (carried_all ms a) (carried_all ms b) = square_distance a b) /\
  (forall a b z, turn (carried_all ms a) (carried_all ms b) (carried_all ms z) = turn a b z).
Proof. exact (motion_keeps ms). Qed.
Print Assumptions C135_rigid.
(** Movements keep what is inside. *)
Theorem C135_inside ms P z : convex P ->
  convex (map (carried_all ms) P) /\ (inside (map (carried_all ms) P) (carried_all ms z) <-> inside P z) /\
  point_inside (map (carried_all ms) P) (carried_all ms z) = point_inside P z.
Proof. exact (inside_moved ms P z). Qed.
Print Assumptions C135_inside.
(** The empty polygon can be shifted but not turned. *)
Theorem C135_empty m : (by_angle m = 0 -> exists g, transform (by_angle m) (around m) (then_by m) empty_polygon = Ok g /\ points g = [] /\ bbox_bottom_left g = then_by m /\ bbox_top_right g = then_by m) /\
  (by_angle m <> 0 -> transform (by_angle m) (around m) (then_by m) empty_polygon = Err CheckFailed).
Proof. exact (empty_moved m). Qed.
Print Assumptions C135_empty.

Example C135_nonvacuous : convex (map mirrored wrong_way) /\ clockwise wrong_way /\ length (map mirrored wrong_way) = 4%nat /\
  (forall i, / 10000000000 < Rabs (turn (corner (map mirrored wrong_way) i) (corner (map mirrored wrong_way) (S i)) (corner (map mirrored wrong_way) (S (S i))))) /\
  spaced wrong_way /\ open_ends wrong_way.
Proof. exact (conj wrong_clockwise (conj wrong_clockwise (conj eq_refl (conj square_clear wrong_spaced)))). Qed.
