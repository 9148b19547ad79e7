(** What the distance to the road edge means. *)
From Coq Require Import Reals List.
From Verif Require Import Base GeomModel GeomSpec RoadModel.
Open Scope list_scope.
Open Scope R_scope.

(** Segments of the road edges. *)
Definition is_segment (p : polyline) (i : nat) (a b : pt3) : Prop :=
  nth_error p i = Some a /\ nth_error p (S i) = Some b.
Definition segment_in (road : list polyline) (a b : pt3) : Prop :=
  exists p i, In p road /\ is_segment p i a b.
(** No segment is vertical or a point. *)
Definition proper (road : list polyline) : Prop := forall a b, segment_in road a b -> xy a <> xy b.
(** The point of a segment at a part of its length; the foot of a point: the nearest one in the plane. *)
Definition at_part (a b : pt3) (s : R) : pt3 :=
  P3 (px a + s * (px b - px a)) (py a + s * (py b - py a)) (pz a + s * (pz b - pz a)).
Definition planar (q f : pt3) : R := dist (xy q) (xy f).
Definition foot (a b q f : pt3) : Prop :=
  exists s, 0 <= s <= 1 /\ f = at_part a b s /\ forall s', 0 <= s' <= 1 -> planar q f <= planar q (at_part a b s').
(** Distance in space with heights counted three times. *)
Definition stretched (q f : pt3) : R :=
  sqrt ((px q - px f) ^ 2 + (py q - py f) ^ 2 + (3 * (pz q - pz f)) ^ 2).
(** Of all segments of the road edges, this one has the nearest foot. *)
Definition nearest (road : list polyline) (q : pt3) (a b f : pt3) : Prop :=
  segment_in road a b /\ foot a b q f /\
  forall a' b' f', segment_in road a' b' -> foot a' b' q f' -> stretched q f <= stretched q f'.

(** Where a point lies along the line of a segment: before its start, after its end. *)
Definition past_start (a b q : pt3) : Prop :=
  (px q - px a) * (px b - px a) + (py q - py a) * (py b - py a) < 0.
Definition past_end (a b q : pt3) : Prop := past_start b a q.
(** The left-hand side of the path from [c] to [v] to [b], near [v]. *)
Definition in_cone (c v b q : pt3) : Prop :=
  exists s t, 0 <= s /\ 0 <= t /\
    xy q = (px v + s * (px c - px v) + t * (px b - px v), py v + s * (py c - py v) + t * (py b - py v)).
Definition in_open_cone (c v b q : pt3) : Prop :=
  exists s t, 0 < s /\ 0 < t /\
    xy q = (px v + s * (px c - px v) + t * (px b - px v), py v + s * (py c - py v) + t * (py b - py v)).
Definition turn3 (a b c : pt3) : R := turn (xy a) (xy b) (xy c).
Definition left_of_corner (c v b q : pt3) : Prop :=
  (0 < turn3 c v b /\ in_open_cone c v b q) \/ (turn3 c v b < 0 /\ ~ in_cone c v b q).
Definition right_of_corner (c v b q : pt3) : Prop :=
  (0 < turn3 c v b /\ ~ in_cone c v b q) \/ (turn3 c v b < 0 /\ in_open_cone c v b q).

(** A closed polyline around a convex polygon, counter-clockwise, at one height. *)
Definition convex_loop (p : polyline) (poly : list point) : Prop :=
  convex_polygon poly /\ proper_edges poly /\
  exists z, p = map (fun v : point => P3 (fst v) (snd v) z) (poly ++ firstn 1 poly).

(** A signed distance: minus the distance to the foot on the left, plus on the right, else zero. *)
Definition signed_by (d : R) (q f : pt3) (left right : Prop) : Prop :=
  (left -> d = - planar q f) /\ (right -> d = planar q f) /\ (~ left -> ~ right -> d = 0).
(** A polyline whose ends are at least one metre apart; one that ends where it starts. *)
Definition open_ended (p : polyline) : Prop :=
  forall a b, nth_error p 0 = Some a -> nth_error p (length p - 1) = Some b ->
    1 <= (px a - px b) ^ 2 + (py a - py b) ^ 2 + (pz a - pz b) ^ 2.
Definition closed (p : polyline) : Prop :=
  forall a b, nth_error p 0 = Some a -> nth_error p (length p - 1) = Some b -> a = b.
Definition longest (road : list polyline) (p : polyline) : Prop :=
  forall p', In p' road -> (length p' <= length p)%nat.
(** A polyline is nearer to a point than all others. *)
Definition nearest_polyline (road : list polyline) (q : pt3) (p : polyline) : Prop :=
  forall p' i a' b' f', In p' road -> p' <> p -> is_segment p' i a' b' -> foot a' b' q f' ->
    exists j a b f, is_segment p j a b /\ foot a b q f /\ stretched q f < stretched q f'.

(** The signed distance of one point, as computed. *)
Definition point_distance (road : list polyline) (q : pt3) (d : R) : Prop :=
  exists rows, road_rows road = Ok rows /\ signed_distance_to_polylines 3 rows q = Ok d.
(** The bottom corners of a box: half the length forward or back, half the width left or right. *)
Definition is_bottom_corner (b : box3) (q : pt3) : Prop :=
  exists u v, (u = blength (b_box b) / 2 \/ u = - (blength (b_box b) / 2)) /\
    (v = bwidth (b_box b) / 2 \/ v = - (bwidth (b_box b) / 2)) /\
    q = P3 (bx (b_box b) + u * cos (bheading (b_box b)) - v * sin (bheading (b_box b)))
           (by_ (b_box b) + u * sin (bheading (b_box b)) + v * cos (bheading (b_box b)))
           (b_z b - b_height b / 2).
Definition footprint (b : box3) : point -> Prop :=
  in_rectangle (bx (b_box b)) (by_ (b_box b)) (blength (b_box b)) (bwidth (b_box b)) (bheading (b_box b)).
(** The box and validity of an object at a step. *)
Definition cell_at (objects : list (list (box3 * bool))) (g t : nat) : option (box3 * bool) :=
  match nth_error objects g with Some row => nth_error row t | None => None end.
