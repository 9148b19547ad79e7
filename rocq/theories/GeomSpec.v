(** Plane geometry used to state the properties of the distances between boxes. *)
From Coq Require Import Reals List.
Open Scope R_scope.

Notation point := (R * R)%type.
Definition dist (p q : point) : R := sqrt ((fst p - fst q) ^ 2 + (snd p - snd q) ^ 2).
Definition between (a b : point) (t : R) : point :=
  (fst a + t * (fst b - fst a), snd a + t * (snd b - snd a)).
Definition on_segment (a b x : point) : Prop := exists t, 0 <= t <= 1 /\ x = between a b t.
(** Positive if [c] is on the left of the line from [a] to [b], zero if it is on it. *)
Definition turn (a b c : point) : R :=
  (fst b - fst a) * (snd c - snd a) - (snd b - snd a) * (fst c - fst a).

(** Sets of points. *)
Definition convex (C : point -> Prop) : Prop :=
  forall a b x, C a -> C b -> on_segment a b x -> C x.
Definition interior (C : point -> Prop) (p : point) : Prop :=
  exists e, 0 < e /\ forall x, dist p x < e -> C x.
Definition sum_of (A B : point -> Prop) (x : point) : Prop :=
  exists a b, A a /\ B b /\ x = (fst a + fst b, snd a + snd b).
(** [d] is the least distance from [q] to a point of the set. *)
Definition distance_to (C : point -> Prop) (q : point) (d : R) : Prop :=
  (exists x, C x /\ dist q x = d) /\ forall x, C x -> d <= dist q x.

(** Polygons: lists of vertices, the last one joined to the first one. *)
Definition vertex (poly : list point) (i : nat) : point := nth (Nat.modulo i (length poly)) poly (0, 0).
Definition on_boundary (poly : list point) (x : point) : Prop :=
  exists i, on_segment (vertex poly i) (vertex poly (S i)) x.
(** The smallest convex set with the vertices. *)
Definition hull (poly : list point) (x : point) : Prop :=
  forall C, convex C -> (forall p, In p poly -> C p) -> C x.
Definition proper_edges (poly : list point) : Prop := forall i, vertex poly i <> vertex poly (S i).
(** Counter-clockwise: no vertex is on the right of an edge; not all vertices are on a line. *)
Definition convex_polygon (poly : list point) : Prop :=
  poly <> nil /\
  (forall i j, 0 <= turn (vertex poly i) (vertex poly (S i)) (vertex poly j)) /\
  exists i j k, turn (vertex poly i) (vertex poly j) (vertex poly k) <> 0.

(** The closed rectangle of a centre, length, width and heading. *)
Definition in_rectangle (x y l w h : R) (p : point) : Prop :=
  exists u v, - (l / 2) <= u <= l / 2 /\ - (w / 2) <= v <= w / 2 /\
    p = (x + u * cos h - v * sin h, y + u * sin h + v * cos h).
(** The rectangle with corners rounded by circles of radius [r]: the points at most [r] away from the
    rectangle shrunk by [r] on each side. *)
Definition in_rounded_rectangle (r x y l w h : R) (p : point) : Prop :=
  exists c, in_rectangle x y (l - 2 * r) (w - 2 * r) h c /\ dist p c <= r.
(** Four corners of a rectangle of positive size, counter-clockwise. *)
Definition is_rectangle (p0 p1 p2 p3 : point) : Prop :=
  (fst p0 + fst p2 = fst p1 + fst p3 /\ snd p0 + snd p2 = snd p1 + snd p3) /\
  (fst p1 - fst p0) * (fst p2 - fst p1) + (snd p1 - snd p0) * (snd p2 - snd p1) = 0 /\
  0 < turn p0 p1 p2.
