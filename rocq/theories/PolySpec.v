(** What convex polygons and their common part are, with no reference to the model. *)
From Coq Require Import Reals List Arith.
Import ListNotations.
Open Scope R_scope.

Notation pt := (R * R)%type.
(** The corners, counted around. *)
Definition corner (P : list pt) (i : nat) : pt := nth (Nat.modulo i (length P)) P (0, 0).
(** Twice the area of the triangle a, b, z: positive if z lies to the left of the way from a to b. *)
Definition turn (a b z : pt) : R :=
  (fst b - fst a) * (snd z - snd a) - (snd b - snd a) * (fst z - fst a).
(** The points of the polygon, boundary included: to the left of every edge or on its line. *)
Definition inside (P : list pt) (z : pt) : Prop :=
  P <> [] /\ forall i, 0 <= turn (corner P i) (corner P (S i)) z.
(** Counter-clockwise and strictly convex: a corner lies to the left of every edge it is not an end of. *)
Definition convex (P : list pt) : Prop :=
  (3 <= length P)%nat /\
  forall i j, Nat.modulo j (length P) <> Nat.modulo i (length P) ->
              Nat.modulo j (length P) <> Nat.modulo (S i) (length P) ->
              0 < turn (corner P i) (corner P (S i)) (corner P j).
(** z lies between a and b, or is one of them. *)
Definition between (a b z : pt) : Prop :=
  exists t, 0 <= t <= 1 /\ fst z = fst a + t * (fst b - fst a) /\ snd z = snd a + t * (snd b - snd a).
(** No corner of either polygon lies on the boundary of the other. *)
Definition no_contact (P Q : list pt) : Prop :=
  forall i j, ~ between (corner Q j) (corner Q (S j)) (corner P i) /\
              ~ between (corner P i) (corner P (S i)) (corner Q j).
(** A rectangle given by centre, length, width and direction of the length. *)
Definition in_rectangle (cx cy l w h : R) (z : pt) : Prop :=
  Rabs (cos h * (fst z - cx) + sin h * (snd z - cy)) <= l / 2 /\
  Rabs (- sin h * (fst z - cx) + cos h * (snd z - cy)) <= w / 2.
(** Twice the area of a polygon, by the shoelace formula. *)
Definition twice_area (P : list pt) : R :=
  fold_right Rplus 0 (map (fun i => fst (corner P i) * snd (corner P (S i)) - snd (corner P i) * fst (corner P (S i)))
                          (seq 0 (length P))).
