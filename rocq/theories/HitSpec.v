(** Headings of predictions and overlaps of boxes in plain terms. *)
From Coq Require Import Reals List.
From Verif Require Import GeomModel PolySpec PolyBoxSpec LidSpec.
Open Scope R_scope.

(** The way from one point to another. *)
Definition way (a b : R * R) : R * R := (fst b - fst a, snd b - snd a).
Definition stays (a b : R * R) : Prop := a = b.
(** The angle [h] in (-pi, pi] is the direction of the way; 0 if there is none. *)
Definition direction (a b : R * R) (h : R) : Prop := has_angle (fst b - fst a) (snd b - snd a) h.
(** Two directions are opposite. *)
Definition opposite (a b : R) : Prop := cos a = - cos b /\ sin a = - sin b.
(** [h] is halfway between two directions on the shorter side. *)
Definition halfway (a b h : R) : Prop := cos (h - a) = cos (h - b) /\ 0 < cos (h - a).
(** The same direction, up to full turns. *)
Definition same_direction (a b : R) : Prop := cos a = cos b /\ sin a = sin b.
(** Turning the plane around the origin, and moving it. *)
Definition turned (t : R) (p : R * R) : R * R := (cos t * fst p - sin t * snd p, sin t * fst p + cos t * snd p).
Definition moved (d p : R * R) : R * R := (fst p + fst d, snd p + snd d).
(** A box with positive sides. *)
Definition proper (b : obox) : Prop := 0 < blength b /\ 0 < bwidth b.
(** The box of given sides around a place, facing a direction. *)
Definition box_at (p : R * R) (h len wid : R) : obox := {| bx := fst p; by_ := snd p; blength := len; bwidth := wid; bheading := h |}.
