(** What the distances of a scene mean: the shapes of the boxes, overlap and gap. *)
From Coq Require Import Reals List.
From Verif Require Import GeomModel GeomSpec.
Open Scope R_scope.

(** The box with corners rounded by the given part of its smaller side. *)
Definition box_shape (factor : R) (b : obox) : point -> Prop :=
  in_rounded_rectangle (Rmin (blength b) (bwidth b) * factor / 2) (bx b) (by_ b) (blength b) (bwidth b) (bheading b).
(** The shapes share more than boundary points. *)
Definition overlap (factor : R) (a b : obox) : Prop :=
  exists p, interior (box_shape factor a) p /\ interior (box_shape factor b) p.
(** The least distance between a point of one shape and a point of the other. *)
Definition gap (factor : R) (a b : obox) (d : R) : Prop :=
  (exists p q, box_shape factor a p /\ box_shape factor b q /\ dist p q = d) /\
  forall p q, box_shape factor a p -> box_shape factor b q -> d <= dist p q.
(** The box and validity of an object at a step. *)
Definition at_step (objects : list (list (obox * bool))) (g t : nat) : option (obox * bool) :=
  match nth_error objects g with Some row => nth_error row t | None => None end.
Definition valid_at (objects : list (list (obox * bool))) (g t : nat) (b : obox) : Prop :=
  at_step objects g t = Some (b, true).
(** Valid boxes have a size. *)
Definition sized (objects : list (list (obox * bool))) : Prop :=
  forall g t b, valid_at objects g t b -> 0 < blength b /\ 0 < bwidth b <= 10000000000.
(** The row of an evaluated object: the number of evaluated objects before it. *)
Definition row_of (mask : list bool) (g : nat) : nat := count_occ Bool.bool_dec (firstn g mask) true.
Definition entry (out : list (list R)) (i t : nat) : option R :=
  match nth_error out i with Some row => nth_error row t | None => None end.
