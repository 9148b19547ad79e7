(** Boxes as sets of points, for C70. *)
From Coq Require Import Reals.
From Verif Require Import GeomModel PolySpec.
Open Scope R_scope.

(** The code gives boxes with a side of at most a centimetre no overlap. *)
Definition big (b : obox) : Prop := / 100 < blength b /\ / 100 < bwidth b.
Definition covers (b : obox) (z : pt) : Prop := in_rectangle (bx b) (by_ b) (blength b) (bwidth b) (bheading b) z.
