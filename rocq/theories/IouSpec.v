(** What the intersection over union of boxes and the line of sight alignment mean. *)
From Coq Require Import QArith Qabs.
From Verif Require Import BoxSpec IouModel.
Local Open Scope Q_scope.

(** Dimensions between 1 cm and 1000 km (the height only matters below for 3D boxes). *)
Definition usable (b : lbox) : Prop :=
  1 # 100 < blength b /\ blength b < 1000000 /\ 1 # 100 < bwidth b /\ bwidth b < 1000000 /\ bheight b < 1000000.
Definition usable3 (b : lbox) : Prop := usable b /\ 1 # 100 < bheight b.

(** The axis aligned rectangle of a box, closed and open. *)
Definition in_rect (b : lbox) (x y : Q) : Prop :=
  center_x b - blength b / 2 <= x /\ x <= center_x b + blength b / 2 /\
  center_y b - bwidth b / 2 <= y /\ y <= center_y b + bwidth b / 2.
Definition in_open_rect (b : lbox) (x y : Q) : Prop :=
  center_x b - blength b / 2 < x /\ x < center_x b + blength b / 2 /\
  center_y b - bwidth b / 2 < y /\ y < center_y b + bwidth b / 2.
(** Area of the intersection of the two axis aligned rectangles. *)
Definition rect_common (a b : lbox) : Q :=
  common_length (center_x a - blength a / 2) (center_x a + blength a / 2)
                (center_x b - blength b / 2) (center_x b + blength b / 2) *
  common_length (center_y a - bwidth a / 2) (center_y a + bwidth a / 2)
                (center_y b - bwidth b / 2) (center_y b + bwidth b / 2).
Definition z_common (a b : lbox) : Q :=
  common_length (center_z a - bheight a / 2) (center_z a + bheight a / 2)
                (center_z b - bheight b / 2) (center_z b + bheight b / 2).
Definition area (b : lbox) : Q := blength b * bwidth b.
Definition volume (b : lbox) : Q := blength b * bwidth b * bheight b.
(** Intersection over union. *)
Definition over_union (common size1 size2 : Q) : Q := common / (size1 + size2 - common).

(** What is assumed of the polygon intersection area: never more than either polygon, and
    independent of the order. *)
Definition area_contract (poly : lbox -> lbox -> Q) : Prop :=
  forall a b, usable a -> usable b -> 0 <= poly a b /\ poly a b <= area a /\ poly a b <= area b /\ poly a b == poly b a.

(** Points of space. *)
Definition center (b : lbox) : Q * Q * Q := (center_x b, center_y b, center_z b).
Definition dist3 (p q : Q * Q * Q) : Q :=
  let '(x, y, z) := p in let '(x', y', z') := q in
  (x - x') * (x - x') + (y - y') * (y - y') + (z - z') * (z - z').
Definition scale (t : Q) (p : Q * Q * Q) : Q * Q * Q := let '(x, y, z) := p in (x * t, y * t, z * t).
Definition dot3 (p q : Q * Q * Q) : Q :=
  let '(x, y, z) := p in let '(x', y', z') := q in x * x' + y * y' + z * z'.
Definition minus3 (p q : Q * Q * Q) : Q * Q * Q :=
  let '(x, y, z) := p in let '(x', y', z') := q in (x - x', y - y', z - z').
(** Everything but the centre is unchanged. *)
Definition same_extent (a b : lbox) : Prop :=
  blength a = blength b /\ bwidth a = bwidth b /\ bheight a = bheight b /\ bheading a = bheading b.
(** How far along the line of sight to the ground truth the prediction is from it; [r] is the
    distance between sensor and ground truth. *)
Definition longitudinal_error (s p g : Q * Q * Q) (r : Q) : Q :=
  Qabs (dot3 (minus3 p s) (minus3 g s) / r - r).
Definition same_point (p q : Q * Q * Q) : Prop :=
  let '(x, y, z) := p in let '(x', y', z') := q in x == x' /\ y == y' /\ z == z'.
(** [c] is the point of the line through the origin and [p] that is closest to [g]. *)
Definition closest_on_line (c p g : Q * Q * Q) : Prop :=
  (exists t, same_point c (scale t p)) /\ forall t, dist3 c g <= dist3 (scale t p) g.
(** The larger of a distance and one micrometre. *)
Definition at_least_micro (r : Q) : Q := if Qlt_le_dec r (1 # 1000000) then 1 # 1000000 else r.
(** The tolerance of a ground truth at distance [r]. *)
Definition tolerance (cfg : let_config) (r : Q) : Q :=
  if Qlt_le_dec (tolerance_percentage cfg * r) (min_tolerance cfg) then min_tolerance cfg
  else tolerance_percentage cfg * r.
