(** Specification of range image packing, scattering and indexing. *)
From Verif Require Import Base.
Open Scope Z_scope.

(** The resolution in metres of encoded ranges and elongations: 0.00585532144. *)
Definition resolution : Q := 585532144 # 100000000000.
(** [k] is the number of whole resolution steps in [x]. *)
Definition steps (x : Q) (k : Z) : Prop :=
  (inject_Z k * resolution <= x)%Q /\ (x < inject_Z (k + 1) * resolution)%Q.

(** The values of the points that carry the pixel index [rc]. *)
Definition at_pixel {V} (index : list (Z * Z)) (value : list V) (rc : Z * Z) : list V :=
  map snd (filter (fun iv => (fst (fst iv) =? fst rc) && (snd (fst iv) =? snd rc)) (combine index value)).
(** The values of the points whose flat index row * width + column is [p]. *)
Definition at_flat {V} (width : Z) (index : list (Z * Z)) (value : list V) (p : Z) : list V :=
  map snd (filter (fun iv => fst (fst iv) * width + snd (fst iv) =? p) (combine index value)).
Definition in_image (height width : Z) (rc : Z * Z) : Prop :=
  0 <= fst rc < height /\ 0 <= snd rc < width.

(** [x] is the smallest element of [l]. *)
Definition least (x : Z) (l : list Z) : Prop := In x l /\ forall y, In y l -> x <= y.

(** Two angles denote the same direction. *)
Definition same_direction (pi a b : Q) : Prop := exists k : Z, (a == b + inject_Z k * (2 * pi))%Q.
(** Azimuth of the centre of column [c] of [w] (columns run from +pi down to -pi). *)
Definition centre (pi : Q) (w c : Z) : Q := (pi - (2 * inject_Z c + 1) * pi / inject_Z w)%Q.

(** Where the pixel of the range image shows in camera [camera], given its (at most two) projections
    (camera name, x, y): the first one of that camera, as (row, column) = (y, x). *)
Definition shown_at (camera : Z) (first second : Z * Z * Z) : option (Z * Z) :=
  let '(n1, x1, y1) := first in let '(n2, x2, y2) := second in
  if n1 =? camera then Some (y1, x1) else if n2 =? camera then Some (y2, x2) else None.
