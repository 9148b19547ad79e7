(** What axis aligned boxes mean: sets of points of the plane. *)
From Coq Require Import QArith List.
From Verif Require Import BoxModel.

(** The closed rectangle of a box. *)
Definition in_box (b : aabox QK) (x y : Q) : Prop :=
  cx b - hx b <= x /\ x <= cx b + hx b /\ cy b - hy b <= y /\ y <= cy b + hy b.
Definition in_interior (b : aabox QK) (x y : Q) : Prop :=
  cx b - hx b < x /\ x < cx b + hx b /\ cy b - hy b < y /\ y < cy b + hy b.
(** Half offsets are not negative. *)
Definition proper (b : aabox QK) : Prop := 0 <= hx b /\ 0 <= hy b.
Definition share_point (a b : aabox QK) : Prop := exists x y, in_box a x y /\ in_box b x y.
(** Length of the intersection of two closed intervals, 0 when they are disjoint. *)
Definition common_length (lo1 hi1 lo2 hi2 : Q) : Q :=
  let l := (if Qlt_le_dec hi1 hi2 then hi1 else hi2) - (if Qlt_le_dec lo1 lo2 then lo2 else lo1) in
  if Qlt_le_dec l 0 then 0 else l.
Definition common_area (a b : aabox QK) : Q :=
  common_length (cx a - hx a) (cx a + hx a) (cx b - hx b) (cx b + hx b) *
  common_length (cy a - hy a) (cy a + hy a) (cy b - hy b) (cy b + hy b).
Definition dist2 (x y x' y' : Q) : Q := (x - x') * (x - x') + (y - y') * (y - y').
(** The same for integer boxes. *)
Definition zin_box (b : aabox ZK) (x y : Z) : Prop :=
  (cx b - hx b <= x /\ x <= cx b + hx b /\ cy b - hy b <= y /\ y <= cy b + hy b)%Z.
