(** Boxes as sets of points, and frames.  Only the types of the inputs come from the model. *)
From Coq Require Import Reals List.
From Verif Require Import GeomModel FrameModel.
Import ListNotations.
Open Scope R_scope.

(** The point of a box at the coordinates (u, v, w) along its length, width and height; the heading counts
    counter-clockwise from the x axis. *)
Definition point_of (b : box7) (u v w : R) : R * R * R :=
  let '(x, y, z) := center b in
  (x + (u * cos (heading b) - v * sin (heading b)), y + (u * sin (heading b) + v * cos (heading b)), z + w).
(** The closed box. *)
Definition in_box (b : box7) (p : R * R * R) : Prop :=
  let '(l, wd, h) := dim b in
  exists u v w, Rabs u <= l / 2 /\ Rabs v <= wd / 2 /\ Rabs w <= h / 2 /\ p = point_of b u v w.
Definition solid (b : box7) : Prop := let '(l, wd, h) := dim b in l <> 0 /\ wd <> 0 /\ h <> 0.
Definition sized (b : box7) : Prop := let '(l, wd, h) := dim b in 0 < l /\ 0 < wd /\ 0 < h.
Definition in_box_2d (b : box5) (p : R * R) : Prop :=
  exists u v, Rabs u <= fst (dim2 b) / 2 /\ Rabs v <= snd (dim2 b) / 2 /\
    p = (fst (center2 b) + (u * cos (heading2 b) - v * sin (heading2 b)),
         snd (center2 b) + (u * sin (heading2 b) + v * cos (heading2 b))).
Definition solid_2d (b : box5) : Prop := fst (dim2 b) <> 0 /\ snd (dim2 b) <> 0.
Definition from_above (b : box7) : box5 :=
  let '(x, y, _) := center b in let '(l, w, _) := dim b in {| center2 := (x, y); dim2 := (l, w); heading2 := heading b |}.

(** A weighted sum of points, weights not negative and with sum one. *)
Fixpoint weighted (ws : list R) (ps : list (R * R * R)) : R * R * R :=
  match ws, ps with
  | w :: ws, (x, y, z) :: ps => let '(a, b, c) := weighted ws ps in (w * x + a, w * y + b, w * z + c)
  | _, _ => (0, 0, 0)
  end.
Fixpoint total (ws : list R) : R := match ws with [] => 0 | w :: ws => w + total ws end.
Definition hull (ps : list (R * R * R)) (p : R * R * R) : Prop :=
  exists ws, length ws = length ps /\ (forall w, In w ws -> 0 <= w) /\ total ws = 1 /\ p = weighted ws ps.

(** Where a point of a frame is in the world. *)
Definition world (f : pose) (p : R * R * R) : R * R * R :=
  let '(x, y, z) := p in
  let '(a, b, c) := r0 (rotation f) in let '(d, e, g) := r1 (rotation f) in let '(h, i, j) := r2 (rotation f) in
  let '(tx, ty, tz) := translation f in
  (a * x + b * y + c * z + tx, d * x + e * y + g * z + ty, h * x + i * y + j * z + tz).
Definition inner (a b : R * R * R) : R := fst (fst a) * fst (fst b) + snd (fst a) * snd (fst b) + snd a * snd b.
Definition axis_x (m : mat3) : R * R * R := (fst (fst (r0 m)), fst (fst (r1 m)), fst (fst (r2 m))).
Definition axis_y (m : mat3) : R * R * R := (snd (fst (r0 m)), snd (fst (r1 m)), snd (fst (r2 m))).
Definition axis_z (m : mat3) : R * R * R := (snd (r0 m), snd (r1 m), snd (r2 m)).
Definition outer (a b : R * R * R) : R * R * R :=
  let '(x, y, z) := a in let '(u, v, w) := b in (y * w - z * v, z * u - x * w, x * v - y * u).
(** A rotation: axes of length one, at right angles, right-handed. *)
Definition proper (m : mat3) : Prop :=
  inner (axis_x m) (axis_x m) = 1 /\ inner (axis_y m) (axis_y m) = 1 /\ inner (axis_x m) (axis_y m) = 0 /\
  axis_z m = outer (axis_x m) (axis_y m).
(** Two frames with the same up direction. *)
Definition level (f g : pose) : Prop := axis_z (rotation f) = axis_z (rotation g).
Definition singular (m : mat3) : Prop := inner (outer (axis_x m) (axis_y m)) (axis_z m) = 0.
Definition distance (p q : R * R * R) : R :=
  let '(x, y, z) := p in let '(u, v, w) := q in sqrt ((x - u) ^ 2 + (y - v) ^ 2 + (z - w) ^ 2).
(** Turning about an axis, counter-clockwise when looking against it. *)
Definition about_x (a : R) (p : R * R * R) : R * R * R :=
  let '(x, y, z) := p in (x, y * cos a - z * sin a, y * sin a + z * cos a).
Definition about_y (a : R) (p : R * R * R) : R * R * R :=
  let '(x, y, z) := p in (z * sin a + x * cos a, y, z * cos a - x * sin a).
Definition about_z (a : R) (p : R * R * R) : R * R * R :=
  let '(x, y, z) := p in (x * cos a - y * sin a, x * sin a + y * cos a, z).
