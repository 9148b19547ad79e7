(** Rays and boxes as sets of points.  Nothing here comes from the model but the types of its inputs. *)
From Coq Require Import Reals.
From Verif Require Import FrameModel FrameSpec.
Open Scope R_scope.

(** The point of a ray at the parameter [t]. *)
Definition ray_at (o d : R * R * R) (t : R) : R * R * R :=
  let '(a, b, c) := o in let '(u, v, w) := d in (a + t * u, b + t * v, c + t * w).
(** The closed box of the given side lengths around the origin, and its inside without the faces. *)
Definition in_centered (s p : R * R * R) : Prop :=
  let '(l, w, h) := s in let '(x, y, z) := p in Rabs x <= l / 2 /\ Rabs y <= w / 2 /\ Rabs z <= h / 2.
Definition strictly_in_centered (s p : R * R * R) : Prop :=
  let '(l, w, h) := s in let '(x, y, z) := p in Rabs x < l / 2 /\ Rabs y < w / 2 /\ Rabs z < h / 2.
(** The ray meets the box ahead of its origin. *)
Definition meets_ahead (s o d : R * R * R) : Prop := exists t, 0 < t /\ in_centered s (ray_at o d t).
Definition lengths (s : R * R * R) : Prop := let '(l, w, h) := s in 0 <= l /\ 0 <= w /\ 0 <= h.
(** No component of the direction is zero. *)
Definition slanted (d : R * R * R) : Prop := let '(u, v, w) := d in u <> 0 /\ v <> 0 /\ w <> 0.
(** The direction with every zero replaced by 1 / 10^10, and the axes it stays at right angles to. *)
Definition nudge (u u' : R) : Prop := (u <> 0 /\ u' = u) \/ (u = 0 /\ u' = / 10 ^ 10).
Definition nudged (d d' : R * R * R) : Prop :=
  let '(u, v, w) := d in let '(u', v', w') := d' in nudge u u' /\ nudge v v' /\ nudge w w'.
(** The sides longer or shorter by [2 m] along the axes on which the direction is zero. *)
Definition widened (d : R * R * R) (m : R) (s s' : R * R * R) : Prop :=
  let side u l l' := (u <> 0 /\ l' = l) \/ (u = 0 /\ l' = l + 2 * m) in
  let '(u, v, w) := d in let '(l, wd, h) := s in let '(l', wd', h') := s' in side u l l' /\ side v wd wd' /\ side w h h'.
(** A ray against a turned box. *)
Definition meets_box_ahead (b : box7) (o d : R * R * R) : Prop := exists t, 0 < t /\ in_box b (ray_at o d t).
Definition length3 (d : R * R * R) : R := let '(u, v, w) := d in sqrt (u ^ 2 + v ^ 2 + w ^ 2).
Definition minus3 (p q : R * R * R) : R * R * R :=
  let '(x, y, z) := p in let '(u, v, w) := q in (x - u, y - v, z - w).
