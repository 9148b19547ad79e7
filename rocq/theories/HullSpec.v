(** Polygons, their boxes and movements in plain terms. *)
From Coq Require Import Reals List.
From Verif Require Import PolySpec.
Import ListNotations.
Open Scope R_scope.

(** The square of a distance, and points closer than 1e-10. *)
Definition square_distance (a b : pt) : R := (fst a - fst b)² + (snd a - snd b)².
Definition close (a b : pt) : Prop := square_distance a b < (/ 10000000000)².
(** Points left out of a list. *)
Inductive part_of {A} : list A -> list A -> Prop :=
| part_nil : part_of [] []
| part_keep a l m : part_of l m -> part_of (a :: l) (a :: m)
| part_drop a l m : part_of l m -> part_of l (a :: m).
(** No point is close to the next one. *)
Definition spaced (l : list pt) : Prop := forall i a b, nth_error l i = Some a -> nth_error l (S i) = Some b -> ~ close a b.
(** The first and the last point are not close. *)
Definition open_ends (l : list pt) : Prop := forall a b, hd_error l = Some a -> nth_error l (length l - 1) = Some b -> ~ close a b.
(** The smallest upright rectangle around the points. *)
Definition tight (l : list pt) (lo hi : pt) : Prop :=
  (forall p, In p l -> fst lo <= fst p <= fst hi /\ snd lo <= snd p <= snd hi) /\
  (exists p, In p l /\ fst p = fst lo) /\ (exists p, In p l /\ snd p = snd lo) /\
  (exists p, In p l /\ fst p = fst hi) /\ (exists p, In p l /\ snd p = snd hi).
(** Turning by [t] around [c], then moving by [d]. *)
Record motion := { by_angle : R; around : pt; then_by : pt }.
Definition carried (m : motion) (p : pt) : pt :=
  (fst (around m) + cos (by_angle m) * (fst p - fst (around m)) - sin (by_angle m) * (snd p - snd (around m)) + fst (then_by m),
   snd (around m) + sin (by_angle m) * (fst p - fst (around m)) + cos (by_angle m) * (snd p - snd (around m)) + snd (then_by m)).
Definition carried_all (ms : list motion) (p : pt) : pt := fold_left (fun q m => carried m q) ms p.
(** The mirror image. *)
Definition mirrored (p : pt) : pt := (fst p, - snd p).
Definition clockwise (P : list pt) : Prop := convex (map mirrored P).
