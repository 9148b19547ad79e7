(** What following an object and the time to collision mean. *)
From Coq Require Import Reals List.
From Verif Require Import GeomModel GeomSpec GeomSceneSpec.
Open Scope R_scope.

Definition footprint_of (o : obox) : point -> Prop :=
  in_rectangle (bx o) (by_ o) (blength o) (bwidth o) (bheading o).
(** Coordinates of a point seen from a box: ahead of and to the left of its centre. *)
Definition forward (e : obox) (p : point) : R :=
  (fst p - bx e) * cos (bheading e) + (snd p - by_ e) * sin (bheading e).
Definition leftward (e : obox) (p : point) : R :=
  (snd p - by_ e) * cos (bheading e) - (fst p - bx e) * sin (bheading e).
(** The distance along the heading from the front of [e] to the rearmost point of [o]. *)
Definition distance_ahead (e o : obox) (d : R) : Prop :=
  (exists p, footprint_of o p /\ forward e p - blength e / 2 = d) /\
  forall p, footprint_of o p -> d <= forward e p - blength e / 2.
(** Moved sideways by [s], [o] has a point in the strip that [e] covers when it drives straight. *)
Definition in_path (e o : obox) (s : R) : Prop :=
  exists p, footprint_of o p /\ Rabs (leftward e p + s) < bwidth e / 2.
(** [e] follows [o]: all of it is ahead of the front, headings differ by at most 75 degrees, it is in the path
    and either stays there when moved by up to half a metre or headings differ by at most 10 degrees.  The
    difference of headings is that of the numbers, not that of the directions. *)
Definition follows (e o : obox) : Prop :=
  (forall p, footprint_of o p -> blength e / 2 < forward e p) /\
  Rabs (bheading o - bheading e) <= 75 * PI / 180 /\
  in_path e o 0 /\
  ((forall s, Rabs s <= 1 / 2 -> in_path e o s) \/ Rabs (bheading o - bheading e) <= 10 * PI / 180).
(** The speed of an object at a step between two others. *)
Definition has_speed (dt : R) (objects : list (list (obox * bool))) (g t : nat) (v : R) : Prop :=
  exists u a b va vb, t = S u /\ at_step objects g u = Some (a, va) /\ at_step objects g (S t) = Some (b, vb) /\
    v = dist (bx a, by_ a) (bx b, by_ b) / 2 / dt.
(** Nothing is farther than ten thousand kilometres from the axes, no side is longer or negative. *)
Definition bounded (objects : list (list (obox * bool))) : Prop :=
  forall g t b v, at_step objects g t = Some (b, v) ->
    Rabs (bx b) <= 10000000 /\ Rabs (by_ b) <= 10000000 /\ 0 <= blength b <= 10000000 /\ 0 <= bwidth b <= 10000000.
(** Valid objects that the object [g] follows at a step, and the nearest one. *)
Definition followed (objects : list (list (obox * bool))) (g t g' : nat) (d : R) : Prop :=
  exists e v o, at_step objects g t = Some (e, v) /\ at_step objects g' t = Some (o, true) /\ follows e o /\ distance_ahead e o d.
Definition nearest_followed (objects : list (list (obox * bool))) (g t g' : nat) (d : R) : Prop :=
  followed objects g t g' d /\
  forall g2 d2, followed objects g t g2 d2 -> d < d2 \/ (d = d2 /\ (g' <= g2)%nat).
(** The same place, shape and direction, headings within a half turn. *)
Definition same_placed (a b : obox * bool) : Prop :=
  snd a = snd b /\ (forall p, footprint_of (fst a) p <-> footprint_of (fst b) p) /\ bx (fst a) = bx (fst b) /\ by_ (fst a) = by_ (fst b) /\
  cos (bheading (fst a)) = cos (bheading (fst b)) /\ sin (bheading (fst a)) = sin (bheading (fst b)) /\
  Rabs (bheading (fst a)) <= PI /\ Rabs (bheading (fst b)) <= PI.
Definition same_when_valid (a b : obox * bool) : Prop := snd a = snd b /\ (snd a = true -> fst a = fst b).
