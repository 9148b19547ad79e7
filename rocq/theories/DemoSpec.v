(** What the example submissions of the latency challenge should do. *)
From Coq Require Import Reals String List.
From Verif Require Import Base DemoModel.
Import ListNotations.
Open Scope R_scope.

(** The place in the world of a point in the frame of a vehicle. *)
Definition in_world (p : pose) (v : vec) : vec :=
  let at_ (r : vec) (t : R) := vx r * vx v + vy r * vy v + vz r * vz v + t in
  Vec (at_ (row0 (rot p)) (vx (trans p))) (at_ (row1 (rot p)) (vy (trans p))) (at_ (row2 (rot p)) (vz (trans p))).
Definition scalar (a b : vec) : R := vx a * vx b + vy a * vy b + vz a * vz b.
Definition orthonormal (a b c : vec) : Prop :=
  scalar a a = 1 /\ scalar b b = 1 /\ scalar c c = 1 /\ scalar a b = 0 /\ scalar a c = 0 /\ scalar b c = 0.
Definition rows_orthonormal (m : mat) : Prop := orthonormal (row0 m) (row1 m) (row2 m).
Definition columns_orthonormal (m : mat) : Prop :=
  orthonormal (Vec (vx (row0 m)) (vx (row1 m)) (vx (row2 m))) (Vec (vy (row0 m)) (vy (row1 m)) (vy (row2 m)))
              (Vec (vz (row0 m)) (vz (row1 m)) (vz (row2 m))).
Definition squared_distance (a b : vec) : R := (vx a - vx b) ^ 2 + (vy a - vy b) ^ 2 + (vz a - vz b) ^ 2.

(** The same measurement seen from another pose. *)
Definition same_measurement (old new : pose) (p q : point) : Prop :=
  range q = range p /\ intensity q = intensity p /\ elongation q = elongation p /\
  in_world new (position q) = in_world old (position p).

(** [visible ri l]: [l] lists the pixels of [ri] with positive range in reading order. *)
Inductive picks {A} (P : A -> Prop) : list A -> list A -> Prop :=
| picks_nil : picks P [] []
| picks_take : forall a l r, P a -> picks P l r -> picks P (a :: l) (a :: r)
| picks_skip : forall a l r, ~ P a -> picks P l r -> picks P (a :: l) r.
Definition visible (ri : range_image) (l : list point) : Prop := picks (fun p => 0 < range p) (concat ri) l.

(** The first value of a name. *)
Inductive holds (v : value) (name : string) : kwargs -> Prop :=
| holds_here : forall k, holds v name ((name, v) :: k)
| holds_later : forall n w k, n <> name -> holds v name k -> holds v name ((n, w) :: k).

(** The extent of a reported 2D box in pixels. *)
Definition left_of (b : box2) : R := center_x b - width b / 2.
Definition right_of (b : box2) : R := center_x b + width b / 2.
Definition top_of (b : box2) : R := center_y b - height b / 2.
Definition bottom_of (b : box2) : R := center_y b + height b / 2.
(** Classes of the detector that the challenge knows, with their numbers there: vehicle 1, pedestrian 2, sign 3, cyclist 4. *)
Inductive wod_class : Z -> Z -> Prop :=
| person : wod_class 1 2
| bicycle : wod_class 2 4
| car : wod_class 3 1
| motorcycle : wod_class 4 1
| bus : wod_class 6 1
| truck : wod_class 8 1
| stop_sign : wod_class 13 3.
