(** Specification of angles: congruence and circular distance. *)
From Coq Require Import Qabs.
From Verif Require Import Base.
Open Scope Q_scope.
Definition congruent (period a b : Q) : Prop := exists k : Z, a == b + inject_Z k * period.
(** [d] is the distance of [a] and [b] on the circle: the least |a - b + k * period|. *)
Definition circular_distance (period a b d : Q) : Prop :=
  (exists k : Z, d == Qabs (a - b + inject_Z k * period)) /\
  forall k : Z, d <= Qabs (a - b + inject_Z k * period).
