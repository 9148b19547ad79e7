(** What the kinematic properties talk about. *)
From Coq Require Import QArith.
From Verif Require Import Base.
Open Scope Q_scope.

(** Step [i] of a sequence of booleans is true. *)
Definition true_at (l : list bool) (i : nat) : Prop := nth_error l i = Some true.

(** Value of a sequence at step [i], when it is a number. *)
Definition number_at (l : list (option Q)) (i : nat) (q : Q) : Prop :=
  exists q', nth_error l i = Some (Some q') /\ q' == q.

(** The sequence has no NaN. *)
Definition numbers (l : list (option Q)) : Prop := forall i v, nth_error l i = Some v -> v <> None.

(** [a] and [b] are the same angle, modulo turns of [p]. *)
Definition same_mod (p a b : Q) : Prop := exists k : Z, a == b + inject_Z k * p.

(** Two sequences agree on the steps where [valid] is true. *)
Definition agree_on (valid : list bool) (l l' : list (option Q)) : Prop :=
  length l = length l' /\ forall i, true_at valid i -> nth_error l i = nth_error l' i.
