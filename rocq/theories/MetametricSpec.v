(** What the metametric properties talk about. *)
From Coq Require Import QArith.
From Verif Require Import Base MetametricModel.
Open Scope Q_scope.

Definition total (l : list Q) : Q := fold_right Qplus 0 l.

(** [a] is the arithmetic mean of [l]. *)
Definition is_mean (l : list Q) (a : Q) : Prop := l <> [] /\ a * inject_Z (Z.of_nat (length l)) == total l.

(** [a] is a number equal to [q]; [a] is in the unit interval. *)
Definition is_number (a : option Q) (q : Q) : Prop := exists x, a = Some x /\ x == q.
Definition in_unit (a : option Q) : Prop := exists x, a = Some x /\ 0 <= x <= 1.

(** The values of the valid positions. *)
Inductive selected {A} : list A -> list bool -> list A -> Prop :=
| sel_nil : selected [] [] []
| sel_yes x l v r : selected l v r -> selected (x :: l) (true :: v) (x :: r)
| sel_no x l v r : selected l v r -> selected (x :: l) (false :: v) r.

(** The score of a feature in a message. *)
Definition scores (m : message) (s : metric -> Q) : Prop := forall f, is_number (get m (Likelihood f)) (s f).

(** Object [o] of rollout [r] is flagged at a step where the log is valid. *)
Definition flagged (valid : list (list bool)) (per_step : list (list (list bool))) (r o : nat) : Prop :=
  exists t rollout row vrow,
    nth_error per_step r = Some rollout /\ nth_error rollout o = Some row /\ nth_error valid o = Some vrow /\
    nth_error row t = Some true /\ nth_error vrow t = Some true.

(** All rollouts hold the same objects as the log. *)
Definition rectangular (valid : list (list bool)) (per_step : list (list (list bool))) : Prop :=
  forall rollout, In rollout per_step -> length rollout = length valid.
