(** What a set of submission shards should contain. *)
From Verif Require Import Base SubmitModel.
Open Scope Z_scope.

Definition at_least (a : num) (b : Q) : Prop := exists q, a = Num q /\ (b <= q)%Q.
Definition below (a : num) (b : Q) : Prop := exists q, a = Num q /\ (q < b)%Q.
Definition box_numbers (b : box) : list num := [center_x b; center_y b; center_z b; blength b; bwidth b; bheight b; heading b].
Definition raised (a : num) (b : Q) (r : num) : Prop := (below a b /\ r = Num b) \/ (~ below a b /\ r = a).

Section Submit.
Context {R : Type}.
(** The object is submitted. *)
Definition submitted (o : object R) : Prop := ~ below (score o) min_score /\ ~ In NaN (box_numbers (obox o)).
(** [o'] is [o] with the three extents raised to the smallest size. *)
Definition written (o o' : object R) : Prop :=
  score o' = score o /\ rest o' = rest o /\ center_x (obox o') = center_x (obox o) /\ center_y (obox o') = center_y (obox o) /\
  center_z (obox o') = center_z (obox o) /\ heading (obox o') = heading (obox o) /\
  raised (blength (obox o)) min_size (blength (obox o')) /\ raised (bwidth (obox o)) min_size (bwidth (obox o')) /\
  raised (bheight (obox o)) min_size (bheight (obox o')).
(** [picks i l l']: [l'] is obtained from the objects of [l], whose positions start at [i], by keeping
    those that are submitted and whose position satisfies [p]. *)
Inductive picks (p : nat -> Prop) : nat -> list (object R) -> list (object R) -> Prop :=
| picks_nil i : picks p i [] []
| picks_keep i o o' l l' : submitted o -> p i -> written o o' -> picks p (S i) l l' -> picks p i (o :: l) (o' :: l')
| picks_skip i o l l' : ~ (submitted o /\ p i) -> picks p (S i) l l' -> picks p i (o :: l) l'.
(** Shard [k] of [n]: what the template has, then the objects of each file in turn. *)
Definition shard_of (n k : nat) (t : list (object R)) (files : list (list (object R))) (s : list (object R)) : Prop :=
  exists parts, Forall2 (picks (fun i => Nat.modulo i n = k) 0) files parts /\ s = t ++ concat parts.
End Submit.
