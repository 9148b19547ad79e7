(** Specification of the average precision of scored samples (confidence, correct?). *)
From Coq Require Import Qminmax Permutation Sorting.Sorted.
From Verif Require Import Base.
Open Scope Q_scope.

Definition found (o : list bool) : Z := Z.of_nat (length (filter (fun b => b) o)).
(** Precision and recall after the first k outcomes, with n ground truths. *)
Definition precision (o : list bool) (k : nat) : Q := inject_Z (found (firstn k o)) / inject_Z (Z.of_nat k).
Definition recall (n : Z) (o : list bool) (k : nat) : Q := inject_Z (found (firstn k o)) / inject_Z n.
Definition max_list (l : list Q) : Q := fold_right Qmax 0 l.
Definition sum_list (l : list Q) : Q := fold_right Qplus 0 l.
(** Best precision at rank k or later. *)
Definition best_from (o : list bool) (k : nat) : Q := max_list (map (precision o) (seq k (S (length o) - k))).
(** Sum over the ranks of the recall increment times the best precision from there on. *)
Definition interpolated_area (n : Z) (o : list bool) : Q :=
  sum_list (map (fun k => (recall n o k - recall n o (k - 1)) * best_from o k) (seq 1 (length o))).
(** Best precision among the ranks at which at least j ground truths have been found. *)
Definition best_at_recall (o : list bool) (j : Z) : Q :=
  max_list (map (fun k => if (j <=? found (firstn k o))%Z then precision o k else 0) (seq 1 (length o))).
(** Mean over the ground truths of that precision (0 for those never found). *)
Definition mean_over_truths (n : Z) (o : list bool) : Q :=
  sum_list (map (fun j => best_at_recall o (Z.of_nat j)) (seq 1 (Z.to_nat n))) / inject_Z n.

(** A ranking by falling confidence. *)
Definition by_confidence (s l : list (Q * bool)) : Prop :=
  Permutation s l /\ StronglySorted (fun a b => fst b <= fst a) l.
(** The pessimistic one: at equal confidence the incorrect samples come first. *)
Definition ranked (s l : list (Q * bool)) : Prop :=
  Permutation s l /\
  StronglySorted (fun a b => fst b < fst a \/ (fst a == fst b /\ (snd a = true -> snd b = true))) l.
