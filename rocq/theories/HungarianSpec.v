(** Specification of maximum weight assignment, independent of the algorithm. *)
From Coq Require Import Permutation.
From Verif Require Import Base.
Open Scope Z_scope.

Definition Zsum (l : list Z) : Z := fold_right Z.add 0 l.

(** [sigma] assigns column [nth i sigma] to row i. *)
Definition assignment (n : nat) (sigma : list nat) : Prop := Permutation sigma (seq 0 n).

(** Total weight of an assignment in the row-major n x n matrix [edge]. *)
Definition total_weight (n : nat) (edge : list Z) (sigma : list nat) : Z :=
  Zsum (map (fun i => nth (i * n + nth i sigma 0%nat)%nat edge 0) (seq 0 n)).

Definition max_assignment (n : nat) (edge : list Z) (sigma : list nat) : Prop :=
  assignment n sigma /\
  forall tau, assignment n tau -> total_weight n edge tau <= total_weight n edge sigma.
