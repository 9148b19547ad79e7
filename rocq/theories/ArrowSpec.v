(** What column types should be. *)
From Coq Require Import String.
From Verif Require Import Base ComponentModel ArrowModel.
Open Scope string_scope.

(** Every leaf has a type. *)
Inductive annotated : tty -> Prop :=
| leaf_annotated a : annotated (TLeaf (Some a))
| node_annotated k fs : (forall n r t, In (n, r, t) fs -> annotated t) -> annotated (TNode k fs).
(** The leaves of a value fit the types of the leaves; a missing dataclass has none. *)
Inductive conforms {V} (fits : option arrow -> V -> Prop) : tty -> val V -> Prop :=
| leaf_conforms a x : fits a x -> conforms fits (TLeaf a) (VLeaf x)
| missing_conforms k fs : conforms fits (TNode k fs) VNone
| node_conforms k fs vs : Forall2 (fun f v => conforms fits (snd f) v) fs vs -> conforms fits (TNode k fs) (VNode vs).
(** A row of columns fits the types of the columns: the same names in the same order. *)
Definition row_fits {V} (fits : option arrow -> V -> Prop) (types : dict (option arrow)) (row : dict V) : Prop :=
  Forall2 (fun t x => fst t = fst x /\ fits (snd t) (snd x)) types row.
Definition is_list (a : arrow) : Prop := match a with ListOf _ | ListOfSize _ _ => True | _ => False end.
(** All leaves of a tree have list types. *)
Inductive all_lists : tty -> Prop :=
| leaf_list a : is_list a -> all_lists (TLeaf (Some a))
| node_lists k fs : (forall n r t, In (n, r, t) fs -> all_lists t) -> all_lists (TNode k fs).
(** Every repeated field has only lists below it. *)
Inductive repeated_lists : tty -> Prop :=
| leaf_repeated a : repeated_lists (TLeaf a)
| node_repeated k fs : (forall n r t, In (n, r, t) fs -> repeated_lists t /\ (r = true -> all_lists t)) -> repeated_lists (TNode k fs).
