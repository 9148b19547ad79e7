(** Specifications for components and their columns. *)
From Coq Require Import String.
From Verif Require Import Base ComponentModel.
Open Scope string_scope.

(** v is a value of type t; None may stand for any dataclass. *)
Fixpoint typed {V} (t : ty) (v : val V) {struct t} : Prop :=
  match t, v with
  | Leaf, VLeaf _ => True
  | Leaf, _ => False
  | Node _ fs, VNode vs =>
      (fix go (fs : list (string * bool * ty)) (vs : list (val V)) {struct fs} : Prop :=
         match fs, vs with
         | [], [] => True
         | (_, _, t') :: fs', v' :: vs' => typed t' v' /\ go fs' vs'
         | _, _ => False
         end) fs vs
  | Node _ _, VNone => True
  | Node _ _, VLeaf _ => False
  end.
Fixpoint typed_fields {V} (fs : list (string * bool * ty)) (vs : list (val V)) : Prop :=
  match fs, vs with
  | [], [] => True
  | (_, _, t) :: fs', v :: vs' => typed t v /\ typed_fields fs' vs'
  | _, _ => False
  end.
(** A value of component c: every key is present. *)
Fixpoint keys_present {V} (fs : list (string * bool * ty)) (vs : list (val V)) : Prop :=
  match fs, vs with
  | (_, _, t) :: fs', v :: vs' => (is_key t = true -> v <> VNone) /\ keys_present fs' vs'
  | _, _ => True
  end.
Definition instance {V} (c : component) (vs : list (val V)) : Prop := typed_fields (cfields c) vs /\ keys_present (cfields c) vs.
(** No dataclass is replaced by None. *)
Fixpoint full {V} (v : val V) : bool :=
  match v with VLeaf _ => true | VNone => false | VNode vs => forallb (fun w => full w) vs end.
(** The value with every missing dataclass replaced by one whose leaves are None. *)
Fixpoint filled {V} (none : V) (t : ty) (v : val V) {struct t} : val V :=
  match t with
  | Leaf => match v with VLeaf x => VLeaf x | _ => VLeaf none end
  | Node _ fs =>
      VNode ((fix go (fs : list (string * bool * ty)) (vs : list (val V)) {struct fs} : list (val V) :=
         match fs, vs with
         | (_, _, t') :: fs', v' :: vs' => filled none t' v' :: go fs' vs'
         | _, _ => []
         end) fs (match v with VNode vs => vs | _ => map (fun _ => VNone) fs end))
  end.
Fixpoint filled_fields {V} (none : V) (fs : list (string * bool * ty)) (vs : list (val V)) : list (val V) :=
  match fs, vs with
  | (_, _, t) :: fs', v :: vs' => filled none t v :: filled_fields none fs' vs'
  | _, _ => []
  end.
(** The instance in which every leaf holds its own position in the tree. *)
Fixpoint address (t : ty) (p : list nat) {struct t} : val (option (list nat)) :=
  match t with
  | Leaf => VLeaf (Some p)
  | Node _ fs => VNode ((fix go (i : nat) (fs : list (string * bool * ty)) {struct fs} : list (val (option (list nat))) :=
                           match fs with [] => [] | (_, _, t') :: fs' => address t' (p ++ [i]) :: go (S i) fs' end) O fs)
  end.
Fixpoint addresses (i : nat) (fs : list (string * bool * ty)) : list (val (option (list nat))) :=
  match fs with [] => [] | (_, _, t) :: fs' => address t [i] :: addresses (S i) fs' end.
(** A component whose address instance survives the round trip: no column shadows another. *)
Definition unshadowed (c : component) : Prop :=
  from_dict c (to_flatten_dict None c (addresses 0 (cfields c))) = Ok (addresses 0 (cfields c)).
