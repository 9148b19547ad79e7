(** When two examples should be taken for the same. Shared with the model: the data types. *)
From Coq Require Import String.
From Verif Require Import Base ExEqModel.
Open Scope list_scope.

(** Names are unique. *)
Definition is_map (e : example) : Prop := NoDup (map fst e).

(** Two numbers are within the tolerance; the relative part refers to the second. *)
Definition near (atol rtol : Q) (a b : fl) : Prop :=
  (exists x y, a = Fin x /\ b = Fin y /\ (Qabs (x - y) <= atol + rtol * Qabs y)%Q) \/ (a = PosInf /\ b = PosInf) \/ (a = NegInf /\ b = NegInf).

(** Features of the same kind with the same values. *)
Definition agree (atol rtol : Q) (a b : feature) : Prop :=
  match a, b with
  | FloatList x, FloatList y => Forall2 (near atol rtol) x y
  | NotSet, NotSet => True
  | BytesList x, BytesList y => x = y
  | Int64List x, Int64List y => x = y
  | _, _ => False
  end.
(** The exception: an empty float list agrees with anything of another kind on the other side. *)
Definition confused (a b : feature) : Prop := b = FloatList [] /\ forall l, a <> FloatList l.

(** The same names, with related features. *)
Definition related (R : feature -> feature -> Prop) (a b : example) : Prop :=
  (forall k, In k (map fst a) <-> In k (map fst b))
  /\ forall k f g, In (k, f) a -> In (k, g) b -> R f g.

Definition has_nan (e : example) : Prop := exists k l, In (k, FloatList l) e /\ In NaN l.
(** No feature is an empty float list. *)
Definition no_empty_floats (e : example) : Prop := forall k, ~ In (k, FloatList []) e.
