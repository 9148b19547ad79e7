(** Model of utils/example_utils.py. *)
From Coq Require Import String.
From Verif Require Import Base.
Open Scope list_scope.

(** A number of a float list. Simplification: numbers are rational and the tolerance is computed without rounding. *)
Inductive fl := Fin (q : Q) | PosInf | NegInf | NaN.
(** tf.train.Feature: a oneof of three lists, possibly not set. *)
Inductive feature := NotSet | BytesList (l : list string) | FloatList (l : list fl) | Int64List (l : list Z).
(** The map from names to features, in the order in which it is enumerated. *)
Definition example := list (string * feature).

Definition lookup (key : string) (e : example) : option feature :=
  match find (fun kf => String.eqb (fst kf) key) e with Some kf => Some (snd kf) | None => None end.
(** feature.float_list.value (46, 48, 49): empty when the feature is of another kind. *)
Definition floats (f : feature) : list fl := match f with FloatList l => l | _ => [] end.

(** numpy.isclose of two numbers: the tolerance is relative to the second; infinite numbers must be equal and NaN is never close. *)
Definition isclose (atol rtol : Q) (a b : fl) : bool :=
  match a, b with
  | Fin x, Fin y => Qle_bool (Qabs (x - y)) (atol + rtol * Qabs y)
  | PosInf, PosInf | NegInf, NegInf => true
  | _, _ => false
  end.
Definition allclose (atol rtol : Q) (a b : list fl) : bool := forallb (fun ab => isclose atol rtol (fst ab) (snd ab)) (combine a b).

(** feature_b != feature (54) when feature_b is not a float list: comparison of messages, as a value of equality. *)
Fixpoint list_eqb {A} (eqb : A -> A -> bool) (a b : list A) : bool :=
  match a, b with
  | [], [] => true
  | x :: a', y :: b' => eqb x y && list_eqb eqb a' b'
  | _, _ => false
  end.
Definition message_equal (a b : feature) : bool :=
  match a, b with
  | NotSet, NotSet => true
  | BytesList x, BytesList y => list_eqb String.eqb x y
  | Int64List x, Int64List y => list_eqb Z.eqb x y
  | _, _ => false
  end.

(** examples_equal (21-58). *)
Fixpoint features_match (atol rtol : Q) (a : list (string * feature)) (b : example) : bool :=
  match a with
  | [] => true
  | (key, feature) :: a' =>
      match lookup key b with
      | None => false
      | Some feature_b =>
          match feature_b with
          | FloatList vb =>
              if negb (Nat.eqb (List.length (floats feature)) (List.length vb)) then false
              else if negb (allclose atol rtol (floats feature) vb) then false
              else features_match atol rtol a' b
          | _ => if negb (message_equal feature_b feature) then false else features_match atol rtol a' b
          end
      end
  end.
Fixpoint keys_known (b : list (string * feature)) (a : example) : bool :=
  match b with
  | [] => true
  | (key, _) :: b' => match lookup key a with None => false | Some _ => keys_known b' a end
  end.
Definition examples_equal (atol rtol : Q) (a b : example) : bool :=
  if features_match atol rtol a b then keys_known b a else false.
