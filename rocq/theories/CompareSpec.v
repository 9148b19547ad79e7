(** When latency results and a submission agree, without the matching algorithm and the maps. *)
From Coq Require Import String Permutation.
From Verif Require Import Base HungarianSpec MatcherSpec ToolModel ToolSpec CompareModel.
Open Scope list_scope.
Open Scope Z_scope.

Section Spec.
Context {B : Type}.
Notation obj := (object (label B)).
(** Detections that are compared, and the frame (context, time and camera) they belong to. *)
Definition in_frame (minimum : Q) (k : string * Z * camera_name) (o : obj) : Prop :=
  (minimum <= score o)%Q /\ (0 < kind (label_box o))%nat /\ k = (context o, stamp o, camera o).
Definition close (a b : obj) : Prop := (Qabs.Qabs (score a - score b) <= 1 # 20)%Q.

Variables (overlap : B -> B -> Q) (threshold : Q).
Definition same_detection (a b : obj) : Prop :=
  kind (label_box a) = kind (label_box b) /\ (threshold <= overlap (shape (label_box a)) (shape (label_box b)))%Q.
(** One to one pairs of the same detections in the two lists. *)
Definition pairing (l f : list obj) (mu : list (option nat)) : Prop :=
  valid_assignment (length l) (length f) (fun i j => exists a b, nth_error l i = Some a /\ nth_error f j = Some b /\ same_detection a b) mu.
(** Overlap in millionths, to the nearest integer. *)
Definition gain (l f : list obj) (i j : nat) : Z :=
  match nth_error l i, nth_error f j with
  | Some a, Some b => if Nat.eqb (kind (label_box a)) (kind (label_box b))
                      then Qfloor (overlap (shape (label_box a)) (shape (label_box b)) * 1000000 + (1 # 2)) else 0
  | _, _ => 0
  end.
Definition best (l f : list obj) (mu : list (option nat)) : Prop :=
  pairing l f mu /\ forall mu', pairing l f mu' -> assignment_weight (length l) (gain l f) mu' <= assignment_weight (length l) (gain l f) mu.
(** Number of pairs whose scores are close. *)
Definition agrees (l f : list obj) (mu : list (option nat)) (i : nat) : bool :=
  match nth_error l i, nth i mu None with
  | Some a, Some j => match nth_error f j with Some b => Qle_bool (Qabs.Qabs (score a - score b)) (1 # 20) | None => false end
  | _, _ => false
  end.
Definition agreements (l f : list obj) (mu : list (option nat)) : nat := length (filter (agrees l f mu) (seq 0 (length l))).
(** At most one in twenty detections does not agree. *)
Definition tolerated (l f : list obj) (mu : list (option nat)) : Prop :=
  20 * (Z.of_nat (Nat.max (length l) (length f)) - Z.of_nat (agreements l f mu)) <= Z.of_nat (length l).
(** Types are those of the enumeration and overlaps are fractions. *)
Definition proper (l f : list obj) : Prop :=
  (0 < threshold)%Q /\ (forall a, In a l -> (0 < kind (label_box a) < 5)%nat) /\
  (forall a b, In a l -> In b f -> (0 <= overlap (shape (label_box a)) (shape (label_box b)) <= 1)%Q).
End Spec.
