(** Tensors by index and shares of weights, in plain terms. *)
From Coq Require Import QArith List.
From Verif Require Import Base StkModel.
Import ListNotations.

(** Where the value at an index is: the last index runs fastest. *)
Fixpoint offset (sh idx : list nat) : nat :=
  match sh, idx with
  | _ :: sh', i :: idx' => (i * fold_right Nat.mul 1%nat sh' + offset sh' idx')%nat
  | _, _ => 0%nat
  end.
Definition valid (sh idx : list nat) : Prop := Forall2 lt idx sh.
Definition entry {A} (t : tensor A) (idx : list nat) : option A := nth_error (values t) (offset (shape t) idx).
(** As many values as the shape says. *)
Definition full {A} (t : tensor A) : Prop := length (values t) = fold_right Nat.mul 1%nat (shape t).
(** Keypoints and boxes that passed the checks on making them. *)
Definition made_keypoints (k : keypoints) : Prop := exists h, make_keypoints (location k) (visibility k) h = Ok k.
Definition made_box (b : box) : Prop := make_box (center b) (size b) (heading b) = Ok b.
Definition mixed (vs : list box) : Prop := (exists b, In b vs /\ heading b = None) /\ (exists b, In b vs /\ heading b <> None).

(** Seen as visible in the labels, in the prediction, and the weight. *)
Notation observation := (bool * bool * Q)%type.
Definition labelled (o : observation) : bool := fst (fst o).
Definition predicted (o : observation) : bool := snd (fst o).
Definition total (f : observation -> bool) (l : list observation) : Q :=
  fold_right (fun o s => (if f o then snd o + s else s)%Q) 0%Q l.
(** The share the weights of the part have in those of the whole; nothing of nothing is nothing. *)
Definition share (part whole : observation -> bool) (l : list observation) (q : Q) : Prop :=
  (total whole l == 0 /\ q == 0)%Q \/ (~ total whole l == 0 /\ q * total whole l == total part l)%Q.
Definition swapped (c : call) : call := {| gt := pr c; pr := gt c; box_dims := box_dims c; weights := weights c |}.
(** The weight of one keypoint: one, the same for all, that of its object, or its own. *)
Definition weight_at (sh : list nat) (w : option (tensor Q)) (idx : list nat) : option Q :=
  match w with
  | None => Some 1%Q
  | Some t => match shape t with
              | [] => entry t []
              | _ => if Nat.eqb (rank t) (length sh) then entry t idx else entry t (removelast idx)
              end
  end.
