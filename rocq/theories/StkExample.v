(** Cases for the tensors and the metrics of visibility. *)
From Coq Require Import QArith List.
From Verif Require Import Base ResultLib StkModel StkSpec.
Import ListNotations.

Definition person (a b : Z) : keypoints :=
  {| location := {| shape := [2; 2]%nat; values := [1; 2; 3; 4]%Q |}; visibility := {| shape := [2]%nat; values := [a; b] |};
     has_visible := {| shape := []; values := [Z.ltb 1 a || Z.ltb 1 b] |} |}.
Lemma person_made a b : made_keypoints (person a b).
Proof. exists (Some (has_visible (person a b))). reflexivity. Qed.
Definition flat_box (h : option Q) : box :=
  {| center := {| shape := [2]%nat; values := [0; 0]%Q |}; size := {| shape := [2]%nat; values := [4; 2]%Q |};
     heading := option_map (fun q => {| shape := []; values := [q] |}) h |}.
Lemma box_made h : made_box (flat_box h).
Proof. reflexivity. Qed.
(** Labels: visible, visible; predictions: visible, occluded, then weights of two and one. *)
Definition calls : list call :=
  [{| gt := person 2 2; pr := person 2 1; box_dims := Some 2%nat; weights := None |};
   {| gt := person 0 2; pr := person 2 2; box_dims := None; weights := Some {| shape := [2]%nat; values := [2; 1]%Q |} |}].
Lemma calls_observed : mapM observe calls = Ok [[(true, true, 1%Q); (true, false, 1%Q)]; [(false, true, 2%Q); (true, true, 1%Q)]].
Proof. reflexivity. Qed.
