(** Small tensors for the examples and counterexamples. *)
From Coq Require Import String.
From Verif Require Import Base ResultLib ParseModel ParseSpec.
Open Scope list_scope.
Open Scope Z_scope.

Definition vec {A} (d : A) (l : list A) : tensor A :=
  {| dims := [List.length l]; elem := fun idx => nth (nth 0 idx 0%nat) l d |}.

(** Four aligned boxes in frames 7, 3, 7, 3 and the same with sequences. *)
Definition example_inputs : inputs :=
  {| bbox := {| dims := [4; 4]%nat;
                elem := fun idx => inject_Z (Z.of_nat (10 * nth 0 idx 0%nat + nth 1 idx 0%nat)) |};
     type := vec 0 [1; 2; 1; 4]; frame_id := vec 0 [7; 3; 7; 3];
     score := Some (vec 0%Q [1 # 2; 1 # 3; 1 # 4; 1 # 5]%Q); overlap_nlz := None;
     detection_difficulty := Some (vec 0 [1; 1; 2; 2]); tracking_difficulty := None;
     object_speed := None |}.
Definition example_sequences : tensor string := vec ""%string ["b"; "a"; "b"; "b"]%string.
Definition example_ids : tensor Z := vec 0 [40; 41; 42; 43].

Lemma example_ranked : ranked example_inputs.
Proof. repeat split; intros t E; inversion E; reflexivity. Qed.
Lemma example_sized : sized example_inputs 4 4.
Proof.
  repeat split; try (intros t E; inversion E; reflexivity).
  intros _. left. reflexivity.
Qed.

(** No boxes at all. *)
Definition no_inputs : inputs :=
  {| bbox := {| dims := [0; 9]%nat; elem := fun _ => 0%Q |}; type := vec 0 []; frame_id := vec 0 [];
     score := None; overlap_nlz := None; detection_difficulty := None; tracking_difficulty := None;
     object_speed := None |}.
Lemma none_sized : sized no_inputs 0 9.
Proof. repeat split; try (intros t E; inversion E; reflexivity). intros H. exfalso. apply H. reflexivity. Qed.

(** One scenario with two agents, one predicted: validity of both, the
    predicted index, and the object ids are given. *)
Definition small_motion (valid : list bool) (index : Z) (ids : list Z) : motion_inputs :=
  {| pred_trajectory := {| dims := [1; 1; 1; 1; 1; 2]%nat; elem := fun idx => inject_Z (Z.of_nat (nth 5 idx 0%nat)) |};
     pred_score := {| dims := [1; 1; 1]%nat; elem := fun _ => (1 # 2)%Q |};
     gt_trajectory := {| dims := [1; 2; 1; 7]%nat; elem := fun idx => inject_Z (Z.of_nat (nth 1 idx 0%nat)) |};
     gt_is_valid := {| dims := [1; 2; 1]%nat; elem := fun idx => nth (nth 1 idx 0%nat) valid false |};
     pred_gt_indices := {| dims := [1; 1; 1]%nat; elem := fun _ => index |};
     pred_gt_indices_mask := {| dims := [1; 1; 1]%nat; elem := fun _ => true |};
     m_object_type := {| dims := [1; 2]%nat; elem := fun _ => 1 |};
     m_object_id := {| dims := [1; 2]%nat; elem := fun idx => nth (nth 1 idx 0%nat) ids 0 |};
     m_scenario_id := vec ""%string ["s"]%string |}.
Definition small_sizes : sizes :=
  {| n_batch := 1; n_groups := 1; n_top := 1; n_per_group := 1; n_pred_steps := 1; n_agents := 2; n_gt_steps := 1 |}.
Lemma small_shapes valid index ids : motion_shapes (small_motion valid index ids) small_sizes.
Proof. repeat split. exists 2%nat. reflexivity. Qed.
Lemma small_wide valid index ids : wide (small_motion valid index ids).
Proof. exists 1%nat, 1%nat, 1%nat, 1%nat, 1%nat, 2%nat. split; [reflexivity|lia]. Qed.

(** The ids the predictions of a result are attributed to, and the objects of
    interest of its scenarios. *)
Definition predicted_ids (m : list (string * parsed)) : list Z :=
  flat_map (fun e => flat_map (fun g => flat_map (fun j => map tj_object (jt_trajectories j)) g)
                       (pr_groups (snd (snd e)))) m.
Definition interesting_ids (m : list (string * parsed)) : list Z := flat_map (fun e => sc_interest (fst (snd e))) m.

(** Two batch elements of the same scenario; in the second no agent is valid. *)
Definition repeated_motion : motion_inputs :=
  {| pred_trajectory := {| dims := [2; 1; 1; 1; 1; 2]%nat; elem := fun _ => 0%Q |};
     pred_score := {| dims := [2; 1; 1]%nat; elem := fun _ => (1 # 2)%Q |};
     gt_trajectory := {| dims := [2; 1; 1; 7]%nat; elem := fun _ => 0%Q |};
     gt_is_valid := {| dims := [2; 1; 1]%nat; elem := fun idx => Nat.eqb (nth 0 idx 0%nat) 0 |};
     pred_gt_indices := {| dims := [2; 1; 1]%nat; elem := fun _ => 0 |};
     pred_gt_indices_mask := {| dims := [2; 1; 1]%nat; elem := fun _ => true |};
     m_object_type := {| dims := [2; 1]%nat; elem := fun _ => 1 |};
     m_object_id := {| dims := [2; 1]%nat; elem := fun idx => Z.of_nat (nth 0 idx 0%nat) |};
     m_scenario_id := vec ""%string ["s"; "s"]%string |}.
