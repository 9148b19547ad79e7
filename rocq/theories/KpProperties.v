(** Properties of keypoint tensors (C76) and of labels grouped by object (C77). *)
From Verif Require Import Base KpModel KpSpec KpProofs.
Open Scope list_scope.
Open Scope Z_scope.

(** C76: one row per requested type, from the last keypoint of that type. *)
Theorem C76_tensors {V} (protos : list (keypoint_proto V)) default order :
  Forall2 (keypoint_row protos default) order (create_keypoints_tensors protos default order).
Proof. exact (tensors_spec protos default order). Qed.
Print Assumptions C76_tensors.

(** C76: a subset holds, for each requested type, the value stored for that type. *)
Theorem C76_subset {V} (values : list V) src_order dst_order :
  (length values = length src_order -> incl dst_order src_order -> dst_order <> [] ->
   exists out, select_subset values src_order dst_order = Ok out /\
     Forall2 (fun t v => last_with (fun tv => fst tv = t) (combine src_order values) (t, v)) dst_order out) /\
  (~ (length values = length src_order /\ incl dst_order src_order /\ dst_order <> []) ->
   select_subset values src_order dst_order = Err ValueError).
Proof.
  exact (conj (fun H1 H2 H3 => subset_eq values src_order dst_order (conj H1 (conj H2 H3)))
              (subset_refuses values src_order dst_order)).
Qed.
Print Assumptions C76_subset.

(** C76: selecting from the tensors of an object gives the tensors made in the other order. *)
Theorem C76_subset_of_tensors {V} (protos : list (keypoint_proto V)) default src_order dst_order :
  incl dst_order src_order -> dst_order <> [] ->
  select_subset (create_keypoints_tensors protos default src_order) src_order dst_order
  = Ok (create_keypoints_tensors protos default dst_order).
Proof. exact (subset_of_tensors protos default src_order dst_order). Qed.
Print Assumptions C76_subset_of_tensors.

(** C76: poses with keypoints, and only they, give the keypoint tensors, in order. *)
Theorem C76_pose_keypoints {V} (poses : list (pose V)) default order :
  Forall2 (pose_rows default order) (with_keypoints poses) (fst (create_pose_estimation_tensors poses default order)).
Proof. exact (pose_keypoints_rows poses default order). Qed.
Print Assumptions C76_pose_keypoints.

(** C76: the boxes stand beside their keypoints if all of these poses have one; there are none if
    none has one; otherwise there are fewer boxes than people. *)
Theorem C76_pose_boxes {V} (poses : list (pose V)) default order :
  (Forall has_box (with_keypoints poses) -> exists bs,
     snd (create_pose_estimation_tensors poses default order) = Some bs /\ Forall2 box_row (with_keypoints poses) bs) /\
  (with_keypoints poses <> [] -> Forall (fun p => ~ has_box p) (with_keypoints poses) ->
     snd (create_pose_estimation_tensors poses default order) = None) /\
  (~ Forall has_box (with_keypoints poses) -> ~ Forall (fun p => ~ has_box p) (with_keypoints poses) ->
     exists bs, snd (create_pose_estimation_tensors poses default order) = Some bs /\
       (length bs < length (fst (create_pose_estimation_tensors poses default order)))%nat).
Proof. exact (pose_boxes_rows poses default order). Qed.
Print Assumptions C76_pose_boxes.

(** C76: a box is not always beside the keypoints of its pose. *)
Theorem C76_boxes_aligned_refuted : exists (poses : list (pose Z)) default order p q b bs,
  with_keypoints poses = [p; q] /\ snd (create_pose_estimation_tensors poses default order) = Some bs /\
  nth_error bs 0 = Some b /\ ~ box_row p b /\ box_row q b.
Proof.
  exists [{| object_type := 2; pose_box := None; pose_keypoints := Some [] |};
          {| object_type := 2; pose_box := Some (Build_label_box 1 2 3 4 5 6 0); pose_keypoints := Some [] |}], 0, [1].
  eexists _, _, _, _. split; [reflexivity|]. split; [reflexivity|]. split; [reflexivity|]. split.
  - intros (lb & H & _). discriminate.
  - eexists. split; [reflexivity|]. repeat split; reflexivity.
Qed.
Print Assumptions C76_boxes_aligned_refuted.

(** C76: converting a box and making tensors of it keeps the center and the heading, and exchanges the
    first two dimensions. *)
Theorem C76_box_conversion b :
  let t := create_laser_box_tensors (label_box_from_box_proto b) in
  center t = b_center b /\ box_heading t = b_heading b /\
  size t = (snd (fst (b_size b)), fst (fst (b_size b)), snd (b_size b)).
Proof. exact (match b with Build_box3d (_, _, _) (_, _, _) _ => conj eq_refl (conj eq_refl eq_refl) end). Qed.
Print Assumptions C76_box_conversion.

(** C76: the size of a converted box is not that of the box (length along x, width along y). *)
Theorem C76_box_size_refuted : exists b, size (create_laser_box_tensors (label_box_from_box_proto b)) <> b_size b.
Proof. exists {| b_center := (0, 0, 0)%Q; b_size := (4, 2, 1)%Q; b_heading := 0%Q |}. discriminate. Qed.
Print Assumptions C76_box_size_refuted.

(** C77: one entry per laser object, with its last laser label and the last camera label of each camera. *)
Theorem C77_group {V} (f : frame V) :
  NoDup (map fst (group_object_labels f)) /\
  (forall id, In id (map fst (group_object_labels f)) <-> exists l, In l (laser_labels f) /\ l_id l = id) /\
  (forall id o, In (id, o) (group_object_labels f) -> object_entry f id o).
Proof. exact (group_spec f). Qed.
Print Assumptions C77_group.

(** C77: the camera labels of an object are not always a dictionary. *)
Theorem C77_camera_is_dict_refuted : exists (f : frame Z) id o, In (id, o) (group_object_labels f) /\ camera o = None.
Proof.
  exists {| laser_labels := [{| l_id := 5; l_type := 2; l_box := Build_label_box 1 2 3 4 5 6 0; l_keypoints := [] |}];
            camera_labels := [] |}, 5.
  eexists. split; [left; reflexivity | reflexivity].
Qed.
Print Assumptions C77_camera_is_dict_refuted.

(** Concrete cases. *)
Definition nose v : keypoint_proto Z := {| kp_type := 1; kp_location := v; kp_occluded := false |}.
Definition knee v : keypoint_proto Z := {| kp_type := 8; kp_location := v; kp_occluded := true |}.
Example C76_example :
  create_keypoints_tensors [nose 10; knee 20; nose 11] 0 [8; 5; 1] = [(20, 1); (0, 0); (11, 2)] /\
  select_subset [(20, 1); (0, 0); (11, 2)] [8; 5; 1] [1; 8] = Ok [(11, 2); (20, 1)] /\
  select_subset [(20, 1); (0, 0); (11, 2)] [8; 5; 1] [1; 9] = Err ValueError.
Proof. repeat split; reflexivity. Qed.
Example C76_poses_example :
  create_pose_estimation_tensors
    [{| object_type := 2; pose_box := Some (Build_label_box 1 2 3 4 5 6 0); pose_keypoints := Some [nose 10] |};
     {| object_type := 2; pose_box := Some (Build_label_box 9 9 9 9 9 9 9); pose_keypoints := None |};
     {| object_type := 4; pose_box := Some (Build_label_box 7 8 9 1 1 1 0); pose_keypoints := Some [] |}] 0 [1; 8]
  = ([[(10, 2); (0, 0)]; [(0, 0); (0, 0)]],
     Some [{| center := (1, 2, 3)%Q; size := (4, 5, 6)%Q; box_heading := 0%Q |};
           {| center := (7, 8, 9)%Q; size := (1, 1, 1)%Q; box_heading := 0%Q |}]).
Proof. reflexivity. Qed.
Example C77_example :
  let b := Build_label_box 1 2 3 4 5 6 0 in
  let cam k a := {| c_association := a; c_box := b; c_keypoints := [nose k] |} in
  map (fun io => (fst io, object_type (laser (snd io)),
                  match camera (snd io) with Some m => map (fun nl => (fst nl, map kp_location (c_keypoints (snd nl)))) m | None => [] end))
    (group_object_labels
      {| laser_labels := [{| l_id := 5; l_type := 2; l_box := b; l_keypoints := [] |};
                          {| l_id := 6; l_type := 4; l_box := b; l_keypoints := [] |};
                          {| l_id := 5; l_type := 1; l_box := b; l_keypoints := [] |}];
         camera_labels := [(1, [cam 10 (Some 5); cam 11 None; cam 12 (Some 5)]); (2, [cam 13 (Some 5); cam 14 (Some 7)])] |})
  = [(5, 1, [(1, [12]); (2, [13])]); (6, 4, [])].
Proof. reflexivity. Qed.
