(** C45 and C46: tensors of objects and motion predictions are parsed into the
    objects, tracks and predictions they stand for. *)
From Coq Require Import String Sorting.Sorted Sorting.Permutation.
From Verif Require Import Base ResultLib ParseModel ParseSpec ParseMapProofs ParseObjectProofs
  ParseMotionProofs ParseExamples.
Open Scope list_scope.
Open Scope Z_scope.

(** ** C46 *)

(** Grouping by frame succeeds exactly when the tensors agree on the number of
    rows and, if there are any, the boxes are of a known kind and speeds have
    two components. *)
Theorem C46_grouping_succeeds : forall inp, ranked inp ->
  ((exists m, parse_objects inp = Ok m) <-> exists n dof, sized inp n dof).
Proof. exact parse_objects_succeeds. Qed.
Print Assumptions C46_grouping_succeeds.

(** Each frame holds its rows in input order; every row is in exactly one frame. *)
Theorem C46_grouping_lossless : forall inp n dof m, sized inp n dof -> parse_objects inp = Ok m ->
  NoDup (map fst m)
  /\ (forall f l, holds m f l <-> l <> [] /\ l = map (expected_object inp dof) (rows_of_frame inp n f))
  /\ Permutation (List.concat (map snd m)) (map (expected_object inp dof) (seq 0 n)).
Proof. exact parse_objects_content. Qed.
Print Assumptions C46_grouping_lossless.

Theorem C46_sequences_succeed : forall inp sid oid, ranked inp -> rank sid 1 -> rank oid 1 ->
  ((exists m, parse_sequences inp sid oid = Ok m)
   <-> exists n dof, sized inp n dof /\ dims sid = [n] /\ dims oid = [n]).
Proof. exact parse_sequences_succeeds. Qed.
Print Assumptions C46_sequences_succeed.

Theorem C46_sequences_lossless : forall inp sid oid n dof m,
  sized inp n dof -> dims sid = [n] -> dims oid = [n] -> parse_sequences inp sid oid = Ok m ->
  NoDup (map fst m)
  /\ (forall s, In s (map fst m) <-> exists i, (i < n)%nat /\ elem sid [i] = s)
  /\ (forall s fs, holds m s fs ->
        NoDup (map fst fs)
        /\ forall f l, holds fs f l
           <-> l <> [] /\ l = map (fun i => identified (elem oid [i]) (expected_object inp dof i))
                                (rows_of_sequence inp sid n s f))
  /\ Permutation (List.concat (map snd (List.concat (map snd m))))
       (map (fun i => identified (elem oid [i]) (expected_object inp dof i)) (seq 0 n)).
Proof. exact parse_sequences_content. Qed.
Print Assumptions C46_sequences_lossless.

(** The detection op sees the frames of predictions and ground truths together,
    in increasing order of frame id; without any row it sees one empty frame. *)
Theorem C46_detection_frames : forall pd gt np dp ng dg pm gm,
  sized pd np dp -> sized gt ng dg -> parse_objects pd = Ok pm -> parse_objects gt = Ok gm ->
  (np = 0%nat /\ ng = 0%nat /\ detection_frames pm gm = [([], [])])
  \/ ((np <> 0%nat \/ ng <> 0%nat)
      /\ exists ids, StronglySorted Z.lt ids
         /\ (forall f, In f ids <-> (exists i, (i < np)%nat /\ elem (frame_id pd) [i] = f)
                                 \/ (exists i, (i < ng)%nat /\ elem (frame_id gt) [i] = f))
         /\ detection_frames pm gm
            = map (fun f => (map (expected_object pd dp) (rows_of_frame pd np f),
                             map (expected_object gt dg) (rows_of_frame gt ng f))) ids).
Proof. exact detection_frames_spec. Qed.
Print Assumptions C46_detection_frames.

(** The tracking op likewise, for each sequence, in increasing order of names. *)
Theorem C46_tracking_sequences : forall pd ps po gt gs go np dp ng dg pm gm,
  sized pd np dp -> dims ps = [np] -> dims po = [np] ->
  sized gt ng dg -> dims gs = [ng] -> dims go = [ng] ->
  parse_sequences pd ps po = Ok pm -> parse_sequences gt gs go = Ok gm ->
  exists names, StronglySorted (fun a b => String.compare a b = Lt) names
    /\ (forall s, In s names <-> (exists i, (i < np)%nat /\ elem ps [i] = s)
                              \/ (exists i, (i < ng)%nat /\ elem gs [i] = s))
    /\ Forall2 (fun s frames =>
         exists ids, StronglySorted Z.lt ids
         /\ (forall f, In f ids <-> (exists i, (i < np)%nat /\ elem ps [i] = s /\ elem (frame_id pd) [i] = f)
                                 \/ (exists i, (i < ng)%nat /\ elem gs [i] = s /\ elem (frame_id gt) [i] = f))
         /\ frames = map (fun f =>
              (map (fun i => identified (elem po [i]) (expected_object pd dp i)) (rows_of_sequence pd ps np s f),
               map (fun i => identified (elem go [i]) (expected_object gt dg i)) (rows_of_sequence gt gs ng s f)))
              ids)
       names (tracking_sequences pm gm).
Proof. exact tracking_sequences_spec. Qed.
Print Assumptions C46_tracking_sequences.

(** The number of columns asked for a kind of box gives boxes with a heading unless the kind is
    axis aligned (3), and with a vertical extent exactly if it is 3D (1). *)
Theorem C46_box_kinds : forall k,
  ((exists d, get_desired_box_dof k = Ok d) <-> 1 <= k <= 3)
  /\ forall d t i, get_desired_box_dof k = Ok d ->
     boxes_known (Z.to_nat d)
     /\ (heading (expected_box t (Z.to_nat d) i) = None <-> k = 3)
     /\ (height (expected_box t (Z.to_nat d) i) <> None <-> k = 1)
     /\ (center_z (expected_box t (Z.to_nat d) i) <> None <-> k = 1).
Proof. exact box_kinds. Qed.
Print Assumptions C46_box_kinds.

Example C46_example_frames : exists m, parse_objects example_inputs = Ok m
  /\ ranked example_inputs /\ sized example_inputs 4 4
  /\ map (fun f => (fst f, map o_type (snd f))) m = [(7, [1; 1]); (3, [2; 4])].
Proof.
  eexists. split; [reflexivity|]. split; [exact example_ranked|]. split; [exact example_sized|]. reflexivity.
Qed.
Example C46_example_sequences : exists m, parse_sequences example_inputs example_sequences example_ids = Ok m
  /\ map (fun s => (fst s, map (fun f => (fst f, map o_id (snd f))) (snd s))) m
     = [("b", [(7, [Some 40; Some 42]); (3, [Some 43])]); ("a", [(3, [Some 41])])]%string.
Proof. eexists. split; reflexivity. Qed.
Example C46_example_empty : exists m, parse_objects no_inputs = Ok m /\ sized no_inputs 0 9
  /\ detection_frames m m = [([], [])].
Proof. eexists. split; [reflexivity|]. split; [exact none_sized|reflexivity]. Qed.

(** ** C45 *)

(** Parsing fails unless the documented shapes hold. *)
Theorem C45_shapes : forall inp m, parse_motion inp = Ok m -> exists sz, motion_shapes inp sz.
Proof. exact motion_shaped. Qed.
Print Assumptions C45_shapes.

(** With them, it succeeds exactly when each predicted index is in range, the
    scenario has a track, and the object id of the track found is itself a
    valid agent index. *)
Theorem C45_succeeds : forall inp sz, motion_shapes inp sz -> wide inp ->
  ((exists m, parse_motion inp = Ok m)
   <-> forall i, (i < n_batch sz)%nat ->
         element_ok inp sz i (scenario_parsed inp sz i (elem (m_scenario_id inp) [i]))).
Proof. exact motion_succeeds. Qed.
Print Assumptions C45_succeeds.

(** The result holds, for each scenario id, the tracks and predictions of its
    batch elements in order. *)
Theorem C45_content : forall inp sz m, motion_shapes inp sz -> wide inp -> parse_motion inp = Ok m ->
  NoDup (map fst m)
  /\ forall s p, holds m s p <-> elements inp (n_batch sz) s <> [] /\ p = scenario_parsed inp sz (n_batch sz) s.
Proof. exact motion_content. Qed.
Print Assumptions C45_content.

(** A predicted agent with a valid state is resolved to its own track, whatever
    tracks [before] the scenario already had. *)
Theorem C45_resolved : forall inp sz i before j, (j < n_agents sz)%nat -> tracked inp sz i j = true ->
  nth_error (before ++ map (track_of inp sz i) (tracked_agents inp sz i))
            (position inp sz (List.length before) i j) = Some (track_of inp sz i j).
Proof. exact (fun inp sz i before j => position_nth inp sz i before j). Qed.
Print Assumptions C45_resolved.

(** An agent without valid state is silently replaced by the first track. *)
Theorem C45_unresolved_refuted : exists inp m, parse_motion inp = Ok m
  /\ elem (pred_gt_indices inp) [0; 0; 0]%nat = 1 /\ elem (m_object_id inp) [0; 1]%nat = 1
  /\ predicted_ids m = [0].
Proof. exists (small_motion [true; false] 1 [0; 1]). eexists. repeat split. Qed.
Print Assumptions C45_unresolved_refuted.

(** With a repeated scenario id, that track may come from another batch element. *)
Theorem C45_repeated_scenario_refuted : exists inp m, parse_motion inp = Ok m
  /\ (forall t, elem (gt_is_valid inp) [1; 0; t]%nat = false)
  /\ elem (m_object_id inp) [1; 0]%nat = 1 /\ predicted_ids m = [0; 0].
Proof. exists repeated_motion. eexists. repeat split. Qed.
Print Assumptions C45_repeated_scenario_refuted.

(** Objects of interest are not the predicted objects: ids are used as indices. *)
Theorem C45_interest_refuted : exists inp m, parse_motion inp = Ok m
  /\ predicted_ids m = [1] /\ interesting_ids m = [0].
Proof. exists (small_motion [true; true] 0 [1; 0]). eexists. repeat split. Qed.
Print Assumptions C45_interest_refuted.

(** So a predicted object whose id is not below the number of agents makes the
    parser read outside the tensor. *)
Theorem C45_large_ids_fail : forall inp sz i m n j, motion_shapes inp sz -> wide inp ->
  (i < n_batch sz)%nat -> (m < n_groups sz)%nat -> (n < n_per_group sz)%nat ->
  elem (pred_gt_indices_mask inp) [i; m; n] = true ->
  elem (pred_gt_indices inp) [i; m; n] = Z.of_nat j -> tracked inp sz i j = true ->
  ~ (0 <= elem (m_object_id inp) [i; j] < Z.of_nat (n_agents sz)) ->
  exists e, parse_motion inp = Err e.
Proof. exact motion_ids_fail. Qed.
Print Assumptions C45_large_ids_fail.

Example C45_example : exists m, parse_motion (small_motion [true; true] 1 [0; 1]) = Ok m
  /\ motion_shapes (small_motion [true; true] 1 [0; 1]) small_sizes
  /\ wide (small_motion [true; true] 1 [0; 1])
  /\ predicted_ids m = [1] /\ interesting_ids m = [1].
Proof.
  eexists. split; [reflexivity|]. split; [apply small_shapes|]. split; [apply small_wide|].
  split; reflexivity.
Qed.
Example C45_example_large : parse_motion (small_motion [true; true] 1 [0; 1234]) = Err IndexError.
Proof. reflexivity. Qed.
Example C45_example_untracked : parse_motion (small_motion [false; false] 1 [0; 1]) = Err CheckFailed.
Proof. reflexivity. Qed.
