(** C145: the tutorial of the 3D semantic segmentation challenge. *)
From Coq Require Import QArith String Sorting.Sorted Sorting.Permutation Lia.
From Verif Require Import Base ResultLib SemtModel SemtSpec SemtProofs.
Open Scope list_scope.
(** The labels of the points: for every laser, sorted by name, those of the pixels with a return, row by row. *)
Theorem C145_labels calibrations ri seg k lss : point_labels calibrations ri seg k = Ok lss <->
  exists names, Permutation names calibrations /\ StronglySorted Z.le names /\ Forall2 (labels_of ri seg k) names lss.
Proof. exact (labels_exact calibrations ri seg k lss). Qed.
Print Assumptions C145_labels.
(** The indices: the column and row of the pixels of the top laser with a return, row by row, inside 64 rows and 2650 columns. *)
Theorem C145_indices ri k idx : get_range_image_point_indexing ri k = Ok idx <-> exists im ps, image_of ri 1 k im /\ returns im ps /\
  idx = map (fun p => (snd p, fst p)) ps /\ forall p, In p ps -> (fst p < 64)%nat /\ (Z.of_nat (snd p) < 2650)%Z.
Proof. exact (index_exact ri k idx). Qed.
Print Assumptions C145_indices.
(** Indices and labels agree place by place. *)
Theorem C145_aligned ri seg k sl idx ls : get_range_image_point_indexing ri k = Ok idx -> image_of seg 1 k sl -> laser_labels ri seg k 1 = Ok ls ->
  Forall2 (fun i l => at_pixel sl (snd i) (fst i) l) idx ls.
Proof. exact (index_labels ri seg k sl idx ls). Qed.
Print Assumptions C145_aligned.
(** The labels submitted: the class at the pixels with a return and zero elsewhere, for both returns. *)
Theorem C145_dummy ri cls a b : dummy_semseg_for_one_frame ri cls = Ok (a, b) ->
  forall k out, (k = 0%nat /\ out = a) \/ (k = 1%nat /\ out = b) -> exists im, image_of ri 1 k im /\
    List.length out = 64%nat /\ (forall row, In row out -> Z.of_nat (List.length row) = 2650%Z) /\
    forall r c, (r < 64)%nat -> (Z.of_nat c < 2650)%Z ->
      ((exists v, at_pixel im r c v /\ (0 < v)%Q) -> at_pixel out r c (0, cls)%Z) /\ (~ (exists v, at_pixel im r c v /\ (0 < v)%Q) -> at_pixel out r c (0, 0)%Z).
Proof. exact (dummy_exact ri cls a b). Qed.
Print Assumptions C145_dummy.
(** They can be made exactly if both returns are there and fit. *)
Theorem C145_dummy_accepts ri cls : (exists a b, dummy_semseg_for_one_frame ri cls = Ok (a, b)) <->
  forall k, (k < 2)%nat -> exists im, image_of ri 1 k im /\ forall r c v, at_pixel im r c v -> (0 < v)%Q -> (r < 64)%nat /\ (Z.of_nat c < 2650)%Z.
Proof. exact (dummy_accepts ri cls). Qed.
Print Assumptions C145_dummy_accepts.
(** The validation frames submitted are those whose first laser has labels. *)
Theorem C145_validation frames : forall out, validation_frames frames = Ok out <->
  (forall f, In f frames -> lasers f <> []) /\ out = filter (fun f => match lasers f with (_, true) :: _ => true | _ => false end) frames.
Proof. exact (validation_exact frames). Qed.
Print Assumptions C145_validation.
(** A frame with labels of the top laser is left out if another laser comes first. *)
Theorem C145_validation_refuted : exists f out, In (1%Z, true) (lasers f) /\ validation_frames [f] = Ok out /\ ~ In f out.
Proof. exact (validation_refuted ). Qed.
Print Assumptions C145_validation_refuted.
(** No frame of the test set is ever submitted, whatever the list of wanted frames. *)
Theorem C145_test_frames lines frames : test_frames lines frames = [].
Proof. exact (test_none lines frames). Qed.
Print Assumptions C145_test_frames.
(** In particular not those on the list. *)
Theorem C145_test_frames_refuted : exists lines frames f, In f frames /\ In [context_name f; timestamp f] lines /\ ~ In f (test_frames lines frames).
Proof. exact (test_refuted ). Qed.
Print Assumptions C145_test_frames_refuted.

Example C145_nonvacuous_labels : point_labels [2; 1]%Z [(1%Z, [[[1; 0]; [0; 2]]]); (2%Z, [[[3; 0]]])]%Q [(1, [[[(1, 5); (1, 6)]; [(1, 7); (1, 8)]]])]%Z 0
  = Ok [[(1, 5); (1, 8)]; [(0, 0)]]%Z.
Proof. reflexivity. Qed.
Example C145_nonvacuous_indices : get_range_image_point_indexing [(1%Z, [[[0; 1]; [1; 0]]])]%Q 0 = Ok [(1, 0); (0, 1)]%nat.
Proof. vm_compute. reflexivity. Qed.
Example C145_nonvacuous_dummy : exists a b, dummy_semseg_for_one_frame [(1%Z, [[[0; 1]]; [[1; 0]]])]%Q 14 = Ok (a, b).
Proof.
  apply dummy_accepts. intros [|[|k]] Hk; [| |lia].
  - exists [[0; 1]]%Q. split; [now apply image_at_iff|]. intros [|[|r]] c v (row & H & Hv); cbn in H; try discriminate. injection H as <-. destruct c as [|[|[|c]]]; cbn in Hv; try discriminate; lia.
  - exists [[1; 0]]%Q. split; [now apply image_at_iff|]. intros [|[|r]] c v (row & H & Hv); cbn in H; try discriminate. injection H as <-. destruct c as [|[|[|c]]]; cbn in Hv; try discriminate; lia.
Qed.
Example C145_nonvacuous_validation : validation_frames [Frame "a" "1" [(1, true)]%Z; Frame "a" "2" [(1, false)]%Z] = Ok [Frame "a" "1" [(1, true)]%Z].
Proof. reflexivity. Qed.
