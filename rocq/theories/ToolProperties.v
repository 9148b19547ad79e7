(** C110 to C112: the frames and sequences the command line tools evaluate. *)
From Coq Require Import String Ascii Sorted Permutation.
From Verif Require Import Base ToolModel ToolSpec ToolProofs ToolTrack.
Open Scope list_scope.
Open Scope Z_scope.

(** One example per frame, with its predictions and its ground truths that have points. *)
Theorem C110_frames {box : Type} (pds gts : list (object box)) : exists kept frames,
  selects (fun o => 0 < points o) gts kept /\
  by_frame pds (map (graded points) kept) frames (fst (detection_tool pds gts)) (snd (detection_tool pds gts)).
Proof. exact (detection_tool_correct pds gts). Qed.
Print Assumptions C110_frames.
(** Every prediction and every such ground truth is in exactly one example. *)
Theorem C110_complete {box : Type} (pds gts : list (object box)) : exists kept,
  selects (fun o => 0 < points o) gts kept /\
  Permutation pds (concat (fst (detection_tool pds gts))) /\ Permutation (map (graded points) kept) (concat (snd (detection_tool pds gts))).
Proof. exact (detection_tool_complete pds gts). Qed.
Print Assumptions C110_complete.
(** The same for the error tolerant tool with boxes synced to the cameras. *)
Theorem C111_frames {box : Type} (pds gts : list (object box)) : (forall o, In o gts -> 0 < top_points o -> is_visible o -> names_camera o) ->
  exists kept frames ps gs, let_tool pds gts = Ok (ps, gs) /\
    selects (fun o => 0 < top_points o /\ is_visible o) gts kept /\
    by_frame pds (map (fun o => with_box (graded top_points o) (synced_box o)) kept) frames ps gs.
Proof. exact (let_tool_correct pds gts). Qed.
Print Assumptions C111_frames.
(** A camera name that is none aborts the tool. *)
Theorem C111_bad_camera {box : Type} (pds gts : list (object box)) : ~ (forall o, In o gts -> 0 < top_points o -> is_visible o -> names_camera o) ->
  let_tool pds gts = Err CheckFailed.
Proof. exact (let_tool_fails pds gts). Qed.
Print Assumptions C111_bad_camera.
(** One sequence per context, one frame per time, in ascending order of time. *)
Theorem C112_sequences {box : Type} (pds gts : list (object box)) : exists contexts,
  StronglySorted (fun a b => string_ltb a b = true) contexts /\ NoDup contexts /\
  (forall c, In c contexts <-> exists o, (In o pds \/ In o gts) /\ context o = c) /\
  length (fst (tracking_tool pds gts)) = length contexts /\ length (snd (tracking_tool pds gts)) = length contexts /\
  Forall2 (fun c pg => sequence_of pds gts c (fst pg) (snd pg)) contexts (combine (fst (tracking_tool pds gts)) (snd (tracking_tool pds gts))).
Proof. exact (tracking_correct pds gts). Qed.
Print Assumptions C112_sequences.
(** The tracking tool puts objects of different cameras in one frame and keeps ground truths\n    without points, unlike the detection tool. *)
Theorem C112_cameras_refuted {box : Type} (b : box) : exists pds gts : list (object box),
  (exists p g, In p pds /\ In g gts /\ camera p <> camera g /\ points g = 0 /\ tracking_tool pds gts = ([[[p]]], [[[g]]])) /\
  detection_tool pds gts = ([pds], [[]]).
Proof. exact (tracking_mixes_cameras b). Qed.
Print Assumptions C112_cameras_refuted.

Definition example_object (c : string) (k : camera_name) (t n : Z) (b : nat) : object nat :=
  {| context := c; stamp := t; camera := k; points := n; top_points := n; level := None; visible := Some "FRONT"%string;
     label_box := b; synced_box := S b; score := 1%Q |}.
Example C110_nonvacuous :
  let p1 := example_object "a_1" FRONT 7 0 1 in let p2 := example_object "a" FRONT 7 0 2 in let p3 := example_object "a_1" FRONT 7 0 3 in
  let g1 := example_object "a" FRONT 7 5 4 in let g2 := example_object "a" FRONT 7 0 5 in
  detection_tool [p1; p2; p3] [g1; g2] = ([[p2]; [p1; p3]], [[with_level g1 LEVEL_2]; []]).
Proof. reflexivity. Qed.
Example C111_nonvacuous :
  let p := example_object "a" FRONT 7 0 1 in let g := example_object "a" FRONT 7 6 2 in
  let_tool [p] [g] = Ok ([[p]], [[with_box (with_level g LEVEL_1) 3%nat]]).
Proof. reflexivity. Qed.
Example C112_nonvacuous :
  let p1 := example_object "b" FRONT 9 0 1 in let p2 := example_object "b" FRONT 2 0 2 in let g := example_object "a" FRONT 5 1 3 in
  tracking_tool [p1; p2] [g] = ([[[]]; [[p2]; [p1]]], [[[g]]; [[]; []]]).
Proof. reflexivity. Qed.
