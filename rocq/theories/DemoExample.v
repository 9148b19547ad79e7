(** A vehicle that turns left by a right angle between two frames. *)
From Coq Require Import Reals String List Lra.
From Verif Require Import Base ResultLib DemoModel DemoSpec DemoProofs DemoDetect.
Import ListNotations.
Open Scope string_scope.
Open Scope list_scope.
Open Scope R_scope.

Definition identity : mat := Mat (Vec 1 0 0) (Vec 0 1 0) (Vec 0 0 1).
Definition left_turn : mat := Mat (Vec 0 (-1) 0) (Vec 1 0 0) (Vec 0 0 1).
Definition before : pose := Pose identity (Vec 0 0 0).
Definition after : pose := Pose left_turn (Vec 10 0 0).
Definition ahead : point := Point 10 1 0 (Vec 10 5 0).
Definition no_return : point := Point (-1) 0 0 (Vec 0 0 0).
Definition frame : range_image := [[ahead; no_return]].
Definition arguments : kwargs :=
  [("TOP_RANGE_IMAGE_FIRST_RETURN", Image frame); ("TOP_RANGE_IMAGE_FIRST_RETURN_1", Image frame); ("TOP_RANGE_IMAGE_FIRST_RETURN_2", Image []);
   ("POSE", PoseValue after); ("POSE_1", PoseValue before); ("POSE_2", PoseValue before)].

Lemma turn_rigid : rows_orthonormal left_turn /\ columns_orthonormal left_turn /\ rows_orthonormal identity /\ columns_orthonormal identity.
Proof. unfold rows_orthonormal, columns_orthonormal, orthonormal, scalar, left_turn, identity. cbn [vx vy vz row0 row1 row2]. repeat split; lra. Qed.
Lemma moved_ahead : move before after ahead = Point 10 1 0 (Vec 5 0 0).
Proof. unfold move, before, after, ahead, left_turn, identity, matvec, transpose, dot, vadd, vsub. cbn. f_equal. apply vec_eq; ring. Qed.
Lemma frame_visible : visible frame [ahead].
Proof.
  unfold visible, frame. cbn [concat List.app]. apply picks_take; [cbn [ahead range]; lra|].
  apply picks_skip; [cbn [no_return range]; lra|constructor].
Qed.
Lemma arguments_cloud : combined_cloud arguments = Ok [ahead; Point 10 1 0 (Vec 5 0 0)].
Proof.
  apply combined_exact. exists frame, frame, [], after, before, before, [ahead], [ahead], [].
  split.
  - unfold multiframe_fields, arguments. repeat (apply Forall2_cons; [apply holds_lookup; reflexivity|]). constructor.
  - split; [apply frame_visible|]. split; [apply frame_visible|]. split; [constructor|]. cbn [map List.app]. now rewrite moved_ahead.
Qed.
Lemma arguments_run : exists o, run_multiframe (map (fun p => Logits 0 0 0 0 0 0 0 (range p))) arguments = Ok o /\ List.length (boxes o) = 2%nat.
Proof. unfold run_multiframe. rewrite arguments_cloud. cbn [bind]. eexists. split; [reflexivity|]. reflexivity. Qed.
(** Stretching instead of turning moves points in the world. *)
Lemma stretched : ~ rows_orthonormal (Mat (Vec 2 0 0) (Vec 0 1 0) (Vec 0 0 1)).
Proof. unfold rows_orthonormal, orthonormal, scalar. cbn [vx vy vz row0 row1 row2]. lra. Qed.
Lemma five_lidars : process_inputs (map (fun f => (f, Image frame)) lidar_fields) = Ok (repeat (feature_of ahead) 5).
Proof.
  apply process_exact. exists (repeat frame 5), (repeat [ahead] 5). split; [|split].
  - repeat (apply Forall2_cons; [apply holds_lookup; reflexivity|]). constructor.
  - repeat (apply Forall2_cons; [apply frame_visible|]). constructor.
  - cbn [repeat concat List.app]. repeat (apply Forall2_cons; [now repeat split|]). constructor.
Qed.
Lemma street_report : let ds := [Detection (Corners 0 0 1 1) (1/2) 3; Detection (Corners 0 0 1 1) (1/3) 5; Detection (Corners 0 0 1 1) (1/4) 1] in
  exists o, run_tensorflow_2d 1280 1920 ds = Ok o /\ classes o = [1%Z; 2%Z] /\ scores o = [1/2; 1/4].
Proof. eexists. split; [reflexivity|]. split; reflexivity. Qed.
