(** C140: the example submissions of the latency challenge. *)
From Coq Require Import Reals String List.
From Verif Require Import Base ResultLib DemoModel DemoSpec DemoProofs DemoDetect DemoExample.
Import ListNotations.
Open Scope list_scope.
Open Scope R_scope.
(** The combined cloud: newest returns, then those of the older frames moved to the newest pose. *)
Theorem C140_cloud k pc : combined_cloud k = Ok pc <->
  exists r0 r1 r2 p0 p1 p2 v0 v1 v2,
    Forall2 (fun v name => holds v name k) [Image r0; Image r1; Image r2; PoseValue p0; PoseValue p1; PoseValue p2] multiframe_fields /\
    visible r0 v0 /\ visible r1 v1 /\ visible r2 v2 /\ pc = v0 ++ map (move p1 p0) v1 ++ map (move p2 p0) v2.
Proof. exact (combined_exact k pc). Qed.
Print Assumptions C140_cloud.
(** Only the requested arrays matter. *)
Theorem C140_reads k k' : (forall f, In f multiframe_fields -> lookup k f = lookup k' f) -> combined_cloud k = combined_cloud k'.
Proof. exact (combined_reads k k'). Qed.
Print Assumptions C140_reads.
(** A moved point stays where it was in the world, for all points exactly if the newest rotation is orthonormal. *)
Theorem C140_world new : rows_orthonormal (rot new) <-> forall old p, same_measurement old new p (move old new p).
Proof. exact (move_world new). Qed.
Print Assumptions C140_world.
(** A point moved to its own pose does not change. *)
Theorem C140_same_pose p q : columns_orthonormal (rot p) -> move p p q = q.
Proof. exact (move_same p q). Qed.
Print Assumptions C140_same_pose.
(** Distances within a frame are kept. *)
Theorem C140_distance old new p q : columns_orthonormal (rot old) -> rows_orthonormal (rot new) ->
  squared_distance (position (move old new p)) (position (move old new q)) = squared_distance (position p) (position q).
Proof. exact (move_distance old new p q). Qed.
Print Assumptions C140_distance.
(** What the multiframe submission returns passes the checks of the evaluator and has sensible sizes, headings and scores. *)
Theorem C140_heads net k o : run_multiframe net k = Ok o -> exists pc, combined_cloud k = Ok pc /\
  List.length (boxes o) = List.length (net pc) /\ List.length (scores o) = List.length (net pc) /\ List.length (classes o) = List.length (net pc) /\
  Forall (fun b => 0 < blength b /\ 0 < bwidth b /\ 0 < bheight b /\ - PI < heading b < PI) (boxes o) /\
  Forall (fun s => 0 < s < 1) (scores o) /\ Forall (fun c => c = 1%Z) (classes o).
Proof. exact (multiframe_output net k o). Qed.
Print Assumptions C140_heads.
(** The centres are those of the network. *)
Theorem C140_centers net k o i l : run_multiframe net k = Ok o -> forall pc, combined_cloud k = Ok pc -> nth_error (net pc) i = Some l ->
  exists b, nth_error (boxes o) i = Some b /\ cx b = l_x l /\ cy b = l_y l /\ cz b = l_z l.
Proof. exact (multiframe_place net k o i l). Qed.
Print Assumptions C140_centers.
(** The classes that are translated. *)
Theorem C140_labels l c : wod_class l c <-> translate_label_to_wod l = c /\ (0 < c)%Z.
Proof. exact (translate_exact l c). Qed.
Print Assumptions C140_labels.
(** All others give -1. *)
Theorem C140_labels_unknown l : (forall c, ~ wod_class l c) <-> translate_label_to_wod l = (-1)%Z.
Proof. exact (translate_unknown l). Qed.
Print Assumptions C140_labels_unknown.
(** Detections of known classes are reported in order, all arrays lined up. *)
Theorem C140_report convert ds o : o = report convert ds <->
  exists kept, picks (fun d => exists c, wod_class (d_label d) c) ds kept /\
    Forall2 (fun d b => b = convert (d_corners d)) kept (boxes o) /\ Forall2 (fun d s => s = d_score d) kept (scores o) /\
    Forall2 (fun d c => wod_class (d_label d) c) kept (classes o).
Proof. exact (report_exact convert ds o). Qed.
Print Assumptions C140_report.
(** The arrays have the same number of rows. *)
Theorem C140_report_lengths convert ds : let o := report convert ds in
  List.length (scores o) = List.length (boxes o) /\ List.length (classes o) = List.length (boxes o) /\ (List.length (boxes o) <= List.length ds)%nat.
Proof. exact (report_lengths convert ds). Qed.
Print Assumptions C140_report_lengths.
(** The TensorFlow submission reports all of them. *)
Theorem C140_tensorflow_run rows cols ds o : run_tensorflow_2d rows cols ds = Ok o <-> ds <> [] /\ o = report (tensorflow_box rows cols) ds.
Proof. exact (tensorflow_run rows cols ds o). Qed.
Print Assumptions C140_tensorflow_run.
(** Its boxes are in pixels only for square images, rows and columns being swapped. *)
Theorem C140_tensorflow_pixels rows cols c : (left_of (tensorflow_box rows cols c) = xmin c * cols /\ right_of (tensorflow_box rows cols c) = xmax c * cols /\
   top_of (tensorflow_box rows cols c) = ymin c * rows /\ bottom_of (tensorflow_box rows cols c) = ymax c * rows) <->
  rows = cols \/ (xmin c = 0 /\ xmax c = 0 /\ ymin c = 0 /\ ymax c = 0).
Proof. exact (tensorflow_pixels rows cols c). Qed.
Print Assumptions C140_tensorflow_pixels.
(** So they are wrong for the front camera. *)
Theorem C140_tensorflow_refuted : exists c, 0 <= xmin c < xmax c /\ xmax c <= 1 /\ 0 <= ymin c < ymax c /\ ymax c <= 1 /\
  right_of (tensorflow_box 1280 1920 c) <> xmax c * 1920 /\ bottom_of (tensorflow_box 1280 1920 c) > 1280.
Proof. exact (tensorflow_refuted ). Qed.
Print Assumptions C140_tensorflow_refuted.
(** The boxes of the PyTorch submission have the given corners. *)
Theorem C140_pytorch_boxes c : left_of (pytorch_box c) = xmin c /\ right_of (pytorch_box c) = xmax c /\ top_of (pytorch_box c) = ymin c /\ bottom_of (pytorch_box c) = ymax c.
Proof. exact (pytorch_extent c). Qed.
Print Assumptions C140_pytorch_boxes.
(** It reports all detections only if those after the first have no known class. *)
Theorem C140_pytorch_run ds : (exists o, run_pytorch_2d ds = Ok o /\ o = report pytorch_box ds) <->
  exists d rest, ds = d :: rest /\ forall e c, In e rest -> ~ wod_class (d_label e) c.
Proof. exact (pytorch_exact ds). Qed.
Print Assumptions C140_pytorch_run.
(** It loses detections otherwise. *)
Theorem C140_pytorch_refuted : exists ds d o, In d ds /\ wod_class (d_label d) 1 /\ run_pytorch_2d ds = Ok o /\ ~ In (d_score d) (scores o).
Proof. exact (pytorch_refuted ). Qed.
Print Assumptions C140_pytorch_refuted.
(** The features given to the PyTorch saved model. *)
Theorem C140_features k fs : process_inputs k = Ok fs <-> exists ris vs, Forall2 (fun ri f => holds (Image ri) f k) ris lidar_fields /\
  Forall2 visible ris vs /\
  Forall2 (fun p f => f_position f = position p /\ f_elongation f = elongation p /\ f_intensity f = tanh (intensity p)) (concat vs) fs.
Proof. exact (process_exact k fs). Qed.
Print Assumptions C140_features.
(** Intensities keep their order. *)
Theorem C140_features_squashed p q : -1 < f_intensity (feature_of p) < 1 /\ (f_intensity (feature_of p) < f_intensity (feature_of q) <-> intensity p < intensity q).
Proof. exact (features_squashed p q). Qed.
Print Assumptions C140_features_squashed.
(** The two images given to the TensorFlow saved model. *)
Theorem C140_saved_pixels ri i j row p : nth_error ri i = Some row -> nth_error row j = Some p ->
  exists n c, nth_error (fst (saved_model_inputs ri)) i = Some n /\ nth_error (snd (saved_model_inputs ri)) i = Some c /\
    nth_error c j = Some (position p) /\
    exists v, nth_error n j = Some v /\ vx v = range p / 75 /\ vy v = tanh (intensity p) /\ vz v = elongation p / (3 / 2).
Proof. exact (saved_pixels ri i j row p). Qed.
Print Assumptions C140_saved_pixels.

(** The saved model runs exactly after it was initialised. *)
Theorem C140_initialised : forall O (m : option (list (list vec) * list (list vec) -> O)) ri,
  (exists o, predict m ri = Ok o) <-> m <> None.
Proof. exact (@predict_needs_model). Qed.
Print Assumptions C140_initialised.
(** Without that, the error is a ValueError. *)
Theorem C140_not_initialised : forall O (m : option (list (list vec) * list (list vec) -> O)) ri, predict m ri = Err ValueError <-> m = None.
Proof. exact (@predict_error). Qed.
Print Assumptions C140_not_initialised.
(** The features are read from the first returns of all five lasers, each once. *)
Theorem C140_lidar_fields : List.NoDup lidar_fields /\ forall f, In f lidar_fields <->
  exists n, In n ["FRONT"; "REAR"; "SIDE_LEFT"; "SIDE_RIGHT"; "TOP"]%string /\ f = (n ++ "_RANGE_IMAGE_FIRST_RETURN")%string.
Proof. exact lidar_fields_exact. Qed.
Print Assumptions C140_lidar_fields.

Example C140_nonvacuous_cloud : combined_cloud arguments = Ok [ahead; Point 10 1 0 (Vec 5 0 0)].
Proof. exact arguments_cloud. Qed.
Example C140_nonvacuous_turn : rows_orthonormal left_turn /\ columns_orthonormal left_turn /\ rows_orthonormal identity /\ columns_orthonormal identity.
Proof. exact turn_rigid. Qed.
Example C140_nonvacuous_stretched : ~ rows_orthonormal (Mat (Vec 2 0 0) (Vec 0 1 0) (Vec 0 0 1)).
Proof. exact stretched. Qed.
Example C140_nonvacuous_run : exists o, run_multiframe (map (fun p => Logits 0 0 0 0 0 0 0 (range p))) arguments = Ok o /\ List.length (boxes o) = 2%nat.
Proof. exact arguments_run. Qed.
Example C140_nonvacuous_features : process_inputs (map (fun f => (f, Image frame)) lidar_fields) = Ok (repeat (feature_of ahead) 5).
Proof. exact five_lidars. Qed.
Example C140_nonvacuous_report : let ds := [Detection (Corners 0 0 1 1) (1/2) 3; Detection (Corners 0 0 1 1) (1/3) 5; Detection (Corners 0 0 1 1) (1/4) 1] in
  exists o, run_tensorflow_2d 1280 1920 ds = Ok o /\ classes o = [1%Z; 2%Z] /\ scores o = [1/2; 1/4].
Proof. exact street_report. Qed.
