(** The example submissions of the latency challenge, under /repo/src/waymo_open_dataset/latency/examples:
    tensorflow/multiframe/wod_latency_submission/model.py, 2d_challenge/tensorflow/wod_latency_submission/model.py,
    2d_challenge/pytorch/wod_latency_submission/__init__.py,
    pytorch/from_saved_model/submission/lib/wod_latency_submission/__init__.py and
    tensorflow/from_saved_model/wod_latency_submission/model.py.

    Numbers are real numbers instead of floats. Networks are arguments: what they compute is not modelled, only what the
    submissions give to them and make of their output. *)
From Coq Require Import Reals String.
From Verif Require Import Base ResultLib.
Open Scope string_scope.
Open Scope list_scope.
Open Scope R_scope.

Record vec := Vec { vx : R; vy : R; vz : R }.
(** A 3 x 3 matrix by rows. *)
Record mat := Mat { row0 : vec; row1 : vec; row2 : vec }.
Definition dot (a b : vec) : R := vx a * vx b + vy a * vy b + vz a * vz b.
Definition vadd (a b : vec) : vec := Vec (vx a + vx b) (vy a + vy b) (vz a + vz b).
Definition vsub (a b : vec) : vec := Vec (vx a - vx b) (vy a - vy b) (vz a - vz b).
Definition matvec (m : mat) (v : vec) : vec := Vec (dot (row0 m) v) (dot (row1 m) v) (dot (row2 m) v).
Definition transpose (m : mat) : mat :=
  Mat (Vec (vx (row0 m)) (vx (row1 m)) (vx (row2 m))) (Vec (vy (row0 m)) (vy (row1 m)) (vy (row2 m)))
      (Vec (vz (row0 m)) (vz (row1 m)) (vz (row2 m))).
(** multiframe 49-56: the two parts of a 4 x 4 pose; the last row is never read. *)
Record pose := Pose { rot : mat; trans : vec }.
(** The six channels of a pixel: range, intensity, elongation and the position. *)
Record point := Point { range : R; intensity : R; elongation : R; position : vec }.
Definition range_image : Type := list (list point).

Definition positive (x : R) : bool := if Rlt_dec 0 x then true else false.
(** multiframe 149 and pytorch/from_saved_model 77: the pixels of positive range, row by row, as a copy. *)
Definition returns (ri : range_image) : list point := filter (fun p => positive (range p)) (concat ri).

(** multiframe 37-73: transform_point_cloud, one point; only the position is assigned. *)
Definition move (old new : pose) (p : point) : point :=
  let global := vadd (matvec (rot old) (position p)) (trans old) in
  Point (range p) (intensity p) (elongation p) (matvec (transpose (rot new)) (vsub global (trans new))).
Definition transform_point_cloud (pc : list point) (old new : pose) : list point := map (move old new) pc.

(** The keyword arguments: arrays by name. *)
Inductive value := Image (ri : range_image) | PoseValue (p : pose).
Definition kwargs : Type := list (string * value).
Fixpoint lookup (k : kwargs) (name : string) : option value :=
  match k with [] => None | (n, v) :: k' => if String.eqb n name then Some v else lookup k' name end.
(** An array of the other kind has the wrong number of dimensions. *)
Definition image_of (k : kwargs) (name : string) : result range_image :=
  match lookup k name with None => Err KeyError | Some (Image ri) => Ok ri | Some (PoseValue _) => Err ValueError end.
Definition pose_of (k : kwargs) (name : string) : result pose :=
  match lookup k name with None => Err KeyError | Some (PoseValue p) => Ok p | Some (Image _) => Err ValueError end.

(** multiframe 22-29. *)
Definition multiframe_fields : list string :=
  ["TOP_RANGE_IMAGE_FIRST_RETURN"; "TOP_RANGE_IMAGE_FIRST_RETURN_1"; "TOP_RANGE_IMAGE_FIRST_RETURN_2"; "POSE"; "POSE_1"; "POSE_2"].
(** multiframe 145-154: one turn of the loop; the list is empty only in the first. *)
Definition add_frame (k : kwargs) (newest : pose) (clouds : list (list point)) (suffix : string) : result (list (list point)) :=
  do ri <- image_of k ("TOP_RANGE_IMAGE_FIRST_RETURN" ++ suffix);
  let pc := returns ri in
  match clouds with
  | [] => Ok (clouds ++ [pc])%list
  | _ :: _ => do src <- pose_of k ("POSE" ++ suffix); Ok (clouds ++ [transform_point_cloud pc src newest])%list
  end.
(** multiframe 142-158: the point cloud given to the network. *)
Definition combined_cloud (k : kwargs) : result (list point) :=
  do newest <- pose_of k "POSE";
  do clouds <- foldM (add_frame k newest) [""; "_1"; "_2"] [];
  Ok (concat clouds).

(** multiframe 107-121: the outputs of the last layers before their activation functions, one per box. *)
Record logits := Logits { l_x : R; l_y : R; l_z : R; l_length : R; l_width : R; l_height : R; l_heading : R; l_score : R }.
Record box3 := Box3 { cx : R; cy : R; cz : R; blength : R; bwidth : R; bheight : R; heading : R }.
Definition softplus (x : R) : R := ln (1 + exp x).
Definition sigmoid (x : R) : R := / (1 + exp (- x)).
(** multiframe 107-127: the heads, joined to boxes and scores. *)
Definition box_head (l : logits) : box3 :=
  Box3 (l_x l) (l_y l) (l_z l) (softplus (l_length l)) (softplus (l_width l)) (softplus (l_height l)) (PI * tanh (l_heading l)).
Definition score_head (l : logits) : R := sigmoid (l_score l).
(** The three arrays a submission returns. *)
Record output (B : Type) := Output { boxes : list B; scores : list R; classes : list Z }.
Arguments Output {B} boxes scores classes.
Arguments boxes {B} o.
Arguments scores {B} o.
Arguments classes {B} o.
(** multiframe 132-171: run_model. *)
Definition run_multiframe (net : list point -> list logits) (k : kwargs) : result (output box3) :=
  do pc <- combined_cloud k;
  let ls := net pc in
  Ok (Output (map box_head ls) (map score_head ls) (repeat 1%Z (List.length ls))).

(** 2d_challenge/tensorflow 44-64 and 2d_challenge/pytorch 30-50: translate_label_to_wod. *)
Definition translate_label_to_wod (label : Z) : Z :=
  match label with
  | 1 => 2 | 2 => 4 | 3 => 1 | 4 => 1 | 6 => 1 | 8 => 1 | 13 => 3
  | _ => -1
  end%Z.
(** A box as a network of the 2D examples gives it; the names are those of the comments of the submissions. *)
Record corners := Corners { ymin : R; xmin : R; ymax : R; xmax : R }.
Record box2 := Box2 { center_x : R; center_y : R; width : R; height : R }.
Record detection := Detection { d_corners : corners; d_score : R; d_label : Z }.
(** The rows whose translated class is positive, with the class: tensorflow 92-95 and pytorch 78-81. *)
Definition known (ds : list detection) : list detection := filter (fun d => (0 <? translate_label_to_wod (d_label d))%Z) ds.
Definition report (convert : corners -> box2) (ds : list detection) : output box2 :=
  let kept := known ds in
  Output (map (fun d => convert (d_corners d)) kept) (map d_score kept) (map (fun d => translate_label_to_wod (d_label d)) kept).
(** tensorflow 101-105: [rows] is FRONT_IMAGE.shape[0] and [cols] is FRONT_IMAGE.shape[1]. *)
Definition tensorflow_box (rows cols : R) (c : corners) : box2 :=
  Box2 ((xmax c + xmin c) * rows / 2) ((ymax c + ymin c) * cols / 2) ((xmax c - xmin c) * rows) ((ymax c - ymin c) * cols).
(** tensorflow 70-111: run_model after the network; numpy.vectorize refuses empty input (92). *)
Definition run_tensorflow_2d (rows cols : R) (ds : list detection) : result (output box2) :=
  match ds with [] => Err ValueError | _ :: _ => Ok (report (tensorflow_box rows cols) ds) end.
(** pytorch 86-90. *)
Definition pytorch_box (c : corners) : box2 :=
  Box2 ((xmax c + xmin c) / 2) ((ymax c + ymin c) / 2) (xmax c - xmin c) (ymax c - ymin c).
(** pytorch 56-96: run_model after the network. The outputs of the image are indexed once more with [0, ...] (71-73), which
    takes the first detection; indexing it with a boolean gives an array of one row or none. *)
Definition run_pytorch_2d (ds : list detection) : result (output box2) :=
  match ds with [] => Err IndexError | d :: _ => Ok (report pytorch_box [d]) end.

(** pytorch/from_saved_model 31-36. *)
Definition lidar_names : list string := ["TOP"; "REAR"; "FRONT"; "SIDE_LEFT"; "SIDE_RIGHT"].
Definition lidar_fields : list string := map (fun n => (n ++ "_" ++ "RANGE_IMAGE_FIRST_RETURN")%string) lidar_names.
(** A row (x, y, z, intensity, elongation). *)
Record feature := Feature { f_position : vec; f_intensity : R; f_elongation : R }.
Definition feature_of (p : point) : feature := Feature (position p) (tanh (intensity p)) (elongation p).
(** pytorch/from_saved_model 62-85: the points given to the preprocessing of the network. *)
Definition process_inputs (k : kwargs) : result (list feature) :=
  do clouds <- mapM (fun field => do ri <- image_of k field; Ok (returns ri)) lidar_fields;
  Ok (map feature_of (concat clouds)).

(** tensorflow/from_saved_model 58-72 and 87-105: the two images given to the network, pixel by pixel. *)
Definition normalized (p : point) : vec := Vec (range p * (1 / 75)) (tanh (intensity p)) (elongation p * (1 / (3 / 2))).
Definition saved_model_inputs (ri : range_image) : list (list vec) * list (list vec) :=
  (map (map normalized) ri, map (map position) ri).
(** tensorflow/from_saved_model 25-28 and 55-56: without initialize there is no model function. *)
Definition predict {O} (model_fn : option (list (list vec) * list (list vec) -> O)) (ri : range_image) : result O :=
  match model_fn with None => Err ValueError | Some f => Ok (f (saved_model_inputs ri)) end.
