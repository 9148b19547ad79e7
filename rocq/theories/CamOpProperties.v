(** C128: the camera operations on tensors. *)
From Coq Require Import Reals ZArith List Lra.
From Verif Require Import Base ResultLib GeomModel FrameModel FrameSpec CamModel CamSpec CamOpModel CamOpSpec CamOpProofs.
Import ListNotations.
Open Scope R_scope.
(** The inputs are read in the documented layout, and exactly tensors of that layout are accepted. *)
Theorem C128_layout : forall inp c i, whole (in_extrinsic inp) -> whole (in_intrinsic inp) -> whole (in_metadata inp) -> whole (in_image_metadata inp) ->
  (parse_input inp = Ok (c, i) <-> describes inp c i).
Proof. exact (parse_describes ). Qed.
Print Assumptions C128_layout.
(** Each point gets the row of its own projection. *)
Theorem C128_world_to_image : forall inp c i ps d out, describes inp c i -> table (input_coordinate inp) ps ->
  (world_to_image_op d inp = Ok out <->
   usable c i /\ exists rs rows, Forall2 (fun p r => world_to_image c i false {| ok := false; pixel := (0, 0); depth := 0 |} p = Ok r) ps rs
     /\ Forall2 (result_row d) rs rows /\ out = {| dims := [length ps; if d then 4 else 3]%nat; cells := concat rows |}).
Proof. exact (world_rows ). Qed.
Print Assumptions C128_world_to_image.
(** So does each moving point with its own velocity. *)
Theorem C128_moving_points : forall inp velocity c i ps vs d out, describes inp c i -> table (input_coordinate inp) ps -> table velocity vs -> length ps = length vs ->
  (world_to_image_moving_point_op d inp velocity = Ok out <->
   usable c i /\ exists rs rows, Forall2 (fun pv r => world_to_image_moving c i false {| ok := false; pixel := (0, 0); depth := 0 |} (fst pv) (snd pv) = Ok r) (combine ps vs) rs
     /\ Forall2 (result_row d) rs rows /\ out = {| dims := [length ps; if d then 4 else 3]%nat; cells := concat rows |}).
Proof. exact (moving_rows ). Qed.
Print Assumptions C128_moving_points.
(** Each pixel with its depth gets its own point. *)
Theorem C128_image_to_world : forall inp c i qs out, describes inp c i -> table (input_coordinate inp) qs ->
  (image_to_world_op inp = Ok out <->
   usable c i /\ exists ps, Forall2 (fun q p => image_to_world c i (X q) (Y q) (Z_ q) = Ok p) qs ps /\ table out ps).
Proof. exact (world_points ). Qed.
Print Assumptions C128_image_to_world.
(** Moving points at rest are points. *)
Theorem C128_at_rest : forall d inp velocity n, nth_error (dims (input_coordinate inp)) 0 = Some n -> table velocity (repeat (0, 0, 0) n) ->
  world_to_image_moving_point_op d inp velocity = world_to_image_op d inp.
Proof. exact (at_rest ). Qed.
Print Assumptions C128_at_rest.
(** The result has the declared shape. *)
Theorem C128_shape : forall d inp out, world_to_image_op d inp = Ok out ->
  whole out /\ (d = true \/ length (dims (input_coordinate inp)) = 2%nat -> dims out = declared_shape d inp).
Proof. exact (declared ). Qed.
Print Assumptions C128_shape.
(** Also for moving points. *)
Theorem C128_shape_moving : forall d inp velocity out, world_to_image_moving_point_op d inp velocity = Ok out ->
  whole out /\ (d = true \/ length (dims (input_coordinate inp)) = 2%nat -> dims out = declared_shape d inp).
Proof. exact (declared_moving ). Qed.
Print Assumptions C128_shape_moving.
(** Wrong shapes of the camera or of the points never give a result. *)
Theorem C128_shapes_checked : forall d inp out, whole (in_extrinsic inp) -> whole (in_intrinsic inp) -> whole (in_metadata inp) -> whole (in_image_metadata inp) ->
  world_to_image_op d inp = Ok out \/ image_to_world_op inp = Ok out \/ (exists v, world_to_image_moving_point_op d inp v = Ok out) ->
  exists c i n rest, describes inp c i /\ usable c i /\ dims (input_coordinate inp) = n :: 3%nat :: rest /\ (n = 0%nat \/ rest = []).
Proof. exact (shapes_checked ). Qed.
Print Assumptions C128_shapes_checked.
(** An unknown direction ends the program even without points. *)
Theorem C128_unknown_direction : forall d inp c i velocity, describes inp c i -> rolling_shutter_direction c = Unknown ->
  world_to_image_op d inp = Err RuntimeError /\ world_to_image_moving_point_op d inp velocity = Err RuntimeError /\ image_to_world_op inp = Err RuntimeError.
Proof. exact (unknown_direction ). Qed.
Print Assumptions C128_unknown_direction.
(** Every failure ends the program. *)
Theorem C128_failures : forall d inp velocity e,
  world_to_image_op d inp = Err e \/ world_to_image_moving_point_op d inp velocity = Err e \/ image_to_world_op inp = Err e -> e = RuntimeError.
Proof. exact (failures ). Qed.
Print Assumptions C128_failures.
(** With a lens without distortion and a global shutter, going to the world and back gives the pixels, the depths and ones. *)
Theorem C128_there_and_back : forall inp c i qs, describes inp c i -> rolling_shutter_direction c = GlobalShutter -> solid_frames c i -> sane c -> plain c ->
  table (input_coordinate inp) qs -> Forall (fun q => 0 < Z_ q) qs ->
  exists points, image_to_world_op inp = Ok points /\
    world_to_image_op true {| in_extrinsic := in_extrinsic inp; in_intrinsic := in_intrinsic inp; in_metadata := in_metadata inp; in_image_metadata := in_image_metadata inp; input_coordinate := points |}
    = Ok {| dims := [length qs; 4%nat]; cells := concat (map (fun q => [X q; Y q; Z_ q; 1]) qs) |}.
Proof. exact (there_and_back ). Qed.
Print Assumptions C128_there_and_back.
(** Velocities of two numbers are not refused but read across the rows. *)
Theorem C128_velocity_width_refuted : exists narrow wide : tensor R, whole narrow /\ dims narrow = [3; 2]%nat /\ cells narrow = [0; 0; 5; 0; 0; 0]
  /\ table wide [(0, 0, 5); (5, 0, 0)]
  /\ forall d inp, nth_error (dims (input_coordinate inp)) 0 = Some 2%nat -> world_to_image_moving_point_op d inp narrow = world_to_image_moving_point_op d inp wide.
Proof. exact (velocity_width_refuted ). Qed.
Print Assumptions C128_velocity_width_refuted.

(** A camera of 20 by 10 pixels looking ahead, its tensors, and two pixels with depths. *)
Example C128_nonvacuous :
  let id := {| rotation := {| r0 := (1, 0, 0); r1 := (0, 1, 0); r2 := (0, 0, 1) |}; translation := (0, 0, 0) |} in
  let c := {| f_u := 2; f_v := 2; c_u := 10; c_v := 5; k1 := 0; k2 := 0; k3 := 0; k4 := 0; k5 := 0; extrinsic := id; width := 20; height := 10; rolling_shutter_direction := GlobalShutter |} in
  let i := {| image_pose := id; v_xyz := (1, 0, 0); w_xyz := (0, 0, 0); pose_timestamp := 0; shutter_time := 1; camera_trigger_time := 0; camera_readout_done_time := 3 |} in
  let qs := [(3, 4, 5); (6, 7, 8)] in
  let m := [1; 0; 0; 0; 0; 1; 0; 0; 0; 0; 1; 0; 0; 0; 0; 1] in
  let inp := {| in_extrinsic := {| dims := [4; 4]%nat; cells := m |}; in_intrinsic := {| dims := [9%nat]; cells := [2; 2; 10; 5; 0; 0; 0; 0; 0] |};
     in_metadata := {| dims := [3%nat]; cells := [20; 10; 5]%Z |}; in_image_metadata := {| dims := [26%nat]; cells := m ++ [1; 0; 0; 0; 0; 0; 0; 1; 0; 3] |};
     input_coordinate := {| dims := [2; 3]%nat; cells := [3; 4; 5; 6; 7; 8] |} |} in
  describes inp c i /\ table (input_coordinate inp) qs /\ sane c /\ plain c /\ solid_frames c i /\ Forall (fun q => 0 < Z_ q) qs.
Proof.
  cbv zeta. split; [|split; [reflexivity|]].
  - split; [exists [0; 0; 0; 1]; split; reflexivity|]. split; [reflexivity|]. split; [exists 20%Z, 10%Z, 5%Z; repeat split|exists [0; 0; 0; 1]; split; reflexivity].
  - split; [unfold sane; cbn [f_u f_v width height]; lra|]. split; [repeat split|]. split.
    + unfold solid_frames. cbn [image_pose extrinsic rotation]. assert (P : proper {| r0 := (1, 0, 0); r1 := (0, 1, 0); r2 := (0, 0, 1) |}).
      { unfold proper, axis_x, axis_y, axis_z, inner, outer. cbn [r0 r1 r2 fst snd X Y Z_]. repeat split; try (unfold X, Y, Z_; cbn [fst snd]; lra). cbn. f_equal; [f_equal|]; ring. }
      split; exact P.
    + repeat constructor; unfold Z_; cbn [snd]; lra.
Qed.
