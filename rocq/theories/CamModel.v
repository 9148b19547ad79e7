(** The camera model, /repo/src/waymo_open_dataset/wdl_limited/camera/camera_model.cc.

    Conventions.
    - Numbers are real numbers; rounding is not modelled.  Where the code divides by a number that an input can
      make zero while the other inputs are sensible (the radial factor and the slope of the solver), the model
      stops with RuntimeError, which stands for infinities and numbers that are not; the size of the image, its
      range in normalized coordinates and the readout are divided by as in the code.
    - CHECK and LOG(FATAL) end the program, written RuntimeError as well.
    - Isometries are inverted by transposition, as Eigen does for this type. *)
From Coq Require Import Reals.
From Verif Require Import Base ResultLib GeomModel FrameModel.
Open Scope list_scope.
Open Scope R_scope.

Definition sub3 (a b : vec3) : vec3 := (X a - X b, Y a - Y b, Z_ a - Z_ b).
Definition scale3 (s : R) (a : vec3) : vec3 := (s * X a, s * Y a, s * Z_ a).
Definition transpose3 (m : mat3) : mat3 := {| r0 := col0 m; r1 := col1 m; r2 := col2 m |}.
Definition add_mat (a b : mat3) : mat3 := {| r0 := add3 (r0 a) (r0 b); r1 := add3 (r1 a) (r1 b); r2 := add3 (r2 a) (r2 b) |}.
Definition scale_mat (s : R) (a : mat3) : mat3 := {| r0 := scale3 s (r0 a); r1 := scale3 s (r1 a); r2 := scale3 s (r2 a) |}.
(** 56-64: SkewSymmetric. *)
Definition skew (v : vec3) : mat3 := {| r0 := (0, - Z_ v, Y v); r1 := (Z_ v, 0, - X v); r2 := (- Y v, X v, 0) |}.
(** Eigen: the inverse of an isometry. *)
Definition isometry_inverse (t : pose) : pose :=
  let r := transpose3 (rotation t) in {| rotation := r; translation := neg3 (mulv r (translation t)) |}.

(** dataset.proto:84-125, 314-360: calibration and image, with the fields used. *)
Inductive shutter := Unknown | TopToBottom | LeftToRight | BottomToTop | RightToLeft | GlobalShutter.
Record calibration := {
  f_u : R; f_v : R; c_u : R; c_v : R; k1 : R; k2 : R; k3 : R; k4 : R; k5 : R;
  extrinsic : pose; width : R; height : R; rolling_shutter_direction : shutter }.
Record image := {
  image_pose : pose; v_xyz : vec3; w_xyz : vec3; pose_timestamp : R; shutter_time : R; camera_trigger_time : R;
  camera_readout_done_time : R }.

(** 47-49: bounds on the radial distortion. *)
Definition kMinRadialDistortion : R := 8 / 10.
Definition kMaxRadialDistortion : R := 12 / 10.

(** 77-106: GetPixelTimestamp. *)
Definition pixel_timestamp (d : shutter) (shutter camera_trigger_time camera_readout_done_time image_width image_height x y : R) : result R :=
  let readout_duration := camera_readout_done_time - camera_trigger_time - shutter in
  let base_ts := camera_trigger_time + 5 / 10 * shutter in
  match d with
  | TopToBottom => Ok (base_ts + readout_duration / image_height * y)
  | BottomToTop => Ok (base_ts + readout_duration / image_height * (image_height - y))
  | LeftToRight => Ok (base_ts + readout_duration / image_width * x)
  | RightToLeft => Ok (base_ts + readout_duration / image_width * (image_width - x))
  | _ => Err RuntimeError
  end.

(** 142-153: a pass of the loop of IterateUndistortion; the next guess. *)
Definition radial (c : calibration) (u v : R) : R :=
  let r2 := u * u + v * v in
  let r4 := r2 * r2 in
  let r6 := r4 * r2 in
  1 + r2 * k1 c + r4 * k2 c + r6 * k5 c.
Definition undistortion_step (c : calibration) (u_nd v_nd u v : R) : result (R * R) :=
  let r2 := u * u + v * v in
  let rd := radial c u v in
  let u_tangential := 2 * k3 c * u * v + k4 c * (r2 + 2 * u * u) in
  let v_tangential := 2 * k4 c * u * v + k3 c * (r2 + 2 * v * v) in
  if is_zero rd then Err RuntimeError else
  Ok ((u_nd - u_tangential) / rd, (v_nd - v_tangential) / rd).
(** 108-160: IterateUndistortion; the fuel is kMaxNumIterations. *)
Fixpoint iterate_undistortion (fuel : nat) (c : calibration) (min_delta2 u_nd v_nd u v : R) : result (R * R) :=
  match fuel with
  | O => Ok (u, v)
  | S n =>
      do next <- undistortion_step c u_nd v_nd u v;
      let du := fst next - u in
      let dv := snd next - v in
      if rltb (du * du + dv * dv) min_delta2 then Ok next
      else iterate_undistortion n c min_delta2 u_nd v_nd (fst next) (snd next)
  end.
Definition min_delta2 (c : calibration) : R := / 1000000000000 / (f_u c * f_u c + f_v c * f_v c).
(** 560-572: ImageToDirection. *)
Definition image_to_direction (c : calibration) (u_d v_d : R) : result (R * R) :=
  if rleb (f_u c) 0 || rleb (f_v c) 0 then Err RuntimeError else
  let u_nd := (u_d - c_u c) / f_u c in
  let v_nd := (v_d - c_v c) / f_v c in
  iterate_undistortion 20 c (min_delta2 c) u_nd v_nd u_nd v_nd.
(** 574-619: DirectionToImage: whether it can be trusted, and the pixel. *)
Definition direction_to_image (c : calibration) (u_n v_n : R) : bool * (R * R) :=
  let r2 := u_n * u_n + v_n * v_n in
  let r4 := r2 * r2 in
  let r6 := r4 * r2 in
  let r_d := 1 + k1 c * r2 + k2 c * r4 + k5 c * r6 in
  if rltb r_d kMinRadialDistortion || rltb kMaxRadialDistortion r_d then
    let roi_clipping_radius := sqrt (width c * width c + height c * height c) in
    let r2_sqrt_rcp := 1 / sqrt r2 in
    (false, (u_n * r2_sqrt_rcp * roi_clipping_radius + c_u c, v_n * r2_sqrt_rcp * roi_clipping_radius + c_v c))
  else
    let u_nd := u_n * r_d + 2 * k3 c * u_n * v_n + k4 c * (r2 + 2 * u_n * u_n) in
    let v_nd := v_n * r_d + k3 c * (r2 + 2 * v_n * v_n) + 2 * k4 c * u_n * v_n in
    (true, (u_nd * f_u c + c_u c, v_nd * f_v c + c_v c)).
(** 534-538: InImage. *)
Definition in_image (c : calibration) (u v : R) : bool := (rleb 0 u && rltb u (width c)) && (rleb 0 v && rltb v (height c)).

(** What a projection leaves in its outputs: the return value, the pixel and the depth. *)
Record projection := { ok : bool; pixel : R * R; depth : R }.
Definition behind : projection := {| ok := false; pixel := (-1, -1); depth := -1 |}.
(** 408-424, 516-525: the end of both projections. *)
Definition finish (c : calibration) (check_image_bounds : bool) (d u v : R) : projection :=
  let '(trusted, p) := direction_to_image c u v in
  {| ok := trusted && (if check_image_bounds then in_image c (fst p) (snd p) else true); pixel := p; depth := d |}.
(** 504-526: CameraToImageWithDepth. *)
Definition camera_to_image (c : calibration) (check_image_bounds : bool) (p : vec3) : projection :=
  if rleb (X p) 0 then behind
  else finish c check_image_bounds (X p) (- Y p / X p) (- Z_ p / X p).

(** 212-228: the states of PrepareProjection. *)
Record global_state := { g_n_tfm_cam0 : pose; g_cam_tfm_n : pose; g_vehicle_tfm_cam : pose }.
Definition prepare_global (c : calibration) (i : image) : global_state :=
  let n_tfm_cam0 := compose (image_pose i) (extrinsic c) in
  {| g_n_tfm_cam0 := n_tfm_cam0; g_cam_tfm_n := isometry_inverse n_tfm_cam0; g_vehicle_tfm_cam := extrinsic c |}.
(** 230-318: the part for a rolling shutter. *)
Record rolling_state := {
  t_pose_offset : R; readout_time_factor : R; readout_time_factor_pixel : R; principal_point : R * R; n_tfm_cam0 : pose;
  n_vel_cam0 : vec3; skew_omega : mat3; cam0_dcm_n : mat3; skew_omega_dcm : mat3; readout_horizontal_direction : bool }.
Definition is_horizontal (d : shutter) : bool := match d with RightToLeft | LeftToRight => true | _ => false end.
Definition is_reverse (d : shutter) : bool := match d with RightToLeft | BottomToTop => true | _ => false end.
Definition prepare_rolling (c : calibration) (i : image) : result rolling_state :=
  let n_tfm_vehicle0 := image_pose i in
  let vehicle_tfm_cam := extrinsic c in
  let d := rolling_shutter_direction c in
  let readout_time := camera_readout_done_time i - camera_trigger_time i - shutter_time i in
  do t_principal_point <- pixel_timestamp d (shutter_time i) (camera_trigger_time i) (camera_readout_done_time i)
    (width c) (height c) (c_u c) (c_v c);
  do ranges <-
    (if is_horizontal d then
       do first <- image_to_direction c 0 (5 / 10 * height c);
       do last <- image_to_direction c (width c) (5 / 10 * height c);
       Ok (fst last - fst first, width c)
     else
       do first <- image_to_direction c (5 / 10 * width c) 0;
       do last <- image_to_direction c (5 / 10 * width c) (height c);
       Ok (snd last - snd first, height c));
  let signed := if is_reverse d then - readout_time else readout_time in
  let n_tfm_cam0 := compose n_tfm_vehicle0 vehicle_tfm_cam in
  let vehicle_omega_vehicle := w_xyz i in
  let n_omega_vehicle := mulv (rotation n_tfm_vehicle0) vehicle_omega_vehicle in
  let cam_omega_cam0 := mulv (transpose3 (rotation vehicle_tfm_cam)) vehicle_omega_vehicle in
  let n_pos_cam0 := mulv (rotation n_tfm_vehicle0) (translation vehicle_tfm_cam) in
  let cam0_dcm_n := transpose3 (rotation n_tfm_cam0) in
  Ok {| t_pose_offset := pose_timestamp i - t_principal_point;
        readout_time_factor := signed / fst ranges;
        readout_time_factor_pixel := signed / snd ranges;
        principal_point := (c_u c, c_v c);
        n_tfm_cam0 := n_tfm_cam0;
        n_vel_cam0 := add3 (v_xyz i) (mulv (skew n_omega_vehicle) n_pos_cam0);
        skew_omega := skew cam_omega_cam0;
        cam0_dcm_n := cam0_dcm_n;
        skew_omega_dcm := matmul (scale_mat (-1) (skew cam_omega_cam0)) cam0_dcm_n;
        readout_horizontal_direction := is_horizontal d |}.

(** 621-677: ComputeDepthResidualAndJacobian; [None] if the point is behind the camera. *)
Record evaluation := { normalized_coord : R * R; point_depth : R; residual : R; jacobian : R }.
Definition cam_dcm_n_at (s : rolling_state) (t_h : R) : mat3 := add_mat (cam0_dcm_n s) (scale_mat t_h (skew_omega_dcm s)).
Definition n_pos_cam_at (s : rolling_state) (t_h : R) : vec3 := add3 (translation (n_tfm_cam0 s)) (scale3 t_h (n_vel_cam0 s)).
Definition cam_pos_f_at (s : rolling_state) (n_pos_f n_vel_f : vec3) (t_h : R) : vec3 :=
  mulv (cam_dcm_n_at s t_h) (sub3 (add3 n_pos_f (scale3 t_h n_vel_f)) (n_pos_cam_at s t_h)).
Definition compute_depth_residual_and_jacobian (s : rolling_state) (n_pos_f n_vel_f : vec3) (t_h : R) : option evaluation :=
  let cam_dcm_n := cam_dcm_n_at s t_h in
  let cam_pos_f := cam_pos_f_at s n_pos_f n_vel_f t_h in
  if rleb (X cam_pos_f) 0 then None else
  let coord := (- Y cam_pos_f / X cam_pos_f, - Z_ cam_pos_f / X cam_pos_f) in
  let normalized_spacing := if readout_horizontal_direction s then fst coord else snd coord in
  let jacobian_landmark_to_index :=
    sub3 (mulv cam_dcm_n (sub3 n_vel_f (n_vel_cam0 s))) (mulv (skew_omega s) cam_pos_f) in
  let jacobian_combined :=
    if readout_horizontal_direction s then
      readout_time_factor s / X cam_pos_f * (fst coord * X jacobian_landmark_to_index - Y jacobian_landmark_to_index)
    else
      readout_time_factor s / X cam_pos_f * (snd coord * X jacobian_landmark_to_index - Z_ jacobian_landmark_to_index) in
  Some {| normalized_coord := coord; point_depth := X cam_pos_f;
          residual := t_h - normalized_spacing * readout_time_factor s + t_pose_offset s;
          jacobian := 1 - jacobian_combined |}.

(** 354-391: the loop; the fuel is kMaxIterNum.  [None] if the point gets behind the camera, otherwise the time and
    the residual of the last pass. *)
Definition kThreshold : R := / 100000.
Definition kMaxFinalResidualError : R := / 10.
Fixpoint solve (fuel : nat) (s : rolling_state) (n_pos_f n_vel_f : vec3) (t_h residual_before : R) : result (option (R * R)) :=
  match fuel with
  | O => Ok (Some (t_h, residual_before))
  | S n =>
      if rltb kThreshold (Rabs residual_before) then
        match compute_depth_residual_and_jacobian s n_pos_f n_vel_f t_h with
        | None => Ok None
        | Some e =>
            if is_zero (jacobian e) then Err RuntimeError
            else solve n s n_pos_f n_vel_f (t_h + - residual e / jacobian e) (residual e)
        end
      else Ok (Some (t_h, residual_before))
  end.
(** 344-425: WorldToImageMovingPointWithDepth for a rolling shutter.  [before] is what the outputs held. *)
Definition rolling_project (c : calibration) (s : rolling_state) (check_image_bounds : bool) (before : projection)
  (n_pos_f n_vel_f : vec3) : result projection :=
  do r <- solve 4 s n_pos_f n_vel_f 0 (2 * kThreshold);
  match r with
  | None => Ok behind
  | Some (t_h, last_residual) =>
      if rltb kMaxFinalResidualError (Rabs last_residual) then Ok {| ok := false; pixel := pixel before; depth := depth before |} else
      match compute_depth_residual_and_jacobian s n_pos_f n_vel_f t_h with
      | None => Ok behind
      | Some e => Ok (finish c check_image_bounds (point_depth e) (fst (normalized_coord e)) (snd (normalized_coord e)))
      end
  end.
(** 540-552: WorldToImageWithDepthGlobalShutter. *)
Definition global_project (c : calibration) (g : global_state) (check_image_bounds : bool) (p : vec3) : projection :=
  camera_to_image c check_image_bounds (apply (g_cam_tfm_n g) p).
(** 344-439: the projections, after PrepareProjection. *)
Definition world_to_image_moving (c : calibration) (i : image) (check_image_bounds : bool) (before : projection) (p v : vec3)
  : result projection :=
  match rolling_shutter_direction c with
  | GlobalShutter => Ok (global_project c (prepare_global c i) check_image_bounds p)
  | _ => do s <- prepare_rolling c i; rolling_project c s check_image_bounds before p v
  end.
Definition world_to_image (c : calibration) (i : image) (check_image_bounds : bool) (before : projection) (p : vec3) : result projection :=
  world_to_image_moving c i check_image_bounds before p (0, 0, 0).

(** 440-471: ImageToWorld. *)
Definition rolling_time (s : rolling_state) (u_d v_d : R) : R :=
  let pixel_spacing := if readout_horizontal_direction s then u_d - fst (principal_point s) else v_d - snd (principal_point s) in
  readout_time_factor_pixel s * pixel_spacing - t_pose_offset s.
Definition rolling_unproject (c : calibration) (s : rolling_state) (u_d v_d depth : R) : result vec3 :=
  let t_h := rolling_time s u_d v_d in
  do n <- image_to_direction c u_d v_d;
  let cam_pos_f := (depth, - fst n * depth, - snd n * depth) in
  Ok (add3 (mulv (transpose3 (cam_dcm_n_at s t_h)) cam_pos_f) (n_pos_cam_at s t_h)).
(** 473-486, 488-502: ImageToWorldGlobalShutter and ImageToVehicleGlobalShutter. *)
Definition unproject (c : calibration) (t : pose) (u_d v_d depth : R) : result vec3 :=
  do n <- image_to_direction c u_d v_d;
  Ok (apply t (depth, - fst n * depth, - snd n * depth)).
Definition image_to_vehicle (c : calibration) (i : image) (u_d v_d depth : R) : result vec3 :=
  unproject c (g_vehicle_tfm_cam (prepare_global c i)) u_d v_d depth.
Definition image_to_world (c : calibration) (i : image) (u_d v_d depth : R) : result vec3 :=
  match rolling_shutter_direction c with
  | GlobalShutter => unproject c (g_n_tfm_cam0 (prepare_global c i)) u_d v_d depth
  | _ => do s <- prepare_rolling c i; rolling_unproject c s u_d v_d depth
  end.

(** camera_model_ops.cc:132-163: a row of the output of WorldToImage with its depth: the outputs start at zero. *)
Definition world_to_image_op (c : calibration) (i : image) (points : list vec3) : result (list (R * R * R * R)) :=
  mapM (fun p =>
    do r <- world_to_image c i false {| ok := false; pixel := (0, 0); depth := 0 |} p;
    Ok (fst (pixel r), snd (pixel r), depth r, if ok r then 1 else 0)) points.
