(** C86, C87 and C88: the camera. *)
From Coq Require Import Reals List Bool.
From Verif Require Import Base ResultLib GeomModel FrameModel FrameSpec CamModel CamSpec CamLens CamFrames CamRolling CamSolve CamExact CamWitness CamFacts.
Import ListNotations.
Open Scope R_scope.

(** C86: a direction that can be trusted lands on the pixel of the distortion of OpenCV; another is reported as
    untrusted, on its side of the principal point and outside of the image. *)
Theorem C86_pixel_of_a_direction : forall c n,
  (trusted c n -> direction_to_image c (fst n) (snd n) = (true, pixel_of c n)) /\
  (~ trusted c n -> sane c -> fst (direction_to_image c (fst n) (snd n)) = false /\
     (exists s, 0 < s /\ snd (direction_to_image c (fst n) (snd n)) = (c_u c + s * fst n, c_v c + s * snd n)) /\
     (inside c (c_u c, c_v c) -> ~ inside c (snd (direction_to_image c (fst n) (snd n))))).
Proof. exact pixel_of_a_direction. Qed.
Print Assumptions C86_pixel_of_a_direction.

(** C86: a direction stays as it is in the undistortion exactly when its pixel is the given one. *)
Theorem C86_undistortion_rests_on_preimages : forall c q m, sane c ->
  undistortion_step c ((fst q - c_u c) / f_u c) ((snd q - c_v c) / f_v c) (fst m) (snd m) = Ok m <->
  lens_factor c (fst m) (snd m) <> 0 /\ pixel_of c m = q.
Proof. exact rests_on_preimages. Qed.
Print Assumptions C86_undistortion_rests_on_preimages.

(** C86: the direction of a pixel is either the last of twenty steps, none of which was small, or within a millionth
    of a pixel of a direction whose pixel is within a millionth, times the factor of the lens, of the given one. *)
Theorem C86_undistortion_accuracy : forall c q n, image_to_direction c (fst q) (snd q) = Ok n ->
  let start := ((fst q - c_u c) / f_u c, (snd q - c_v c) / f_v c) in
  let tolerance := / 10 ^ 12 / (f_u c ^ 2 + f_v c ^ 2) in
  (exists m, (fst n - fst m) ^ 2 + (snd n - snd m) ^ 2 < tolerance /\
     (fst (pixel_of c m) - fst q) ^ 2 + (snd (pixel_of c m) - snd q) ^ 2 <= (lens_factor c (fst m) (snd m) * / 10 ^ 6) ^ 2) \/
  (exists ms, length ms = 21%nat /\ nth_error ms 0 = Some start /\ nth_error ms 20 = Some n /\
     forall k a b, nth_error ms k = Some a -> nth_error ms (S k) = Some b ->
       undistortion_step c (fst start) (snd start) (fst a) (snd a) = Ok b /\ tolerance <= (fst b - fst a) ^ 2 + (snd b - snd a) ^ 2).
Proof. exact undistortion_accuracy. Qed.
Print Assumptions C86_undistortion_accuracy.

(** C86: without distortion, pixels and directions correspond exactly. *)
Theorem C86_plain_lens_inverse : forall c, sane c -> plain c ->
  (forall q, exists n, image_to_direction c (fst q) (snd q) = Ok n /\ direction_to_image c (fst n) (snd n) = (true, q)) /\
  (forall n, image_to_direction c (fst (pixel_of c n)) (snd (pixel_of c n)) = Ok n).
Proof. exact plain_lens_inverse. Qed.
Print Assumptions C86_plain_lens_inverse.

(** C86: with a global shutter, a point in front of the camera gets the pixel of its direction and its depth, and is
    valid exactly if the lens can be trusted there and, when asked for, the pixel is inside of the image; every
    other point gets minus one thrice. *)
Theorem C86_global_projection : forall c i b before p, rolling_shutter_direction c = GlobalShutter -> solid_frames c i ->
  (forall n d, 0 < d -> sees c i p n d -> exists r, world_to_image c i b before p = Ok r /\ depth r = d /\
     pixel r = snd (direction_to_image c (fst n) (snd n)) /\
     (ok r = true <-> trusted c n /\ (b = true -> inside c (pixel_of c n)))) /\
  ((forall n d, 0 < d -> ~ sees c i p n d) -> world_to_image c i b before p = Ok {| ok := false; pixel := (-1, -1); depth := -1 |}) /\
  ((exists n d, 0 < d /\ sees c i p n d) \/ (forall n d, 0 < d -> ~ sees c i p n d)).
Proof. exact global_projection. Qed.
Print Assumptions C86_global_projection.

(** C86: the rows of the TensorFlow op, which does not look at the size of the image. *)
Theorem C86_global_op : forall c i points, rolling_shutter_direction c = GlobalShutter -> solid_frames c i ->
  exists rows, world_to_image_op c i points = Ok rows /\ length rows = length points /\
    forall k p u v d flag, nth_error points k = Some p -> nth_error rows k = Some (u, v, d, flag) ->
      (forall n e, 0 < e -> sees c i p n e -> (u, v) = snd (direction_to_image c (fst n) (snd n)) /\ d = e /\
         (trusted c n -> flag = 1) /\ (~ trusted c n -> flag = 0)) /\
      ((forall n e, 0 < e -> ~ sees c i p n e) -> (u, v) = (-1, -1) /\ d = -1 /\ flag = 0).
Proof. exact global_op. Qed.
Print Assumptions C86_global_op.

(** C86: with a global shutter, the way to the world and the way to the image undo each other wherever the
    undistortion found the direction of the pixel; the way to the vehicle is the way to the world less the pose. *)
Theorem C86_global_round_trip : forall c i b before q n d, rolling_shutter_direction c = GlobalShutter -> solid_frames c i -> 0 < d ->
  image_to_direction c (fst q) (snd q) = Ok n -> trusted c n -> pixel_of c n = q ->
  exists p p', image_to_world c i (fst q) (snd q) d = Ok p /\ sees c i p n d /\
    world_to_image c i b before p = Ok {| ok := if b then in_image c (fst q) (snd q) else true; pixel := q; depth := d |} /\
    image_to_vehicle c i (fst q) (snd q) d = Ok p' /\ world (image_pose i) p' = p.
Proof. exact global_round_trip. Qed.
Print Assumptions C86_global_round_trip.
Theorem C86_global_round_trip_back : forall c i b before p r, rolling_shutter_direction c = GlobalShutter -> solid_frames c i ->
  world_to_image c i b before p = Ok r -> ok r = true ->
  exists n, sees c i p n (depth r) /\ pixel_of c n = pixel r /\
    (image_to_direction c (fst (pixel r)) (snd (pixel r)) = Ok n -> image_to_world c i (fst (pixel r)) (snd (pixel r)) (depth r) = Ok p).
Proof. exact global_round_trip_back. Qed.
Print Assumptions C86_global_round_trip_back.

(** C86: the undistortion does not always come back to a direction that can be trusted. *)
Theorem C86_undistortion_refuted : exists c n n', sane c /\ trusted c n /\
  image_to_direction c (fst (pixel_of c n)) (snd (pixel_of c n)) = Ok n' /\ fst n + 2 / 10 <= fst n'.
Proof. exact undistortion_refuted. Qed.
Print Assumptions C86_undistortion_refuted.

(** C87: pixels are timed along the direction of the readout between the middles of the first and of the last
    exposure, and other directions end the program. *)
Theorem C87_pixel_times : forall c i q, sane c -> rolls c ->
  pixel_timestamp (rolling_shutter_direction c) (shutter_time i) (camera_trigger_time i) (camera_readout_done_time i) (width c) (height c) (fst q) (snd q)
    = Ok (read_time c i q) /\
  (inside c q -> first_time i <= last_time i -> first_time i <= read_time c i q <= last_time i).
Proof. exact pixel_times. Qed.
Print Assumptions C87_pixel_times.
Theorem C87_unknown_direction_ends : forall c i, rolling_shutter_direction c = Unknown ->
  (forall b before p v, world_to_image_moving c i b before p v = Err RuntimeError) /\
  (forall u v d, image_to_world c i u v d = Err RuntimeError).
Proof. exact unknown_direction_ends. Qed.
Print Assumptions C87_unknown_direction_ends.

(** C87: on the way to the world, a pixel is taken with the camera as it was when that pixel was read. *)
Theorem C87_world_at_the_time_of_the_pixel : forall c i q d p, sane c -> rolls c -> solid_frames c i -> image_to_world c i (fst q) (snd q) d = Ok p ->
  exists n, image_to_direction c (fst q) (snd q) = Ok n /\ seen_at c i (rate_of_vehicle i) (since_pose c i q) p (0, 0, 0) n d.
Proof. exact world_seen. Qed.
Print Assumptions C87_world_at_the_time_of_the_pixel.
Theorem C87_plain_lens_caught : forall c i q d, sane c -> rolls c -> plain c -> solid_frames c i ->
  exists p, image_to_world c i (fst q) (snd q) d = Ok p /\ caught c i (rate_of_vehicle i) p (0, 0, 0) q d.
Proof. exact plain_world. Qed.
Print Assumptions C87_plain_lens_caught.

(** C87: with a plain lens the equation that is solved on the way to the image says that the time at hand is the
    time of the pixel; with another lens it is off by the difference of two linear scales. *)
Theorem C87_equation : forall c i s p v t e, sane c -> rolls c -> prepare_rolling c i = Ok s ->
  compute_depth_residual_and_jacobian s p v t = Some e ->
  let a := if is_horizontal (rolling_shutter_direction c) then fst else snd in
  residual e = t - since_pose c i (pixel_of c (normalized_coord e)) +
    (readout_time_factor_pixel s * (a (pixel_of c (normalized_coord e)) - a (c_u c, c_v c)) - readout_time_factor s * a (normalized_coord e)) /\
  (plain c -> residual e = t - since_pose c i (pixel_of c (normalized_coord e))).
Proof. exact equation. Qed.
Print Assumptions C87_equation.

(** C87: the angular velocity is documented to be that of the world frame and is used as that of the vehicle frame;
    they agree for a level vehicle that turns on the spot, and not in general. *)
Theorem C87_level_turn : forall i w, axis_z (rotation (image_pose i)) = (0, 0, 1) -> w_xyz i = (0, 0, w) -> rate_of_vehicle i = rate_as_documented i.
Proof. exact level_rate. Qed.
Print Assumptions C87_level_turn.
Theorem C87_angular_velocity_refuted : exists c i q p, sane c /\ rolls c /\ plain c /\ solid_frames c i /\
  image_to_world c i (fst q) (snd q) 10 = Ok p /\ forall d, ~ caught c i (rate_as_documented i) p (0, 0, 0) q d.
Proof. exact angular_velocity_refuted. Qed.
Print Assumptions C87_angular_velocity_refuted.

(** C88: if the vehicle does not turn, the answer is (-1, -1), or the outputs are left alone, or the pixel and the
    depth are those of the point at some moment; for a plain lens that moment is the time of the pixel exactly if
    the equation is solved. *)
Theorem C88_reported_pixel : forall c i s b before p v r, sane c -> rolls c -> solid_frames c i -> not_turning i -> prepare_rolling c i = Ok s ->
  world_to_image_moving c i b before p v = Ok r ->
  r = {| ok := false; pixel := (-1, -1); depth := -1 |} \/ (ok r = false /\ pixel r = pixel before /\ depth r = depth before) \/
  exists t n d, 0 < d /\ seen_at c i (rate_of_vehicle i) t p v n d /\ depth r = d /\
    pixel r = snd (direction_to_image c (fst n) (snd n)) /\
    (ok r = true <-> trusted c n /\ (b = true -> inside c (pixel_of c n))) /\
    (plain c -> residual_at s p v t = 0 -> caught c i (rate_of_vehicle i) p v (pixel r) d).
Proof. exact reported_pixel. Qed.
Print Assumptions C88_reported_pixel.

(** C88: if the vehicle does not turn, the lens is plain, and the point stays at its depth, then the projection is
    the pixel that catches the point, if there is exactly one. *)
Theorem C88_steady_depth_exact : forall c i p v d q b before, sane c -> rolls c -> plain c -> solid_frames c i -> not_turning i -> 0 < d ->
  (forall t, exists n, seen_at c i (rate_of_vehicle i) t p v n d) ->
  caught c i (rate_of_vehicle i) p v q d -> (forall q' d', 0 < d' -> caught c i (rate_of_vehicle i) p v q' d' -> q' = q) ->
  world_to_image_moving c i b before p v = Ok {| ok := if b then in_image c (fst q) (snd q) else true; pixel := q; depth := d |}.
Proof. exact steady_depth_exact. Qed.
Print Assumptions C88_steady_depth_exact.

(** C88: the slope used by the solver is the derivative less twice a term of the motion in depth: it is the
    derivative exactly if that term vanishes. *)
Theorem C88_slope : forall c i s t p v e, sane c -> rolls c -> not_turning i -> prepare_rolling c i = Ok s ->
  compute_depth_residual_and_jacobian s p v t = Some e ->
  exists depth_rate slope, derivable_pt_lim (fun x => X (cam_pos_f_at s p v x)) t depth_rate /\ derivable_pt_lim (residual_at s p v) t slope /\
    let a := if is_horizontal (rolling_shutter_direction c) then fst else snd in
    jacobian e = slope - 2 * readout_time_factor s * a (normalized_coord e) * depth_rate / point_depth e /\
    (jacobian e = slope <-> readout_time_factor s * a (normalized_coord e) * depth_rate = 0).
Proof. exact slope_of_the_solver. Qed.
Print Assumptions C88_slope.

(** C88: so a car that drives straight ahead gets a point one metre away reported as valid, more than a hundred
    pixels away from the one that catches it, at a pixel that does not catch it at any depth. *)
Theorem C88_valid_pixel_refuted : exists c i p q q' d d', sane c /\ rolls c /\ plain c /\ solid_frames c i /\ not_turning i /\
  (forall b before, world_to_image c i b before p = Ok {| ok := true; pixel := q; depth := d |}) /\
  (forall x, 0 < x -> ~ caught c i (rate_of_vehicle i) p (0, 0, 0) q x) /\
  0 < d' /\ caught c i (rate_of_vehicle i) p (0, 0, 0) q' d' /\ inside c q' /\ 100 < fst q' - fst q.
Proof. exact valid_pixel_refuted. Qed.
Print Assumptions C88_valid_pixel_refuted.

(** C88: a point that is in front of the camera and caught by a pixel inside of the image can leave the outputs as
    they were; the operation then gives it the pixel (0, 0). *)
Theorem C88_outputs_assigned_refuted : exists c i p q d, sane c /\ rolls c /\ plain c /\ solid_frames c i /\ not_turning i /\ 0 < d /\
  caught c i (rate_of_vehicle i) p (0, 0, 0) q d /\ inside c q /\
  (forall b before, world_to_image c i b before p = Ok {| ok := false; pixel := pixel before; depth := depth before |}) /\
  world_to_image_op c i [p] = Ok [(0, 0, 0, 0)].
Proof. exact outputs_assigned_refuted. Qed.
Print Assumptions C88_outputs_assigned_refuted.

(** C88: a turning camera is turned back with the transposed matrix, which differs from the inverse by a term in
    the square of the time; so the two ways do not undo each other. *)
Theorem C88_turned_back : forall c i s t p v q, sane c -> rolls c -> solid_frames c i -> prepare_rolling c i = Ok s ->
  add3 p (scale3 t v) = camera_point c i (rate_of_vehicle i) t q ->
  let w := mulv (transpose3 (rotation (extrinsic c))) (w_xyz i) in
  cam_pos_f_at s p v t = sub3 q (scale3 (t * t) (outer w (outer w q))).
Proof. exact turned_back. Qed.
Print Assumptions C88_turned_back.
Theorem C88_turning_round_trip_refuted : exists c i q d, sane c /\ rolls c /\ plain c /\ solid_frames c i /\ inside c q /\ 0 < d /\
  exists p, image_to_world c i (fst q) (snd q) d = Ok p /\
    forall before, exists r, world_to_image c i false before p = Ok r /\ ok r = true /\ snd (pixel r) < snd q - 3 /\ depth r <> d.
Proof. exact turning_round_trip_refuted. Qed.
Print Assumptions C88_turning_round_trip_refuted.

(** Non-vacuity: a plain camera, driving ahead; a point that moves along with it stays at its depth. *)
Example C86_to_C88_example :
  sane sharp /\ rolls sharp /\ plain sharp /\ solid_frames sharp (driving 1) /\ not_turning (driving 1) /\ inside sharp (c_u sharp, c_v sharp) /\
  trusted wavy (1, 0) /\ ~ trusted wavy (2, 0).
Proof. exact camera_example. Qed.
Example C88_steady_example : exists q,
  (forall t, exists n, seen_at sharp (driving 1) (rate_of_vehicle (driving 1)) t (10, 1, 1) (30, 0, 0) n 10) /\
  caught sharp (driving 1) (rate_of_vehicle (driving 1)) (10, 1, 1) (30, 0, 0) q 10 /\
  (forall q' d', 0 < d' -> caught sharp (driving 1) (rate_of_vehicle (driving 1)) (10, 1, 1) (30, 0, 0) q' d' -> q' = q) /\ inside sharp q.
Proof. exact steady_example. Qed.
Example C86_global_example : exists c, rolling_shutter_direction c = GlobalShutter /\ solid_frames c (driving 1) /\
  world_to_image c (driving 1) true {| ok := false; pixel := (0, 0); depth := 0 |} (10, 1, 1) = Ok {| ok := true; pixel := (400, 400); depth := 10 |}.
Proof. exact global_example. Qed.
