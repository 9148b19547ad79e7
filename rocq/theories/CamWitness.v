(** Concrete cameras. *)
From Coq Require Import Reals Lra Psatz List Bool.
From Verif Require Import Base ResultLib GeomModel GeomBase FrameModel FrameSpec FrameProofs CamModel CamSpec CamLens CamFrames CamRolling CamSolve CamExact.
Import ListNotations.
Open Scope R_scope.

Definition unit3 : mat3 := {| r0 := (1, 0, 0); r1 := (0, 1, 0); r2 := (0, 0, 1) |}.
Definition unit_pose : pose := {| rotation := unit3; translation := (0, 0, 0) |}.
Lemma unit_proper : proper unit3.
Proof. unfold proper, inner, axis_x, axis_y, axis_z, outer, unit3. cbn [r0 r1 r2 fst snd]. split; [ring|]. split; [ring|]. split; [ring|]. comps; ring. Qed.
Lemma unit_mulv v : mulv unit3 v = v.
Proof. vv v. unfold unit3. vec. comps; ring. Qed.
Lemma unit_transpose : transpose3 unit3 = unit3.
Proof. reflexivity. Qed.

(** ** A plain camera of a thousand pixels, read from left to right *)
Definition sharp : calibration :=
  {| f_u := 1000; f_v := 1000; c_u := 500; c_v := 500; k1 := 0; k2 := 0; k3 := 0; k4 := 0; k5 := 0; extrinsic := unit_pose;
     width := 1000; height := 1000; rolling_shutter_direction := LeftToRight |}.
Lemma sharp_sane : sane sharp.
Proof. unfold sane, sharp. cbn [f_u f_v width height]. lra. Qed.
Lemma sharp_plain : plain sharp.
Proof. unfold plain, sharp. cbn. tauto. Qed.
Lemma sharp_pixel a b : pixel_of sharp (a, b) = (a * 1000 + 500, b * 1000 + 500).
Proof. rewrite plain_pixel by apply sharp_plain. reflexivity. Qed.
Lemma sharp_rolls : rolls sharp.
Proof. exact I. Qed.

(** Driving ahead at 30 metres in a second, read in 40 milliseconds; [k] slows everything down. *)
Definition driving (k : R) : image :=
  {| image_pose := unit_pose; v_xyz := (30 / k, 0, 0); w_xyz := (0, 0, 0); pose_timestamp := k * (8 / 525); shutter_time := 0;
     camera_trigger_time := 0; camera_readout_done_time := k / 25 |}.
Definition beside : vec3 := (1, 10 / 21, 0).
Lemma driving_solid k : solid_frames sharp (driving k).
Proof. split; apply unit_proper. Qed.
Lemma driving_state k : 0 < k -> exists s, prepare_rolling sharp (driving k) = Ok s /\ t_pose_offset s = - (k / 210) /\ readout_time_factor s = k / 25 /\
  readout_horizontal_direction s = true /\ forall p t, cam_pos_f_at s p (0, 0, 0) t = (X p - 30 / k * t, Y p, Z_ p) /\ drift s (0, 0, 0) = (- (30 / k), 0, 0).
Proof.
  intros K. destruct (plain_prepared sharp (driving k) sharp_sane sharp_rolls sharp_plain) as (s & H). exists s. split; [assumption|].
  pose proof (prepare_fields _ _ _ sharp_sane sharp_rolls H) as (A & (range & B & C) & _ & _ & E & G & W & M & MM & O).
  apply plain_span in B; [|apply sharp_sane|apply sharp_plain]. cbn in B.
  split; [rewrite A; unfold read_time, progress, first_time, last_time, driving, sharp; cbn [pose_timestamp shutter_time camera_trigger_time camera_readout_done_time rolling_shutter_direction c_u c_v width height fst snd]; field|].
  split; [rewrite C, B; unfold signed_readout, sharp, driving, first_time, last_time; cbn [rolling_shutter_direction is_reverse shutter_time camera_trigger_time camera_readout_done_time f_u width]; field|].
  split; [rewrite O; reflexivity|].
  assert (M0 : forall x, mulv (cam0_dcm_n s) x = x).
  { intros x. rewrite M, transpose_mul. change (rotation (extrinsic sharp)) with unit3. change (rotation (image_pose (driving k))) with unit3.
    now rewrite unit_transpose, !unit_mulv. }
  assert (V0 : n_vel_cam0 s = (30 / k, 0, 0)).
  { rewrite G. unfold driving, sharp, unit_pose, rate_of_vehicle, unit3. cbn [image_pose extrinsic rotation translation v_xyz w_xyz]. vec. comps; ring. }
  assert (T0 : translation (n_tfm_cam0 s) = (0, 0, 0)).
  { rewrite E. unfold driving, sharp, unit_pose, unit3. cbn [image_pose extrinsic]. vec. comps; ring. }
  intros p t. split.
  - unfold cam_pos_f_at. rewrite (still_matrix sharp (driving k) s t _ sharp_sane sharp_rolls eq_refl H), M0. unfold n_pos_cam_at. rewrite V0, T0.
    vv p. vec. comps; ring.
  - unfold drift. rewrite M0, V0. vec. comps; ring.
Qed.
Lemma driving_evaluation k s t : 0 < k -> prepare_rolling sharp (driving k) = Ok s -> 0 < 1 - 30 / k * t ->
  exists e, compute_depth_residual_and_jacobian s beside (0, 0, 0) t = Some e /\ point_depth e = 1 - 30 / k * t /\
    normalized_coord e = (- (10 / 21) / (1 - 30 / k * t), 0) /\
    residual e = t + (10 / 21) / (1 - 30 / k * t) * (k / 25) - k / 210 /\
    jacobian e = 1 - 4 / 7 / (1 - 30 / k * t) ^ 2.
Proof.
  intros K H D. destruct (driving_state k K) as (s' & H' & A & B & C & E). rewrite H in H'. injection H' as <-.
  destruct (E beside t) as [E1 E2]. set (x := 1 - 30 / k * t) in *.
  assert (Q : cam_pos_f_at s beside (0, 0, 0) t = ray (- (10 / 21) / x, 0) x).
  { rewrite E1. unfold beside, ray, X, Y, Z_. cbn [fst snd]. comps; [reflexivity|field; lra|ring]. }
  destruct (evaluation_ray s beside (0, 0, 0) t _ _ D Q) as (e & F & N & P). exists e. split; [assumption|]. split; [assumption|]. split; [assumption|].
  pose proof (evaluation_some _ _ _ _ _ F) as (_ & _ & R). rewrite C, N, A, B in R. cbn [fst snd] in R. split; [rewrite R; field; lra|].
  rewrite (still_jacobian sharp (driving k) s t _ _ e sharp_sane sharp_rolls eq_refl H F), E2, N, P, B. unfold along, sharp, X, Y, Z_.
  cbn [is_horizontal rolling_shutter_direction fst snd]. field. lra.
Qed.
Lemma driving_solve k s : 1 <= k -> prepare_rolling sharp (driving k) = Ok s ->
  solve 4 s beside (0, 0, 0) 0 (2 * kThreshold) = Ok (Some (0, - (k / 35))).
Proof.
  intros K H. assert (K0 : 0 < k) by lra.
  assert (D0 : 0 < 1 - 30 / k * 0) by lra.
  assert (T1 : 1 - 30 / k * (- (k / 30)) = 2) by (field; lra). assert (D1 : 0 < 1 - 30 / k * (- (k / 30))) by lra.
  destruct (driving_evaluation k s 0 K0 H D0) as (e0 & E0 & _ & _ & R0 & J0).
  destruct (driving_evaluation k s (- (k / 30)) K0 H D1) as (e1 & E1 & _ & _ & R1 & J1). rewrite T1 in R1, J1.
  replace (1 - 30 / k * 0) with 1 in R0, J0 by ring.
  assert (R0' : residual e0 = k / 70) by (rewrite R0; field). assert (J0' : jacobian e0 = 3 / 7) by (rewrite J0; field).
  assert (R1' : residual e1 = - (k / 35)) by (rewrite R1; field). assert (J1' : jacobian e1 = 6 / 7) by (rewrite J1; field).
  assert (B : rltb kThreshold (Rabs (2 * kThreshold)) = true) by (apply rltb_iff; unfold kThreshold; rewrite Rabs_right; lra).
  assert (B0 : rltb kThreshold (Rabs (k / 70)) = true) by (apply rltb_iff; unfold kThreshold; rewrite Rabs_right; lra).
  assert (B1 : rltb kThreshold (Rabs (- (k / 35))) = true) by (apply rltb_iff; unfold kThreshold; rewrite Rabs_Ropp, Rabs_right; lra).
  assert (Z0 : is_zero (3 / 7) = false) by (apply is_zero_false; lra). assert (Z1 : is_zero (6 / 7) = false) by (apply is_zero_false; lra).
  cbn [solve]. rewrite B, E0, J0', Z0, R0', B0. replace (0 + - (k / 70) / (3 / 7)) with (- (k / 30)) by field.
  rewrite E1, J1', Z1, R1', B1. replace (- (k / 30) + - - (k / 35) / (6 / 7)) with 0 by field.
  rewrite E0, J0', Z0, R0', B0. replace (0 + - (k / 70) / (3 / 7)) with (- (k / 30)) by field.
  rewrite E1, J1', Z1, R1'. replace (- (k / 30) + - - (k / 35) / (6 / 7)) with 0 by field. reflexivity.
Qed.
(** Where it is really caught. *)
Definition root37 : R := (3 + sqrt 37) / 7.
Lemma root37_eq : root37 * root37 = 6 / 7 * root37 + 4 / 7 /\ 129 / 100 < root37 < 13 / 10.
Proof.
  unfold root37. assert (Q : sqrt 37 * sqrt 37 = 37) by (apply sqrt_sqrt; lra). assert (P : 0 <= sqrt 37) by apply sqrt_pos.
  split; [nra|]. split; nra.
Qed.
Lemma driving_caught k : 0 < k -> caught sharp (driving k) (rate_of_vehicle (driving k)) beside (0, 0, 0) (500 - 1000 * (10 / 21) / root37, 500) root37.
Proof.
  intros K. destruct root37_eq as [Q [P _]]. destruct (driving_state k K) as (s & H & _).
  set (t := k / 30 * (1 - root37)). assert (T : 1 - 30 / k * t = root37) by (unfold t; field; lra).
  destruct (driving_evaluation k s t K H ltac:(rewrite T; lra)) as (e & E & D & N & R & _). rewrite T in D, N, R.
  assert (Z : residual e = 0).
  { rewrite R. unfold t. replace (k / 30 * (1 - root37) + 10 / 21 / root37 * (k / 25) - k / 210) with
      (k / 30 / root37 * (4 / 7 - (root37 * root37 - 6 / 7 * root37))) by (field; lra). rewrite Q. field. lra. }
  pose proof (residual_zero_caught sharp (driving k) s t beside (0, 0, 0) e sharp_sane sharp_rolls sharp_plain (driving_solid k) eq_refl H E Z) as C.
  rewrite N, D, sharp_pixel in C.
  replace (500 - 1000 * (10 / 21) / root37) with (- (10 / 21) / root37 * 1000 + 500) by (field; lra).
  replace 500 with (0 * 1000 + 500) at 2 by ring. exact C.
Qed.
Lemma driving_reported before b : world_to_image sharp (driving 1) b before beside = Ok {| ok := true; pixel := (500 - 1000 * (10 / 21), 500); depth := 1 |}.
Proof.
  destruct (driving_state 1 ltac:(lra)) as (s & H & _). unfold world_to_image. rewrite (moving_unfold _ _ _ _ _ _ s sharp_rolls H). unfold rolling_project.
  rewrite (driving_solve 1 s ltac:(lra) H). cbn [bind].
  assert (B : rltb kMaxFinalResidualError (Rabs (- (1 / 35))) = false) by (apply rltb_false; unfold kMaxFinalResidualError; rewrite Rabs_Ropp, Rabs_right; lra).
  rewrite B. destruct (driving_evaluation 1 s 0 ltac:(lra) H ltac:(lra)) as (e & E & D & N & _). rewrite E, N, D.
  rewrite finish_trusted by apply plain_trusted, sharp_plain. rewrite sharp_pixel. cbn [fst snd].
  replace (- (10 / 21) / (1 - 30 / 1 * 0) * 1000 + 500) with (500 - 1000 * (10 / 21)) by field. replace (0 * 1000 + 500) with 500 by ring.
  replace (1 - 30 / 1 * 0) with 1 by ring. f_equal. f_equal. destruct b; [|reflexivity]. apply in_image_iff. unfold inside, sharp. cbn [width height fst snd]. lra.
Qed.
Lemma driving_diverged b before : world_to_image sharp (driving 30) b before beside = Ok {| ok := false; pixel := pixel before; depth := depth before |}.
Proof.
  destruct (driving_state 30 ltac:(lra)) as (s & H & _). unfold world_to_image. rewrite (moving_unfold _ _ _ _ _ _ s sharp_rolls H). unfold rolling_project.
  rewrite (driving_solve 30 s ltac:(lra) H). cbn [bind].
  assert (B : rltb kMaxFinalResidualError (Rabs (- (30 / 35))) = true) by (apply rltb_iff; unfold kMaxFinalResidualError; rewrite Rabs_Ropp, Rabs_right; lra).
  rewrite B. reflexivity.
Qed.
Lemma driving_not_there d : 0 < d -> ~ caught sharp (driving 1) (rate_of_vehicle (driving 1)) beside (0, 0, 0) (500 - 1000 * (10 / 21), 500) d.
Proof.
  intros D C. destruct (driving_state 1 ltac:(lra)) as (s & H & _).
  destruct (caught_residual sharp (driving 1) s beside (0, 0, 0) _ d sharp_sane sharp_rolls sharp_plain (driving_solid 1) eq_refl H D C) as (e & E & R & N & _).
  set (q := (500 - 1000 * (10 / 21), 500)) in *.
  assert (T : since_pose sharp (driving 1) q = - (1 / 70)).
  { unfold since_pose, read_time, progress, first_time, last_time, driving, sharp, q.
    cbn [pose_timestamp shutter_time camera_trigger_time camera_readout_done_time rolling_shutter_direction c_u c_v width height fst snd]. field. }
  rewrite T in E. destruct (driving_evaluation 1 s (- (1 / 70)) ltac:(lra) H ltac:(lra)) as (e' & E' & _ & N' & _). rewrite E in E'. injection E' as <-.
  rewrite N', sharp_pixel in N. unfold q in N. injection N as N _. replace (1 - 30 / 1 * - (1 / 70)) with (10 / 7) in N by field. lra.
Qed.

(** ** Turning: read at once, a tenth of a second after the pose *)
Definition flip3 : mat3 := {| r0 := (1, 0, 0); r1 := (0, -1, 0); r2 := (0, 0, -1) |}.
Definition turning (r : mat3) : image :=
  {| image_pose := {| rotation := r; translation := (0, 0, 0) |}; v_xyz := (0, 0, 0); w_xyz := (0, 0, 1); pose_timestamp := - (1 / 10); shutter_time := 0;
     camera_trigger_time := 0; camera_readout_done_time := 0 |}.
Lemma flip_proper : proper flip3.
Proof. unfold proper, inner, axis_x, axis_y, axis_z, outer, flip3. cbn [r0 r1 r2 fst snd]. split; [ring|]. split; [ring|]. split; [ring|]. comps; ring. Qed.
Lemma turning_since r q : since_pose sharp (turning r) q = 1 / 10.
Proof.
  unfold since_pose, read_time, progress, first_time, last_time, turning, sharp.
  cbn [pose_timestamp shutter_time camera_trigger_time camera_readout_done_time rolling_shutter_direction c_u c_v width height fst snd]. field.
Qed.
Lemma turning_world r q d : proper r -> image_to_world sharp (turning r) (fst q) (snd q) d =
  Ok (camera_point sharp (turning r) (rate_of_vehicle (turning r)) (1 / 10) (ray (shrunk sharp q) d)).
Proof.
  intros P. destruct (plain_world sharp (turning r) q d sharp_sane sharp_rolls sharp_plain ltac:(split; [exact P|apply unit_proper])) as (p & E & n & N & C).
  rewrite E. f_equal. rewrite turning_since in C. unfold seen_at in C.
  assert (n = shrunk sharp q) as ->.
  { rewrite <- N. symmetry. apply plain_inverse'; [apply sharp_plain|unfold sharp; cbn [f_u f_v]; lra..]. }
  rewrite <- C. vv p. vec. comps; ring.
Qed.
Lemma turning_round_trip before : exists p, image_to_world sharp (turning unit3) 500 900 10 = Ok p /\
  world_to_image sharp (turning unit3) false before p = Ok {| ok := true; pixel := (500, 500 + 40000 / 101); depth := 101 / 10 |}.
Proof.
  pose proof (turning_world unit3 (500, 900) 10 unit_proper) as E. cbn [fst snd] in E. eexists. split; [exact E|]. clear E.
  set (i := turning unit3). set (q := ray (shrunk sharp (500, 900)) 10). set (p := camera_point sharp i (rate_of_vehicle i) (1 / 10) q).
  assert (F : solid_frames sharp i) by (split; apply unit_proper).
  destruct (plain_prepared sharp i sharp_sane sharp_rolls sharp_plain) as (s & H).
  unfold world_to_image. rewrite (moving_unfold _ _ _ _ _ _ s sharp_rolls H).
  pose proof (prepare_fields _ _ _ sharp_sane sharp_rolls H) as (A & (range & B & C) & _ & _ & T0 & V0 & W & M & MM & O).
  assert (OFF : t_pose_offset s = - (1 / 10)).
  { rewrite A. unfold read_time, progress, first_time, last_time, i, turning, sharp.
    cbn [pose_timestamp shutter_time camera_trigger_time camera_readout_done_time rolling_shutter_direction c_u c_v width height fst snd]. field. }
  assert (FAC : readout_time_factor s = 0).
  { rewrite C. unfold signed_readout, i, turning, sharp, first_time, last_time. cbn [rolling_shutter_direction is_reverse shutter_time camera_trigger_time camera_readout_done_time].
    unfold Rdiv. ring. }
  assert (QV : q = (10, 0, - 4)) by (unfold q, ray, shrunk, sharp; cbn [f_u f_v c_u c_v fst snd]; comps; field).
  assert (PV : p = (10, 1, - 4)).
  { unfold p, camera_point, vehicle_point. rewrite QV. unfold i, turning, sharp, rate_of_vehicle, unit_pose, unit3.
    cbn [image_pose extrinsic rotation translation v_xyz w_xyz]. vec. comps; field. }
  assert (M0 : forall t x, mulv (cam_dcm_n_at s t) x = add3 x (scale3 t (neg3 (outer (0, 0, 1) x)))).
  { assert (U1 : forall x, mulv (cam0_dcm_n s) x = x) by (intros x; rewrite M, transpose_mul; change (rotation (extrinsic sharp)) with unit3;
      change (rotation (image_pose i)) with unit3; now rewrite unit_transpose, !unit_mulv).
    intros t x. unfold cam_dcm_n_at. rewrite mulv_add_mat, mulv_scale_mat, MM, mulv_matmul, mulv_scale_mat, !U1, W.
    change (rotation (extrinsic sharp)) with unit3. rewrite unit_transpose, unit_mulv, mulv_skew. change (w_xyz i) with (0, 0, 1).
    vv x. vec. comps; ring. }
  assert (NP : forall t, n_pos_cam_at s t = (0, 0, 0)).
  { intros t. unfold n_pos_cam_at. rewrite T0, V0. unfold i, turning, sharp, rate_of_vehicle, unit_pose, unit3.
    cbn [image_pose extrinsic rotation translation v_xyz w_xyz]. vec. comps; ring. }
  assert (CP : forall t, cam_pos_f_at s p (0, 0, 0) t = (10 + t, 1 - 10 * t, - 4)).
  { intros t. unfold cam_pos_f_at. rewrite M0, NP, PV. vec. comps; ring. }
  assert (EV : forall t, 0 <= t -> exists e, compute_depth_residual_and_jacobian s p (0, 0, 0) t = Some e /\ point_depth e = 10 + t /\
    normalized_coord e = (- (1 - 10 * t) / (10 + t), 4 / (10 + t)) /\ residual e = t - 1 / 10 /\ jacobian e = 1).
  { intros t HT. unfold compute_depth_residual_and_jacobian. rewrite CP. rewrite FAC, OFF, O. unfold X, Y, Z_. cbn [fst snd].
    destruct (rleb (10 + t) 0) eqn:LE; [apply rleb_iff in LE; lra|]. eexists. split; [reflexivity|]. cbn [point_depth normalized_coord residual jacobian].
    split; [reflexivity|]. split; [f_equal; field; lra|]. split; [ring|]. cbn. field. lra. }
  destruct (EV 0 ltac:(lra)) as (e0 & E0 & _ & _ & R0 & J0). destruct (EV (1 / 10) ltac:(lra)) as (e1 & E1 & D1 & N1 & R1 & J1).
  assert (BB : rltb kThreshold (Rabs (2 * kThreshold)) = true) by (apply rltb_iff; unfold kThreshold; rewrite Rabs_right; lra).
  assert (B0 : rltb kThreshold (Rabs (0 - 1 / 10)) = true) by (apply rltb_iff; unfold kThreshold; rewrite Rabs_left; lra).
  assert (B1 : rltb kThreshold (Rabs (1 / 10 - 1 / 10)) = false).
  { apply rltb_false. replace (1 / 10 - 1 / 10) with 0 by ring. rewrite Rabs_R0. unfold kThreshold. lra. }
  assert (B2 : rltb kMaxFinalResidualError (Rabs (1 / 10 - 1 / 10)) = false).
  { apply rltb_false. replace (1 / 10 - 1 / 10) with 0 by ring. rewrite Rabs_R0. unfold kMaxFinalResidualError. lra. }
  assert (Z1 : is_zero 1 = false) by (apply is_zero_false; lra).
  unfold rolling_project. cbn [solve]. rewrite BB, E0, J0, Z1, R0, B0. replace (0 + - (0 - 1 / 10) / 1) with (1 / 10) by field.
  rewrite E1, J1, Z1, R1, B1. replace (1 / 10 + - (1 / 10 - 1 / 10) / 1) with (1 / 10) by field. cbn [bind]. rewrite B2, E1, N1, D1.
  rewrite finish_trusted by apply plain_trusted, sharp_plain. rewrite sharp_pixel.
  f_equal. f_equal; [f_equal; field|field].
Qed.
Lemma turning_documented : exists p, image_to_world sharp (turning flip3) 500 500 10 = Ok p /\
  forall d, ~ caught sharp (turning flip3) (rate_as_documented (turning flip3)) p (0, 0, 0) (500, 500) d.
Proof.
  pose proof (turning_world flip3 (500, 500) 10 flip_proper) as E. cbn [fst snd] in E. eexists. split; [exact E|]. clear E.
  intros d (n & N & K). rewrite turning_since in K.
  assert (n = (0, 0)) as ->.
  { rewrite <- (plain_inverse' sharp n sharp_plain), N; [|unfold sharp; cbn [f_u f_v]; lra..]. unfold shrunk, sharp. cbn [f_u f_v c_u c_v fst snd]. f_equal; field. }
  unfold seen_at, camera_point, vehicle_point, turning, rate_as_documented, rate_of_vehicle, ray, shrunk, sharp, unit_pose, unit3, flip3 in K.
  cbn [image_pose extrinsic rotation translation v_xyz w_xyz f_u f_v c_u c_v fst snd] in K. vec_in K. injection K as K1 K2 K3. lra.
Qed.

(** ** A lens whose undistortion does not come back *)
Definition wavy : calibration :=
  {| f_u := 1; f_v := 1; c_u := 0; c_v := 0; k1 := -10; k2 := 102 / 10; k3 := 0; k4 := 0; k5 := 0; extrinsic := unit_pose;
     width := 4; height := 4; rolling_shutter_direction := GlobalShutter |}.
Lemma wavy_trusted : trusted wavy (1, 0).
Proof. unfold trusted, lens_factor, wavy. cbn [k1 k2 k5 fst snd]. lra. Qed.
Lemma wavy_pixel : pixel_of wavy (1, 0) = (12 / 10, 0).
Proof. unfold pixel_of, distorted, lens_factor, wavy. cbn [k1 k2 k3 k4 k5 f_u f_v c_u c_v fst snd]. f_equal; field. Qed.
Lemma wavy_step u : undistortion_step wavy (12 / 10) 0 u 0 =
  let f := 1 - 10 * (u * u) + 102 / 10 * (u * u * (u * u)) in if is_zero f then Err RuntimeError else Ok (12 / 10 / f, 0).
Proof.
  unfold undistortion_step. rewrite radial_factor. replace (lens_factor wavy u 0) with (1 - 10 * (u * u) + 102 / 10 * (u * u * (u * u)))
    by (unfold lens_factor, wavy; cbn [k1 k2 k5]; ring).
  cbn zeta. destruct (is_zero _) eqn:E; [reflexivity|]. apply is_zero_false in E. unfold wavy. cbn [k3 k4].
  set (f := 1 - 10 * (u * u) + 102 / 10 * (u * u * (u * u))) in *. clearbody f. f_equal. f_equal; unfold Rdiv; ring.
Qed.
Lemma wavy_far u : 12 / 10 <= u <= 1568 / 1000 -> exists w, undistortion_step wavy (12 / 10) 0 u 0 = Ok (w, 0) /\ 0 < w <= 155 / 1000.
Proof.
  intros B. rewrite wavy_step. cbn zeta. set (a := u * u). assert (A : 144 / 100 <= a) by (unfold a; nra).
  set (f := 1 - 10 * a + 102 / 10 * (a * a)). assert (G : 775 / 100 <= f) by (unfold f; nra).
  clearbody f. rewrite (proj2 (is_zero_false f)) by lra. eexists. split; [reflexivity|]. split; [apply Rdiv_lt_0_compat; lra|].
  apply (Rmult_le_reg_r f); [lra|]. unfold Rdiv. rewrite Rmult_assoc, Rinv_l by lra. lra.
Qed.
Lemma wavy_near u : 0 < u <= 155 / 1000 -> exists w, undistortion_step wavy (12 / 10) 0 u 0 = Ok (w, 0) /\ 12 / 10 <= w <= 1568 / 1000.
Proof.
  intros B. rewrite wavy_step. cbn zeta. set (a := u * u). assert (A : 0 <= a <= 24025 / 1000000) by (unfold a; nra).
  set (f := 1 - 10 * a + 102 / 10 * (a * a)). assert (G : 7656 / 10000 <= f <= 1) by (unfold f; nra).
  clearbody f. rewrite (proj2 (is_zero_false f)) by lra. eexists. split; [reflexivity|].
  split; (apply (Rmult_le_reg_r f); [lra|]; replace (12 / 10 / f * f) with (12 / 10) by (field; intros Z; lra); nra).
Qed.
Lemma wavy_iterate n : forall u, 12 / 10 <= u <= 1568 / 1000 ->
  exists w, iterate_undistortion (n + n) wavy (min_delta2 wavy) (12 / 10) 0 u 0 = Ok (w, 0) /\ 12 / 10 <= w <= 1568 / 1000.
Proof.
  assert (E : min_delta2 wavy < 1) by (unfold min_delta2, wavy; cbn [f_u f_v]; lra).
  induction n as [|n IH]; intros u B; [exists u; split; [reflexivity|assumption]|].
  replace (S n + S n)%nat with (S (S (n + n))) by (rewrite Nat.add_succ_r; reflexivity). cbn [iterate_undistortion].
  destruct (wavy_far u B) as (w & E1 & B1). rewrite E1. cbn [bind fst snd].
  destruct (rltb ((w - u) * (w - u) + (0 - 0) * (0 - 0)) (min_delta2 wavy)) eqn:L1; [apply rltb_iff in L1; nra|].
  destruct (wavy_near w B1) as (x & E2 & B2). rewrite E2. cbn [bind fst snd].
  destruct (rltb ((x - w) * (x - w) + (0 - 0) * (0 - 0)) (min_delta2 wavy)) eqn:L2; [apply rltb_iff in L2; nra|].
  now apply IH.
Qed.
Lemma wavy_direction : exists w, image_to_direction wavy (12 / 10) 0 = Ok (w, 0) /\ 12 / 10 <= w.
Proof.
  unfold image_to_direction. destruct (rleb (f_u wavy) 0) eqn:A; [apply rleb_iff in A; unfold wavy in A; cbn in A; lra|].
  destruct (rleb (f_v wavy) 0) eqn:B; [apply rleb_iff in B; unfold wavy in B; cbn in B; lra|]. cbn [orb].
  replace ((12 / 10 - c_u wavy) / f_u wavy) with (12 / 10) by (unfold wavy; cbn; field). replace ((0 - c_v wavy) / f_v wavy) with 0 by (unfold wavy; cbn; field).
  destruct (wavy_iterate 10 (12 / 10) ltac:(lra)) as (w & E & C). exists w. split; [exact E|lra].
Qed.
