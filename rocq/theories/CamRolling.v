(** The rolling shutter: times, the moving camera, and the solver. *)
From Coq Require Import Reals Lra Psatz List Bool.
From Verif Require Import Base ResultLib GeomModel GeomBase FrameModel FrameSpec FrameProofs CamModel CamSpec CamLens CamFrames.
Import ListNotations.
Open Scope R_scope.

(** ** Times *)
Lemma timestamp_ok c i q : sane c -> rolls c ->
  pixel_timestamp (rolling_shutter_direction c) (shutter_time i) (camera_trigger_time i) (camera_readout_done_time i) (width c) (height c) (fst q) (snd q)
    = Ok (read_time c i q).
Proof.
  intros (_ & _ & W & H) L. unfold rolls in L. unfold pixel_timestamp, read_time, progress, first_time, last_time.
  destruct (rolling_shutter_direction c); try contradiction; f_equal; field; lra.
Qed.
Lemma timestamp_refused d s a b w h x y :
  (exists t, pixel_timestamp d s a b w h x y = Ok t) <-> d = TopToBottom \/ d = LeftToRight \/ d = BottomToTop \/ d = RightToLeft.
Proof. split; [intros [t H]; destruct d; cbn in H; try discriminate; tauto|intros [->|[->|[->| ->]]]; cbn; eauto]. Qed.
Lemma progress_range c q : sane c -> rolls c -> inside c q -> 0 <= progress c q <= 1.
Proof.
  intros (_ & _ & W & H) L [[A B] [C D]]. unfold rolls in L. unfold progress.
  assert (P : 0 <= fst q / width c <= 1).
  { split; [apply Rmult_le_pos; [lra|left; apply Rinv_0_lt_compat; lra]|]. apply (Rmult_le_reg_r (width c)); [lra|]. unfold Rdiv. rewrite Rmult_assoc, Rinv_l; lra. }
  assert (Q : 0 <= snd q / height c <= 1).
  { split; [apply Rmult_le_pos; [lra|left; apply Rinv_0_lt_compat; lra]|]. apply (Rmult_le_reg_r (height c)); [lra|]. unfold Rdiv. rewrite Rmult_assoc, Rinv_l; lra. }
  destruct (rolling_shutter_direction c); try contradiction; lra.
Qed.
Lemma read_time_range c i q : sane c -> rolls c -> inside c q -> first_time i <= last_time i -> first_time i <= read_time c i q <= last_time i.
Proof. intros S L I T. pose proof (progress_range c q S L I). unfold read_time. nra. Qed.

(** ** What PrepareProjection computes *)
Definition spans (c : calibration) (range : R) : Prop :=
  if is_horizontal (rolling_shutter_direction c) then
    exists a b, image_to_direction c 0 (5 / 10 * height c) = Ok a /\ image_to_direction c (width c) (5 / 10 * height c) = Ok b /\ range = fst b - fst a
  else
    exists a b, image_to_direction c (5 / 10 * width c) 0 = Ok a /\ image_to_direction c (5 / 10 * width c) (height c) = Ok b /\ range = snd b - snd a.
Definition signed_readout (c : calibration) (i : image) : R :=
  if is_reverse (rolling_shutter_direction c) then - (last_time i - first_time i) else last_time i - first_time i.
Lemma prepare_fields c i s : sane c -> rolls c -> prepare_rolling c i = Ok s ->
  t_pose_offset s = pose_timestamp i - read_time c i (c_u c, c_v c) /\
  (exists range, spans c range /\ readout_time_factor s = signed_readout c i / range) /\
  readout_time_factor_pixel s = signed_readout c i / (if is_horizontal (rolling_shutter_direction c) then width c else height c) /\
  principal_point s = (c_u c, c_v c) /\ n_tfm_cam0 s = compose (image_pose i) (extrinsic c) /\
  n_vel_cam0 s = add3 (v_xyz i) (outer (rate_of_vehicle i) (mulv (rotation (image_pose i)) (translation (extrinsic c)))) /\
  skew_omega s = skew (mulv (transpose3 (rotation (extrinsic c))) (w_xyz i)) /\
  cam0_dcm_n s = transpose3 (matmul (rotation (image_pose i)) (rotation (extrinsic c))) /\
  skew_omega_dcm s = matmul (scale_mat (-1) (skew_omega s)) (cam0_dcm_n s) /\
  readout_horizontal_direction s = is_horizontal (rolling_shutter_direction c).
Proof.
  intros S L H. unfold prepare_rolling in H. pose proof (timestamp_ok c i (c_u c, c_v c) S L) as T. cbn [fst snd] in T. rewrite T in H. cbn [bind] in H.
  match type of H with bind ?r _ = _ => destruct r as [[range pixels]|e] eqn:E; cbn [bind] in H; [|discriminate] end.
  assert (A : spans c range /\ pixels = (if is_horizontal (rolling_shutter_direction c) then width c else height c)).
  { unfold spans. destruct (is_horizontal (rolling_shutter_direction c)).
    - destruct (image_to_direction c 0 (5 / 10 * height c)) as [a|] eqn:EA; cbn [bind] in E; [|discriminate].
      destruct (image_to_direction c (width c) (5 / 10 * height c)) as [b|] eqn:EB; cbn [bind] in E; [|discriminate].
      injection E as <- <-. split; [|reflexivity]. exists a, b. auto.
    - destruct (image_to_direction c (5 / 10 * width c) 0) as [a|] eqn:EA; cbn [bind] in E; [|discriminate].
      destruct (image_to_direction c (5 / 10 * width c) (height c)) as [b|] eqn:EB; cbn [bind] in E; [|discriminate].
      injection E as <- <-. split; [|reflexivity]. exists a, b. auto. }
  destruct A as [A1 A2]. injection H as <-.
  cbn [t_pose_offset readout_time_factor readout_time_factor_pixel principal_point n_tfm_cam0 n_vel_cam0 skew_omega cam0_dcm_n skew_omega_dcm readout_horizontal_direction fst snd].
  assert (R : camera_readout_done_time i - camera_trigger_time i - shutter_time i = last_time i - first_time i) by (unfold last_time, first_time; lra).
  rewrite R. split; [reflexivity|]. split; [exists range; split; [assumption|reflexivity]|]. split; [rewrite A2; reflexivity|].
  repeat (split; [reflexivity|]). rewrite mulv_skew. repeat (split; [reflexivity|]). reflexivity.
Qed.

(** The time that ImageToWorld uses. *)
Lemma rolling_time_exact c i s q : sane c -> rolls c -> prepare_rolling c i = Ok s -> rolling_time s (fst q) (snd q) = since_pose c i q.
Proof.
  intros S L H. destruct (prepare_fields c i s S L H) as (A & _ & B & C & _ & _ & _ & _ & _ & D). unfold rolling_time. rewrite A, B, C, D.
  destruct S as (_ & _ & W & HH). unfold rolls in L. unfold since_pose, read_time, progress, signed_readout. cbn [fst snd].
  destruct (rolling_shutter_direction c); try contradiction; cbn [is_horizontal is_reverse]; field; lra.
Qed.

(** ** The moving camera *)
Definition spin (c : calibration) (i : image) (q : vec3) : vec3 := outer (mulv (transpose3 (rotation (extrinsic c))) (w_xyz i)) q.
Lemma moving_camera c i s t q : sane c -> rolls c -> solid_frames c i -> prepare_rolling c i = Ok s ->
  add3 (mulv (transpose3 (cam_dcm_n_at s t)) q) (n_pos_cam_at s t) = camera_point c i (rate_of_vehicle i) t q.
Proof.
  intros S L [F1 F2] H. destruct (prepare_fields c i s S L H) as (_ & _ & _ & _ & A & B & C & D & E & _).
  unfold cam_dcm_n_at, n_pos_cam_at. rewrite E, D, C, A, B. unfold camera_point, vehicle_point, turned. rewrite !world_apply. unfold apply.
  rewrite transpose_add_mat, transpose_scale_mat, transpose_mul, transpose_twice, transpose_scale_mat, mulv_skew_transpose, !mulv_matmul.
  set (R := rotation (image_pose i)) in *. set (Rc := rotation (extrinsic c)) in *. unfold rate_of_vehicle. fold R. set (w := w_xyz i).
  assert (K : outer (mulv R w) (mulv R (add3 (mulv Rc q) (translation (extrinsic c)))) =
    add3 (mulv R (mulv Rc (outer (mulv (transpose3 Rc) w) q))) (outer (mulv R w) (mulv R (translation (extrinsic c))))).
  { rewrite mulv_add. rewrite <- (proper_outer Rc) by assumption. rewrite transpose_right by assumption. rewrite <- (proper_outer R) by assumption.
    generalize (mulv R w), (mulv R (mulv Rc q)), (mulv R (translation (extrinsic c))). intros a b d. vv a. vv b. vv d. vec. comps; ring. }
  rewrite K. rewrite mulv_add. rewrite !mulv_scale, mulv_neg.
  unfold compose. cbn [translation].
  rewrite mulv_neg. fold R.
  generalize (mulv R (mulv Rc q)), (mulv R (mulv Rc (outer (mulv (transpose3 Rc) w) q))), (outer (mulv R w) (mulv R (translation (extrinsic c)))),
    (mulv R (translation (extrinsic c))), (translation (image_pose i)), (v_xyz i).
  intros a b d e f g. vv a. vv b. vv d. vv e. vv f. vv g. vec. comps; ring.
Qed.
(** The projection turns back with the transposed matrix, which is not the inverse of a turning camera. *)
Lemma turned_back c i s t p v q : sane c -> rolls c -> solid_frames c i -> prepare_rolling c i = Ok s ->
  add3 p (scale3 t v) = camera_point c i (rate_of_vehicle i) t q ->
  cam_pos_f_at s p v t = sub3 q (scale3 (t * t) (spin c i (spin c i q))).
Proof.
  intros S L F H E. unfold cam_pos_f_at. rewrite E, <- (moving_camera c i s t q S L F H).
  replace (sub3 (add3 (mulv (transpose3 (cam_dcm_n_at s t)) q) (n_pos_cam_at s t)) (n_pos_cam_at s t)) with (mulv (transpose3 (cam_dcm_n_at s t)) q)
    by (generalize (mulv (transpose3 (cam_dcm_n_at s t)) q), (n_pos_cam_at s t); intros a b; vv a; vv b; vec; comps; ring).
  destruct (prepare_fields c i s S L H) as (_ & _ & _ & _ & _ & _ & C & D & G & _).
  unfold cam_dcm_n_at. rewrite G, D, C. set (M := matmul (rotation (image_pose i)) (rotation (extrinsic c))).
  assert (P : proper M) by (apply proper_matmul; apply F). unfold spin. set (w := mulv (transpose3 (rotation (extrinsic c))) (w_xyz i)).
  rewrite transpose_add_mat, transpose_scale_mat, transpose_mul, transpose_twice, transpose_scale_mat, mulv_skew_transpose.
  rewrite mulv_add_mat, mulv_scale_mat, mulv_matmul, mulv_scale_mat, mulv_skew.
  rewrite <- mulv_scale, <- mulv_add, transpose_left by assumption. clear. vv q. vv w. vec. comps; ring.
Qed.
Lemma not_spinning c i q : not_turning i -> spin c i q = (0, 0, 0).
Proof. intros H. unfold spin. rewrite H. generalize (rotation (extrinsic c)). intros m. mv m. vv q. vec. comps; ring. Qed.
Lemma still_inverse c i s t p v q : sane c -> rolls c -> solid_frames c i -> not_turning i -> prepare_rolling c i = Ok s ->
  (cam_pos_f_at s p v t = q <-> add3 p (scale3 t v) = camera_point c i (rate_of_vehicle i) t q).
Proof.
  intros S L F N H.
  assert (Z : forall q, sub3 q (scale3 (t * t) (spin c i (spin c i q))) = q).
  { intros q'. rewrite (not_spinning c i (spin c i q')) by assumption. vv q'. vec. comps; ring. }
  split; intros E; [|rewrite (turned_back c i s t p v q) by assumption; apply Z].
  (* the camera point of the coordinates *)
  rewrite <- E. rewrite <- (moving_camera c i s t _ S L F H). unfold cam_pos_f_at.
  destruct (prepare_fields c i s S L H) as (_ & _ & _ & _ & _ & _ & C & D & G & _).
  assert (M : forall x, mulv (cam_dcm_n_at s t) x = mulv (cam0_dcm_n s) x).
  { intros x. unfold cam_dcm_n_at. rewrite mulv_add_mat, mulv_scale_mat, G, mulv_matmul, mulv_scale_mat, C, mulv_skew. unfold not_turning in N. rewrite N.
    generalize (mulv (cam0_dcm_n s) x), (rotation (extrinsic c)). intros y m. mv m. vv y. vec. comps; ring. }
  assert (M' : forall x, mulv (transpose3 (cam_dcm_n_at s t)) x = mulv (transpose3 (cam0_dcm_n s)) x).
  { intros x. unfold cam_dcm_n_at. rewrite transpose_add_mat, transpose_scale_mat, G, transpose_mul, transpose_scale_mat, C, mulv_skew_transpose.
    unfold not_turning in N. rewrite N. generalize (cam0_dcm_n s), (rotation (extrinsic c)). intros y m. mv m. mv y. vv x. vec. comps; ring. }
  rewrite M, M', D, transpose_twice, transpose_right by (apply proper_matmul; apply F).
  generalize (n_pos_cam_at s t). intros a. vv a. vv p. vv v. vec. comps; ring.
Qed.

(** ** The residual *)
Lemma evaluation_some s p v t e : compute_depth_residual_and_jacobian s p v t = Some e ->
  0 < point_depth e /\ cam_pos_f_at s p v t = ray (normalized_coord e) (point_depth e) /\
  residual e = t - (if readout_horizontal_direction s then fst (normalized_coord e) else snd (normalized_coord e)) * readout_time_factor s + t_pose_offset s.
Proof.
  unfold compute_depth_residual_and_jacobian. set (q := cam_pos_f_at s p v t). destruct (rleb (X q) 0) eqn:E; [discriminate|]. apply rleb_false in E.
  intros H. injection H as <-. cbn [point_depth normalized_coord residual]. split; [assumption|]. split; [apply ray_exists; lra|reflexivity].
Qed.
Lemma evaluation_none s p v t : compute_depth_residual_and_jacobian s p v t = None <-> X (cam_pos_f_at s p v t) <= 0.
Proof.
  unfold compute_depth_residual_and_jacobian. destruct (rleb (X (cam_pos_f_at s p v t)) 0) eqn:E; [apply rleb_iff in E; tauto|].
  apply rleb_false in E. split; [discriminate|lra].
Qed.
Lemma evaluation_ray s p v t n d : 0 < d -> cam_pos_f_at s p v t = ray n d -> exists e, compute_depth_residual_and_jacobian s p v t = Some e /\
  normalized_coord e = n /\ point_depth e = d.
Proof.
  intros D E. destruct (compute_depth_residual_and_jacobian s p v t) as [e|] eqn:C.
  - exists e. split; [reflexivity|]. apply evaluation_some in C. destruct C as (P & Q & _). rewrite E in Q. now destruct (ray_unique _ _ _ _ D Q) as [-> ->].
  - apply evaluation_none in C. rewrite E in C. unfold ray, X in C. cbn [fst] in C. lra.
Qed.
(** With a plain lens the residual is the time at hand less the time at which the pixel is read. *)
Lemma plain_span c range : sane c -> plain c -> spans c range ->
  range = if is_horizontal (rolling_shutter_direction c) then width c / f_u c else height c / f_v c.
Proof.
  intros (A & B & W & H) P S. unfold spans in S. destruct (is_horizontal (rolling_shutter_direction c)); destruct S as (a & b & EA & EB & ->).
  - pose proof (plain_direction c (0, 5 / 10 * height c) P A B) as X1. pose proof (plain_direction c (width c, 5 / 10 * height c) P A B) as X2.
    cbn [fst snd] in X1, X2. rewrite X1 in EA. rewrite X2 in EB. injection EA as <-. injection EB as <-. unfold shrunk. cbn [fst snd]. field. lra.
  - pose proof (plain_direction c (5 / 10 * width c, 0) P A B) as X1. pose proof (plain_direction c (5 / 10 * width c, height c) P A B) as X2.
    cbn [fst snd] in X1, X2. rewrite X1 in EA. rewrite X2 in EB. injection EA as <-. injection EB as <-. unfold shrunk. cbn [fst snd]. field. lra.
Qed.
Lemma residual_gap c i s p v t e : sane c -> rolls c -> prepare_rolling c i = Ok s -> compute_depth_residual_and_jacobian s p v t = Some e ->
  let a := if is_horizontal (rolling_shutter_direction c) then fst else snd in
  residual e = t - since_pose c i (pixel_of c (normalized_coord e)) +
    (readout_time_factor_pixel s * (a (pixel_of c (normalized_coord e)) - a (c_u c, c_v c)) - readout_time_factor s * a (normalized_coord e)).
Proof.
  intros S L H C a. apply evaluation_some in C. destruct C as (_ & _ & ->).
  rewrite <- (rolling_time_exact c i s _ S L H). unfold rolling_time.
  destruct (prepare_fields c i s S L H) as (_ & _ & _ & PP & _ & _ & _ & _ & _ & D). rewrite PP, D. subst a.
  destruct (is_horizontal (rolling_shutter_direction c)); cbn [fst snd]; ring.
Qed.
Lemma plain_residual c i s p v t e : sane c -> rolls c -> plain c -> prepare_rolling c i = Ok s -> compute_depth_residual_and_jacobian s p v t = Some e ->
  residual e = t - since_pose c i (pixel_of c (normalized_coord e)).
Proof.
  intros S L P H C. rewrite (residual_gap c i s p v t e S L H C).
  destruct (prepare_fields c i s S L H) as (_ & (range & R1 & R2) & R3 & _). rewrite R2, R3. apply plain_span in R1; auto. rewrite R1.
  rewrite plain_pixel by assumption. destruct S as (A & B & W & HH).
  destruct (is_horizontal (rolling_shutter_direction c)); cbn [fst snd]; field; lra.
Qed.
Lemma plain_prepared c i : sane c -> rolls c -> plain c -> exists s, prepare_rolling c i = Ok s.
Proof.
  intros S L P. unfold prepare_rolling. pose proof (timestamp_ok c i (c_u c, c_v c) S L) as T. cbn [fst snd] in T. rewrite T. cbn [bind].
  destruct S as (A & B & _). destruct (is_horizontal (rolling_shutter_direction c)).
  - pose proof (plain_direction c (0, 5 / 10 * height c) P A B) as X1. pose proof (plain_direction c (width c, 5 / 10 * height c) P A B) as X2.
    cbn [fst snd] in X1, X2. rewrite X1, X2. cbn [bind]. eauto.
  - pose proof (plain_direction c (5 / 10 * width c, 0) P A B) as X1. pose proof (plain_direction c (5 / 10 * width c, height c) P A B) as X2.
    cbn [fst snd] in X1, X2. rewrite X1, X2. cbn [bind]. eauto.
Qed.
