(** Rotations, the global shutter, and the moving camera. *)
From Coq Require Import Reals Lra Psatz List Bool.
From Verif Require Import Base ResultLib GeomModel GeomBase FrameModel FrameSpec FrameProofs CamModel CamSpec CamLens.
Import ListNotations.
Open Scope R_scope.

Ltac vec := unfold apply, world, compose, mulv, matmul, row_mul, transpose3, add_mat, scale_mat, skew, turned, outer, dot3, add3, sub3, scale3, neg3,
  axis_x, axis_y, axis_z, col0, col1, col2, X, Y, Z_;
  cbn [rotation translation r0 r1 r2 fst snd].
Ltac vec_in H := unfold apply, world, compose, mulv, matmul, row_mul, transpose3, add_mat, scale_mat, skew, turned, outer, dot3, add3, sub3, scale3, neg3,
  axis_x, axis_y, axis_z, col0, col1, col2, X, Y, Z_ in H;
  cbn [rotation translation r0 r1 r2 fst snd] in H.
Ltac comps := apply pair_equal_spec; split; [apply pair_equal_spec; split|].
Ltac mv m := destruct m as [[[? ?] ?] [[? ?] ?] [[? ?] ?]].
Ltac vv v := destruct v as [[? ?] ?].
Lemma transpose_left m v : proper m -> mulv (transpose3 m) (mulv m v) = v.
Proof. intros H. change (transpose3 m) with (transpose m). rewrite <- proper_inverse by assumption. apply inverse3_left. rewrite proper_det by assumption. lra. Qed.
Lemma transpose_right m v : proper m -> mulv m (mulv (transpose3 m) v) = v.
Proof. intros H. change (transpose3 m) with (transpose m). rewrite <- proper_inverse by assumption. apply inverse3_right. rewrite proper_det by assumption. lra. Qed.
Lemma transpose_mul a b v : mulv (transpose3 (matmul a b)) v = mulv (transpose3 b) (mulv (transpose3 a) v).
Proof. mv a. mv b. vv v. vec. comps; ring. Qed.
Lemma transpose_twice a : transpose3 (transpose3 a) = a.
Proof. mv a. reflexivity. Qed.
Lemma mulv_scale m s v : mulv m (scale3 s v) = scale3 s (mulv m v).
Proof. mv m. vv v. vec. comps; ring. Qed.
Lemma mulv_sub m u v : mulv m (sub3 u v) = sub3 (mulv m u) (mulv m v).
Proof. mv m. vv u. vv v. vec. comps; ring. Qed.
Lemma mulv_add_mat a b v : mulv (add_mat a b) v = add3 (mulv a v) (mulv b v).
Proof. mv a. mv b. vv v. vec. comps; ring. Qed.
Lemma mulv_scale_mat s a v : mulv (scale_mat s a) v = scale3 s (mulv a v).
Proof. mv a. vv v. vec. comps; ring. Qed.
Lemma transpose_add_mat a b v : mulv (transpose3 (add_mat a b)) v = add3 (mulv (transpose3 a) v) (mulv (transpose3 b) v).
Proof. mv a. mv b. vv v. vec. comps; ring. Qed.
Lemma transpose_scale_mat s a v : mulv (transpose3 (scale_mat s a)) v = scale3 s (mulv (transpose3 a) v).
Proof. mv a. vv v. vec. comps; ring. Qed.
Lemma mulv_skew w v : mulv (skew w) v = outer w v.
Proof. vv w. vv v. vec. comps; ring. Qed.
Lemma mulv_skew_transpose w v : mulv (transpose3 (skew w)) v = neg3 (outer w v).
Proof. vv w. vv v. vec. comps; ring. Qed.
Lemma mulv_axes m v : mulv m v = add3 (add3 (scale3 (X v) (axis_x m)) (scale3 (Y v) (axis_y m))) (scale3 (Z_ v) (axis_z m)).
Proof. mv m. vv v. vec. comps; ring. Qed.
Lemma outer_bilinear (a b x y z : vec3) :
  outer (add3 (add3 (scale3 (X a) x) (scale3 (Y a) y)) (scale3 (Z_ a) z)) (add3 (add3 (scale3 (X b) x) (scale3 (Y b) y)) (scale3 (Z_ b) z)) =
  add3 (add3 (scale3 (X (outer a b)) (outer y z)) (scale3 (Y (outer a b)) (outer z x))) (scale3 (Z_ (outer a b)) (outer x y)).
Proof. vv a. vv b. vv x. vv y. vv z. vec. comps; ring. Qed.
Lemma proper_outer m a b : proper m -> outer (mulv m a) (mulv m b) = mulv m (outer a b).
Proof.
  intros H. rewrite !mulv_axes, outer_bilinear, outer_yz, outer_zx by assumption. destruct H as (_ & _ & _ & <-). reflexivity.
Qed.
Lemma proper_matmul a b : proper a -> proper b -> proper (matmul a b).
Proof.
  intros HA HB. assert (E : forall v, mulv (matmul a b) v = mulv a (mulv b v)) by (intros; apply mulv_matmul).
  assert (AX : axis_x (matmul a b) = mulv a (axis_x b)) by (mv a; mv b; vec; comps; ring).
  assert (AY : axis_y (matmul a b) = mulv a (axis_y b)) by (mv a; mv b; vec; comps; ring).
  assert (AZ : axis_z (matmul a b) = mulv a (axis_z b)) by (mv a; mv b; vec; comps; ring).
  assert (I : forall u v, inner (mulv a u) (mulv a v) = inner u v).
  { intros u v. destruct (proper_z a HA) as (Z1 & Z2 & Z3). destruct HA as (A1 & A2 & A3 & _).
    transitivity (X u * X v * inner (axis_x a) (axis_x a) + Y u * Y v * inner (axis_y a) (axis_y a) + Z_ u * Z_ v * inner (axis_z a) (axis_z a) +
      (X u * Y v + Y u * X v) * inner (axis_x a) (axis_y a) + (X u * Z_ v + Z_ u * X v) * inner (axis_x a) (axis_z a) +
      (Y u * Z_ v + Z_ u * Y v) * inner (axis_y a) (axis_z a)).
    - clear. mv a. vv u. vv v. unfold inner. vec. ring.
    - rewrite A1, A2, A3, Z1, Z2, Z3. clear. vv u. vv v. unfold inner. vec. ring. }
  unfold proper. rewrite AX, AY, AZ, !I, proper_outer by assumption. destruct HB as (B1 & B2 & B3 & B4). repeat split; auto. now rewrite B4.
Qed.

(** ** The global shutter *)
Lemma isometry_left t p : proper (rotation t) -> apply (isometry_inverse t) (apply t p) = p.
Proof.
  intros H. unfold apply, isometry_inverse. cbn [rotation translation]. rewrite mulv_add, transpose_left by assumption. apply add_neg.
Qed.
Lemma isometry_right t p : proper (rotation t) -> apply t (apply (isometry_inverse t) p) = p.
Proof.
  intros H. unfold apply, isometry_inverse. cbn [rotation translation]. rewrite mulv_add, mulv_neg, !transpose_right by assumption. apply add_neg'.
Qed.
Lemma camera_coordinates c i p q : solid_frames c i ->
  (apply (g_cam_tfm_n (prepare_global c i)) p = q <-> p = world (image_pose i) (world (extrinsic c) q)).
Proof.
  intros [H1 H2]. unfold prepare_global. cbn [g_cam_tfm_n]. rewrite !world_apply, <- apply_compose.
  assert (P : proper (rotation (compose (image_pose i) (extrinsic c)))) by (apply proper_matmul; assumption).
  split; [intros <-|intros ->]; [now rewrite isometry_right|now apply isometry_left].
Qed.
Lemma ray_unique n d n' d' : 0 < d -> ray n d = ray n' d' -> n = n' /\ d = d'.
Proof.
  destruct n as [u v], n' as [u' v']. unfold ray. cbn [fst snd]. intros D E. injection E as -> E1 E2. split; [|reflexivity].
  f_equal; apply (Rmult_eq_reg_r d'); lra.
Qed.
Lemma ray_exists p : X p <> 0 -> p = ray (- Y p / X p, - Z_ p / X p) (X p).
Proof. vv p. unfold ray. vec. intros D. comps; [reflexivity|field; assumption|field; assumption]. Qed.

Lemma finish_trusted c b d n : trusted c n ->
  finish c b d (fst n) (snd n) = {| ok := if b then in_image c (fst (pixel_of c n)) (snd (pixel_of c n)) else true; pixel := pixel_of c n; depth := d |}.
Proof. intros H. unfold finish. rewrite trusted_pixel by assumption. cbn [andb]. reflexivity. Qed.
Lemma finish_untrusted c b d n : ~ trusted c n ->
  finish c b d (fst n) (snd n) = {| ok := false; pixel := snd (direction_to_image c (fst n) (snd n)); depth := d |}.
Proof.
  intros H. destruct (untrusted_pixel c n H) as [E _]. unfold finish. destruct (direction_to_image c (fst n) (snd n)) as [t q]. cbn [fst snd] in *.
  now rewrite E.
Qed.
Lemma trusted_dec c n : {trusted c n} + {~ trusted c n}.
Proof.
  unfold trusted. destruct (Rle_dec (8 / 10) (lens_factor c (fst n) (snd n))) as [A|A], (Rle_dec (lens_factor c (fst n) (snd n)) (12 / 10)) as [B|B];
    [left; split; assumption|right; tauto..].
Qed.
Lemma global_front c i b p n d : solid_frames c i -> 0 < d -> sees c i p n d ->
  global_project c (prepare_global c i) b p = finish c b d (fst n) (snd n).
Proof.
  intros F D H. unfold sees in H. apply (camera_coordinates c i p _ F) in H. unfold global_project. rewrite H. unfold camera_to_image, ray.
  unfold X, Y, Z_. cbn [fst snd]. destruct (rleb d 0) eqn:E; [apply rleb_iff in E; lra|].
  f_equal; field; lra.
Qed.
Lemma global_behind c i b p : solid_frames c i -> (forall n d, 0 < d -> ~ sees c i p n d) -> global_project c (prepare_global c i) b p = behind.
Proof.
  intros F H. unfold global_project, camera_to_image. set (q := apply (g_cam_tfm_n (prepare_global c i)) p).
  destruct (rleb (X q) 0) eqn:E; [reflexivity|]. apply rleb_false in E. exfalso.
  apply (H (- Y q / X q, - Z_ q / X q) (X q) E). unfold sees. apply (camera_coordinates c i p _ F). fold q. apply ray_exists. lra.
Qed.
Lemma front_or_behind c i p : solid_frames c i -> (exists n d, 0 < d /\ sees c i p n d) \/ (forall n d, 0 < d -> ~ sees c i p n d).
Proof.
  intros F. set (q := apply (g_cam_tfm_n (prepare_global c i)) p). destruct (Rle_lt_dec (X q) 0) as [L|L].
  - right. intros n d D H. apply (camera_coordinates c i p _ F) in H. fold q in H. rewrite H in L. unfold ray, X in L. cbn [fst] in L. lra.
  - left. exists (- Y q / X q, - Z_ q / X q), (X q). split; [assumption|]. unfold sees. apply (camera_coordinates c i p _ F). fold q. apply ray_exists. lra.
Qed.
Lemma sees_unique c i p n d n' d' : solid_frames c i -> 0 < d -> sees c i p n d -> sees c i p n' d' -> n = n' /\ d = d'.
Proof.
  intros F D H1 H2. apply (camera_coordinates c i p _ F) in H1. apply (camera_coordinates c i p _ F) in H2. rewrite H1 in H2. now apply ray_unique.
Qed.

Lemma unproject_world c i q d n : rolling_shutter_direction c = GlobalShutter -> image_to_direction c (fst q) (snd q) = Ok n ->
  exists p, image_to_world c i (fst q) (snd q) d = Ok p /\ sees c i p n d.
Proof.
  intros G H. unfold image_to_world. rewrite G. unfold unproject. rewrite H. cbn [bind]. eexists. split; [reflexivity|]. unfold sees, prepare_global.
  cbn [g_n_tfm_cam0]. now rewrite !world_apply, apply_compose.
Qed.
Lemma unproject_vehicle c i q d n : image_to_direction c (fst q) (snd q) = Ok n ->
  image_to_vehicle c i (fst q) (snd q) d = Ok (world (extrinsic c) (ray n d)).
Proof. intros H. unfold image_to_vehicle, unproject. rewrite H. cbn [bind]. unfold prepare_global. cbn [g_vehicle_tfm_cam]. now rewrite world_apply. Qed.
