(** The solver of the rolling shutter. *)
From Coq Require Import Reals Lra Psatz List Bool.
From Verif Require Import Base ResultLib GeomModel GeomBase FrameModel FrameSpec FrameProofs CamModel CamSpec CamLens CamFrames CamRolling.
Import ListNotations.
Open Scope R_scope.

Definition along (c : calibration) : R * R -> R := if is_horizontal (rolling_shutter_direction c) then fst else snd.

Lemma moving_unfold c i b before p v s : rolls c -> prepare_rolling c i = Ok s ->
  world_to_image_moving c i b before p v = rolling_project c s b before p v.
Proof. intros L H. unfold rolls in L. unfold world_to_image_moving. rewrite H. destruct (rolling_shutter_direction c); try contradiction; reflexivity. Qed.

(** ** What a projection reports *)
Lemma rolling_reported c i s b before p v r : sane c -> rolls c -> solid_frames c i -> not_turning i -> prepare_rolling c i = Ok s ->
  rolling_project c s b before p v = Ok r ->
  r = behind \/ (ok r = false /\ pixel r = pixel before /\ depth r = depth before) \/
  exists t n d, 0 < d /\ seen_at c i (rate_of_vehicle i) t p v n d /\ depth r = d /\
    (trusted c n -> pixel r = pixel_of c n) /\ (~ trusted c n -> pixel r = snd (direction_to_image c (fst n) (snd n))) /\
    (ok r = true <-> trusted c n /\ (b = true -> inside c (pixel_of c n))) /\
    exists e, compute_depth_residual_and_jacobian s p v t = Some e /\ normalized_coord e = n.
Proof.
  intros S L F N H. unfold rolling_project. destruct (solve 4 s p v 0 (2 * kThreshold)) as [[[t last]|]|]; cbn [bind]; [|intros E; injection E as <-; now left|discriminate].
  destruct (rltb kMaxFinalResidualError (Rabs last)); [intros E; injection E as <-; right; left; auto|].
  destruct (compute_depth_residual_and_jacobian s p v t) as [e|] eqn:C; [|intros E; injection E as <-; now left].
  intros E. injection E as <-. right. right. pose proof (evaluation_some _ _ _ _ _ C) as (D & Q & _).
  exists t, (normalized_coord e), (point_depth e). split; [assumption|]. split; [now apply (still_inverse c i s t p v _ S L F N H) in Q|].
  destruct (trusted_dec c (normalized_coord e)) as [T|T].
  - rewrite finish_trusted by assumption. cbn [depth pixel ok]. split; [reflexivity|]. split; [reflexivity|]. split; [contradiction|]. split; [|eauto].
    destruct b.
    + rewrite in_image_iff. rewrite <- surjective_pairing. tauto.
    + split; [intros _; split; [assumption|discriminate]|reflexivity].
  - rewrite finish_untrusted by assumption. cbn [depth pixel ok]. split; [reflexivity|]. split; [contradiction|]. split; [reflexivity|]. split; [|eauto].
    split; [discriminate|]. intros [A _]. contradiction.
Qed.

(** ** A camera that does not turn: the coordinates are affine in time. *)
Definition drift (s : rolling_state) (v : vec3) : vec3 := mulv (cam0_dcm_n s) (sub3 v (n_vel_cam0 s)).
Lemma still_matrix c i s t x : sane c -> rolls c -> not_turning i -> prepare_rolling c i = Ok s -> mulv (cam_dcm_n_at s t) x = mulv (cam0_dcm_n s) x.
Proof.
  intros S L N H. destruct (prepare_fields c i s S L H) as (_ & _ & _ & _ & _ & _ & C & D & G & _).
  unfold cam_dcm_n_at. rewrite mulv_add_mat, mulv_scale_mat, G, mulv_matmul, mulv_scale_mat, C, mulv_skew. unfold not_turning in N. rewrite N.
  generalize (mulv (cam0_dcm_n s) x), (rotation (extrinsic c)). intros y m. mv m. vv y. vec. comps; ring.
Qed.
Lemma still_affine c i s t p v : sane c -> rolls c -> not_turning i -> prepare_rolling c i = Ok s ->
  cam_pos_f_at s p v t = add3 (cam_pos_f_at s p v 0) (scale3 t (drift s v)).
Proof.
  intros S L N H. unfold cam_pos_f_at, drift. rewrite !(still_matrix c i s _ _ S L N H). unfold n_pos_cam_at.
  generalize (cam0_dcm_n s), (translation (n_tfm_cam0 s)), (n_vel_cam0 s). intros m a b. mv m. vv a. vv b. vv p. vv v. vec. comps; ring.
Qed.
Lemma still_jacobian c i s t p v e : sane c -> rolls c -> not_turning i -> prepare_rolling c i = Ok s ->
  compute_depth_residual_and_jacobian s p v t = Some e ->
  jacobian e = 1 - readout_time_factor s / point_depth e *
    (along c (normalized_coord e) * X (drift s v) - along c (Y (drift s v), Z_ (drift s v))).
Proof.
  intros S L N H. destruct (prepare_fields c i s S L H) as (_ & _ & _ & _ & _ & _ & W & _ & _ & D).
  unfold compute_depth_residual_and_jacobian. set (q := cam_pos_f_at s p v t). destruct (rleb (X q) 0) eqn:E; [discriminate|]. apply rleb_false in E.
  assert (Z : mulv (skew_omega s) q = (0, 0, 0)).
  { rewrite W, mulv_skew. unfold not_turning in N. rewrite N. generalize (rotation (extrinsic c)), q. intros m q'. mv m. vv q'. vec. comps; ring. }
  clearbody q. rewrite (still_matrix c i s _ _ S L N H). fold (drift s v). rewrite Z, D.
  replace (sub3 (drift s v) (0, 0, 0)) with (drift s v) by (generalize (drift s v); intros dd; vv dd; vec; comps; ring).
  intros C. injection C as <-. cbn [jacobian point_depth normalized_coord]. unfold along. destruct (is_horizontal (rolling_shutter_direction c)); reflexivity.
Qed.
Lemma along_ray c n d : 0 < d -> along c n = - along c (Y (ray n d), Z_ (ray n d)) / d.
Proof. intros D. unfold along. destruct (is_horizontal _); unfold ray, Y, Z_; cbn [fst snd]; field; lra. Qed.

(** The slope of the residual, as a derivative. *)
Definition residual_at (s : rolling_state) (p v : vec3) (t : R) : R :=
  match compute_depth_residual_and_jacobian s p v t with Some e => residual e | None => 0 end.
Lemma derivative_local f g x l : (exists a, 0 < a /\ forall y, Rabs (y - x) < a -> f y = g y) -> derivable_pt_lim g x l -> derivable_pt_lim f x l.
Proof.
  intros (a & A & E) H e P. destruct (H e P) as [[d D] K]. exists (mkposreal (Rmin a d) (Rmin_pos _ _ A D)). intros h Z B. cbn [pos] in *.
  pose proof (Rmin_l a d). pose proof (Rmin_r a d). rewrite !E; [apply K; [assumption|lra]| |].
  - replace (x - x) with 0 by ring. now rewrite Rabs_R0.
  - replace (x + h - x) with h by ring. lra.
Qed.
Lemma derivative_value f x l l' : derivable_pt_lim f x l -> l = l' -> derivable_pt_lim f x l'.
Proof. now intros H <-. Qed.
Lemma derivative_ratio b k f o x0 : 0 < b + x0 * k ->
  forall y0 m, derivable_pt_lim (fun t => t - (- (y0 + t * m) / (b + t * k)) * f + o) x0
    (1 + f / (b + x0 * k) * (- (y0 + x0 * m) / (b + x0 * k) * k + m)).
Proof.
  intros P y0 m.
  assert (L : forall u w t, derivable_pt_lim (fun t => u + t * w) t w).
  { intros u w t. apply derivative_value with (0 + (1 * w + t * 0)); [|ring].
    apply (derivable_pt_lim_plus (fun _ => u) (fun t => t * w)); [apply derivable_pt_lim_const|].
    apply (derivable_pt_lim_mult (fun t => t) (fun _ => w)); [apply derivable_pt_lim_id|apply derivable_pt_lim_const]. }
  replace (1 + f / (b + x0 * k) * (- (y0 + x0 * m) / (b + x0 * k) * k + m)) with
    (1 - ((((- m) * (b + x0 * k) - k * (- (y0 + x0 * m))) / Rsqr (b + x0 * k)) * f + (- (y0 + x0 * m) / (b + x0 * k)) * 0) + 0)
    by (unfold Rsqr; field; lra).
  apply (derivable_pt_lim_plus (fun t => t - (- (y0 + t * m) / (b + t * k)) * f) (fun _ => o)); [|apply derivable_pt_lim_const].
  apply (derivable_pt_lim_minus (fun t => t) (fun t => (- (y0 + t * m) / (b + t * k)) * f)); [apply derivable_pt_lim_id|].
  apply (derivable_pt_lim_mult (fun t => - (y0 + t * m) / (b + t * k)) (fun _ => f)); [|apply derivable_pt_lim_const].
  apply (derivable_pt_lim_div (fun t => - (y0 + t * m)) (fun t => b + t * k)); [|apply L|lra].
  apply (derivable_pt_lim_opp (fun t => y0 + t * m)). apply L.
Qed.
Lemma still_slope c i s t p v e : sane c -> rolls c -> not_turning i -> prepare_rolling c i = Ok s ->
  compute_depth_residual_and_jacobian s p v t = Some e ->
  derivable_pt_lim (fun x => X (cam_pos_f_at s p v x)) t (X (drift s v)) /\
  derivable_pt_lim (residual_at s p v) t (jacobian e + 2 * readout_time_factor s * along c (normalized_coord e) * X (drift s v) / point_depth e).
Proof.
  intros S L N H C. pose proof (evaluation_some _ _ _ _ _ C) as (D & Q & _).
  destruct (prepare_fields c i s S L H) as (_ & _ & _ & _ & _ & _ & _ & _ & _ & HD).
  set (q0 := cam_pos_f_at s p v 0). set (dr := drift s v).
  assert (A : forall x, cam_pos_f_at s p v x = add3 q0 (scale3 x dr)) by (intros; now apply (still_affine c i)).
  assert (AX : forall x, X (cam_pos_f_at s p v x) = X q0 + x * X dr) by (intros x; rewrite A; reflexivity).
  assert (AY : forall x, Y (cam_pos_f_at s p v x) = Y q0 + x * Y dr) by (intros x; rewrite A; reflexivity).
  assert (AZ : forall x, Z_ (cam_pos_f_at s p v x) = Z_ q0 + x * Z_ dr) by (intros x; rewrite A; reflexivity).
  assert (P : point_depth e = X q0 + t * X dr) by (rewrite <- AX, Q; reflexivity).
  split.
  - apply derivative_local with (fun x => X q0 + x * X dr); [exists 1; split; [lra|]; intros; apply AX|].
    apply derivative_value with (0 + (1 * X dr + t * 0)); [|ring].
    apply (derivable_pt_lim_plus (fun _ => X q0) (fun t => t * X dr)); [apply derivable_pt_lim_const|].
    apply (derivable_pt_lim_mult (fun t => t) (fun _ => X dr)); [apply derivable_pt_lim_id|apply derivable_pt_lim_const].
  - set (y0 := along c (Y q0, Z_ q0)). set (m := along c (Y dr, Z_ dr)).
    assert (AL : forall x, along c (Y (cam_pos_f_at s p v x), Z_ (cam_pos_f_at s p v x)) = y0 + x * m).
    { intros x. rewrite AY, AZ. unfold y0, m, along. destruct (is_horizontal _); reflexivity. }
    apply derivative_local with (fun x => x - (- (y0 + x * m) / (X q0 + x * X dr)) * readout_time_factor s + t_pose_offset s).
    + exists (point_depth e / (Rabs (X dr) + 1)). pose proof (Rabs_pos (X dr)) as B. split; [apply Rdiv_lt_0_compat; lra|]. intros y K.
      assert (PY : 0 < X q0 + y * X dr).
      { apply (Rmult_lt_compat_r (Rabs (X dr) + 1)) in K; [|lra]. unfold Rdiv in K. rewrite Rmult_assoc, Rinv_l, Rmult_1_r in K by lra.
        replace (X q0 + y * X dr) with (point_depth e + (y - t) * X dr) by (rewrite P; ring).
        pose proof (Rabs_mult (y - t) (X dr)) as M. pose proof (Rabs_pos (y - t)) as M'.
        pose proof (Rle_abs (- ((y - t) * X dr))) as M2. rewrite Rabs_Ropp in M2. nra. }
      unfold residual_at. destruct (compute_depth_residual_and_jacobian s p v y) as [e'|] eqn:C'.
      * apply evaluation_some in C'. destruct C' as (D' & Q' & ->). rewrite HD.
        replace (if is_horizontal (rolling_shutter_direction c) then fst (normalized_coord e') else snd (normalized_coord e')) with (along c (normalized_coord e'))
          by (unfold along; destruct (is_horizontal _); reflexivity).
        rewrite (along_ray c _ _ D'), <- Q', AL. rewrite <- AX. replace (X (cam_pos_f_at s p v y)) with (point_depth e') by (rewrite Q'; reflexivity). reflexivity.
      * apply evaluation_none in C'. rewrite AX in C'. lra.
    + rewrite (still_jacobian c i s t p v e S L N H C). fold dr. fold m. rewrite (along_ray c _ _ D), <- Q, AL.
      assert (D' : 0 < X q0 + t * X dr) by (rewrite <- P; exact D).
      replace (1 - readout_time_factor s / point_depth e * (- (y0 + t * m) / point_depth e * X dr - m) +
        2 * readout_time_factor s * (- (y0 + t * m) / point_depth e) * X dr / point_depth e)
        with (1 + readout_time_factor s / (X q0 + t * X dr) * (- (y0 + t * m) / (X q0 + t * X dr) * X dr + m)) by (rewrite P; field; lra).
      now apply derivative_ratio.
Qed.
