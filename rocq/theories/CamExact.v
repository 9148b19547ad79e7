(** When the rolling shutter is exact. *)
From Coq Require Import Reals Lra Psatz List Bool.
From Verif Require Import Base ResultLib GeomModel GeomBase FrameModel FrameSpec FrameProofs CamModel CamSpec CamLens CamFrames CamRolling CamSolve.
Import ListNotations.
Open Scope R_scope.

Lemma seen_evaluation c i s t p v n d : sane c -> rolls c -> solid_frames c i -> not_turning i -> prepare_rolling c i = Ok s -> 0 < d ->
  (seen_at c i (rate_of_vehicle i) t p v n d <-> exists e, compute_depth_residual_and_jacobian s p v t = Some e /\ normalized_coord e = n /\ point_depth e = d).
Proof.
  intros S L F N H D. unfold seen_at. split.
  - intros E. apply (still_inverse c i s t p v _ S L F N H) in E. now apply evaluation_ray.
  - intros (e & C & <- & <-). apply evaluation_some in C. destruct C as (_ & Q & _). now apply (still_inverse c i s t p v _ S L F N H) in Q.
Qed.
Lemma residual_zero_caught c i s t p v e : sane c -> rolls c -> plain c -> solid_frames c i -> not_turning i -> prepare_rolling c i = Ok s ->
  compute_depth_residual_and_jacobian s p v t = Some e -> residual e = 0 ->
  caught c i (rate_of_vehicle i) p v (pixel_of c (normalized_coord e)) (point_depth e).
Proof.
  intros S L P F N H C Z. exists (normalized_coord e). split; [reflexivity|].
  pose proof (plain_residual c i s p v t e S L P H C) as E. rewrite Z in E.
  replace (since_pose c i (pixel_of c (normalized_coord e))) with t by lra. apply (seen_evaluation c i s t p v _ _ S L F N H).
  - now apply evaluation_some in C.
  - eauto.
Qed.
Lemma caught_residual c i s p v q d : sane c -> rolls c -> plain c -> solid_frames c i -> not_turning i -> prepare_rolling c i = Ok s -> 0 < d ->
  caught c i (rate_of_vehicle i) p v q d ->
  exists e, compute_depth_residual_and_jacobian s p v (since_pose c i q) = Some e /\ residual e = 0 /\ pixel_of c (normalized_coord e) = q /\ point_depth e = d.
Proof.
  intros S L P F N H D (n & E & K). apply (seen_evaluation c i s _ p v n d S L F N H D) in K. destruct K as (e & C & <- & <-).
  exists e. split; [assumption|]. split; [|auto]. rewrite (plain_residual c i s p v _ e S L P H C), E. ring.
Qed.

(** ** No motion along the optical axis *)
Section steady.
  Variables (c : calibration) (i : image) (s : rolling_state) (p v : vec3) (d : R).
  Hypotheses (S : sane c) (L : rolls c) (P : plain c) (F : solid_frames c i) (N : not_turning i) (H : prepare_rolling c i = Ok s) (D : 0 < d).
  Hypothesis steady : forall t, exists n, seen_at c i (rate_of_vehicle i) t p v n d.
  Let y0 := along c (Y (cam_pos_f_at s p v 0), Z_ (cam_pos_f_at s p v 0)).
  Let m := along c (Y (drift s v), Z_ (drift s v)).
  Let slope := 1 + readout_time_factor s / d * m.
  Let g (t : R) := t + (y0 + t * m) / d * readout_time_factor s + t_pose_offset s.
  Lemma steady_evaluation t : exists e, compute_depth_residual_and_jacobian s p v t = Some e /\ point_depth e = d /\ residual e = g t /\ jacobian e = slope.
  Proof.
    destruct (steady t) as (n & K). apply (seen_evaluation c i s t p v n d S L F N H D) in K. destruct K as (e & C & _ & E).
    exists e. split; [assumption|]. split; [assumption|]. pose proof (evaluation_some _ _ _ _ _ C) as (_ & Q & R).
    assert (X0 : forall t, X (cam_pos_f_at s p v t) = d).
    { intros u. destruct (steady u) as (n' & K'). apply (still_inverse c i s u p v _ S L F N H) in K'. rewrite K'. reflexivity. }
    assert (DX : X (drift s v) = 0).
    { pose proof (X0 0) as A. pose proof (X0 1) as B. rewrite (still_affine c i s 1 p v S L N H) in B. rewrite (still_affine c i s 0 p v S L N H) in A.
      revert A B. generalize (cam_pos_f_at s p v 0), (drift s v). intros a b. vv a. vv b. vec. intros; lra. }
    split.
    - destruct (prepare_fields c i s S L H) as (_ & _ & _ & _ & _ & _ & _ & _ & _ & HD). rewrite R, HD.
      replace (if is_horizontal (rolling_shutter_direction c) then fst (normalized_coord e) else snd (normalized_coord e)) with (along c (normalized_coord e))
        by (unfold along; destruct (is_horizontal _); reflexivity).
      rewrite (along_ray c _ (point_depth e)) by (rewrite E; assumption). rewrite <- Q, (still_affine c i s t p v S L N H). unfold g.
      replace (along c (Y (add3 (cam_pos_f_at s p v 0) (scale3 t (drift s v))), Z_ (add3 (cam_pos_f_at s p v 0) (scale3 t (drift s v))))) with (y0 + t * m)
        by (unfold y0, m, along; destruct (is_horizontal _); reflexivity).
      rewrite E. field. lra.
    - rewrite (still_jacobian c i s t p v e S L N H C), DX, E. unfold slope. fold m. field. lra.
  Qed.
  Lemma steady_slope q : caught c i (rate_of_vehicle i) p v q d -> (forall q' d', 0 < d' -> caught c i (rate_of_vehicle i) p v q' d' -> q' = q) -> slope <> 0.
  Proof.
    intros C U Z. destruct (caught_residual c i s p v q d S L P F N H D C) as (e & A & B & E & _).
    assert (G : g (since_pose c i q) = 0) by (destruct (steady_evaluation (since_pose c i q)) as (e' & A' & _ & G & _); rewrite A in A'; injection A' as <-; now rewrite <- G).
    assert (G' : g (since_pose c i q + 1) = 0).
    { rewrite <- G. unfold g. assert (K : 1 + m / d * readout_time_factor s = 0) by (rewrite <- Z; unfold slope; field; lra).
      unfold Rdiv in *. nra. }
    destruct (steady_evaluation (since_pose c i q + 1)) as (e' & A' & DE & R' & _). rewrite G' in R'.
    pose proof (residual_zero_caught c i s _ p v e' S L P F N H A' R') as C'. rewrite DE in C'. pose proof (U _ _ D C') as Q.
    pose proof (plain_residual c i s p v _ e' S L P H A') as R2. rewrite R', Q in R2. lra.
  Qed.
  Lemma steady_solved : slope <> 0 -> exists t last, solve 4 s p v 0 (2 * kThreshold) = Ok (Some (t, last)) /\ g t = 0 /\ Rabs last <= kMaxFinalResidualError.
  Proof.
    intros Z. assert (GA : forall t, g t = g 0 + slope * t) by (intros t; unfold g, slope; field; lra).
    assert (K : rltb kThreshold (Rabs (2 * kThreshold)) = true) by (apply rltb_iff; unfold kThreshold; rewrite Rabs_right; lra).
    cbn [solve]. rewrite K. destruct (steady_evaluation 0) as (e & A & _ & R1 & J1). rewrite A, J1, (proj2 (is_zero_false _) Z), R1.
    set (t1 := 0 + - g 0 / slope). assert (G1 : g t1 = 0) by (rewrite GA; unfold t1; field; assumption).
    destruct (rltb kThreshold (Rabs (g 0))) eqn:B.
    - destruct (steady_evaluation t1) as (e1 & A1 & _ & R2 & J2). rewrite A1, J2, (proj2 (is_zero_false _) Z), R2, G1.
      assert (B0 : rltb kThreshold (Rabs 0) = false) by (apply rltb_false; rewrite Rabs_R0; unfold kThreshold; lra). rewrite B0.
      exists (t1 + - 0 / slope), 0. split; [reflexivity|]. split; [replace (t1 + - 0 / slope) with t1 by (field; assumption); assumption|].
      rewrite Rabs_R0. unfold kMaxFinalResidualError. lra.
    - apply rltb_false in B. exists t1, (g 0). split; [reflexivity|]. split; [assumption|]. unfold kThreshold in B. unfold kMaxFinalResidualError. lra.
  Qed.
  Lemma steady_project b before q : caught c i (rate_of_vehicle i) p v q d -> (forall q' d', 0 < d' -> caught c i (rate_of_vehicle i) p v q' d' -> q' = q) ->
    rolling_project c s b before p v = Ok {| ok := if b then in_image c (fst q) (snd q) else true; pixel := q; depth := d |}.
  Proof.
    intros C U. destruct (steady_solved (steady_slope q C U)) as (t & last & E & G & B). unfold rolling_project. rewrite E. cbn [bind].
    assert (K : rltb kMaxFinalResidualError (Rabs last) = false) by (apply rltb_false; assumption). rewrite K.
    destruct (steady_evaluation t) as (e & A & DE & R1 & _). rewrite A. rewrite G in R1.
    pose proof (residual_zero_caught c i s t p v e S L P F N H A R1) as C'. rewrite DE in C'. pose proof (U _ _ D C') as Q.
    rewrite finish_trusted by (now apply plain_trusted). rewrite Q, DE. reflexivity.
  Qed.
End steady.

(** ** Back to the world *)
Lemma world_seen c i q d p : sane c -> rolls c -> solid_frames c i -> image_to_world c i (fst q) (snd q) d = Ok p ->
  exists n, image_to_direction c (fst q) (snd q) = Ok n /\ seen_at c i (rate_of_vehicle i) (since_pose c i q) p (0, 0, 0) n d.
Proof.
  intros S L F H. unfold image_to_world in H. unfold rolls in L. pose proof L as L'.
  assert (E : bind (prepare_rolling c i) (fun s => rolling_unproject c s (fst q) (snd q) d) = Ok p)
    by (destruct (rolling_shutter_direction c); try contradiction; exact H).
  destruct (prepare_rolling c i) as [s|] eqn:HS; cbn [bind] in E; [|discriminate]. unfold rolling_unproject in E.
  destruct (image_to_direction c (fst q) (snd q)) as [n|] eqn:HN; cbn [bind] in E; [|discriminate]. exists n. split; [reflexivity|].
  rewrite (rolling_time_exact c i s q S L' HS) in E. fold (ray n d) in E. rewrite (moving_camera c i s _ (ray n d) S L' F HS) in E. injection E as <-.
  unfold seen_at. generalize (camera_point c i (rate_of_vehicle i) (since_pose c i q) (ray n d)). intros a. vv a. vec. comps; ring.
Qed.
Lemma plain_world c i q d : sane c -> rolls c -> plain c -> solid_frames c i ->
  exists p, image_to_world c i (fst q) (snd q) d = Ok p /\ caught c i (rate_of_vehicle i) p (0, 0, 0) q d.
Proof.
  intros S L P F. destruct (plain_prepared c i S L P) as (s & HS).
  assert (E : exists p, image_to_world c i (fst q) (snd q) d = Ok p).
  { unfold image_to_world. rewrite HS. unfold rolling_unproject. destruct S as (A & B & _). rewrite plain_direction by assumption. cbn [bind].
    unfold rolls in L. destruct (rolling_shutter_direction c); try contradiction; eauto. }
  destruct E as (p & E). exists p. split; [assumption|]. destruct (world_seen c i q d p S L F E) as (n & A & B). exists n. split; [|assumption].
  destruct S as (FU & FV & _). rewrite plain_direction in A by assumption. injection A as <-. now apply plain_inverse.
Qed.
Lemma refused_direction c i b before p v : rolling_shutter_direction c = Unknown -> world_to_image_moving c i b before p v = Err RuntimeError.
Proof. intros E. unfold world_to_image_moving, prepare_rolling. rewrite E. reflexivity. Qed.
Lemma refused_direction_back c i u v d : rolling_shutter_direction c = Unknown -> image_to_world c i u v d = Err RuntimeError.
Proof. intros E. unfold image_to_world, prepare_rolling. rewrite E. reflexivity. Qed.

Lemma level_rate i w : axis_z (rotation (image_pose i)) = (0, 0, 1) -> w_xyz i = (0, 0, w) -> rate_of_vehicle i = rate_as_documented i.
Proof.
  intros A B. unfold rate_of_vehicle, rate_as_documented. rewrite B. rewrite mulv_axes, A. generalize (axis_x (rotation (image_pose i))), (axis_y (rotation (image_pose i))).
  intros a b. vv a. vv b. vec. comps; ring.
Qed.
