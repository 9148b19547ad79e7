(** The statements about the camera, put together. *)
From Coq Require Import Reals Lra Psatz List Bool.
From Verif Require Import Base ResultLib GeomModel GeomBase FrameModel FrameSpec FrameProofs CamModel CamSpec CamLens CamFrames CamRolling CamSolve CamExact CamWitness.
Import ListNotations.
Open Scope R_scope.

Lemma pixel_of_a_direction : forall c n,
  (trusted c n -> direction_to_image c (fst n) (snd n) = (true, pixel_of c n)) /\
  (~ trusted c n -> sane c -> fst (direction_to_image c (fst n) (snd n)) = false /\
     (exists s, 0 < s /\ snd (direction_to_image c (fst n) (snd n)) = (c_u c + s * fst n, c_v c + s * snd n)) /\
     (inside c (c_u c, c_v c) -> ~ inside c (snd (direction_to_image c (fst n) (snd n))))).
Proof.
  intros c n. split; [apply trusted_pixel|]. intros T S. destruct (untrusted_pixel c n T) as [A [s [(B & _ & E)|[Z _]]]]; [|destruct S as (_ & _ & W & _); lra].
  split; [assumption|]. split; [eauto|]. intros I. now apply untrusted_outside.
Qed.
Lemma rests_on_preimages : forall c q m, sane c ->
  undistortion_step c ((fst q - c_u c) / f_u c) ((snd q - c_v c) / f_v c) (fst m) (snd m) = Ok m <->
  lens_factor c (fst m) (snd m) <> 0 /\ pixel_of c m = q.
Proof. intros c q m (A & B & _). rewrite (pixel_shrunk c q m A B). apply (step_fixed c (shrunk c q) m). Qed.
Lemma undistortion_accuracy : forall c q n, image_to_direction c (fst q) (snd q) = Ok n ->
  let start := ((fst q - c_u c) / f_u c, (snd q - c_v c) / f_v c) in
  let tolerance := / 10 ^ 12 / (f_u c ^ 2 + f_v c ^ 2) in
  (exists m, (fst n - fst m) ^ 2 + (snd n - snd m) ^ 2 < tolerance /\
     (fst (pixel_of c m) - fst q) ^ 2 + (snd (pixel_of c m) - snd q) ^ 2 <= (lens_factor c (fst m) (snd m) * / 10 ^ 6) ^ 2) \/
  (exists ms, length ms = 21%nat /\ nth_error ms 0 = Some start /\ nth_error ms 20 = Some n /\
     forall k a b, nth_error ms k = Some a -> nth_error ms (S k) = Some b ->
       undistortion_step c (fst start) (snd start) (fst a) (snd a) = Ok b /\ tolerance <= (fst b - fst a) ^ 2 + (snd b - snd a) ^ 2).
Proof.
  intros c q n H start tolerance. destruct (early_exit c q n H) as [E|(ms & A & B & C & D)]; [left; exact E|]. right. exists ms.
  assert (T : min_delta2 c = tolerance).
  { unfold min_delta2, tolerance. replace (f_u c * f_u c + f_v c * f_v c) with (f_u c ^ 2 + f_v c ^ 2) by ring. f_equal. f_equal. ring. }
  rewrite T in D. auto.
Qed.
Lemma plain_lens_inverse : forall c, sane c -> plain c ->
  (forall q, exists n, image_to_direction c (fst q) (snd q) = Ok n /\ direction_to_image c (fst n) (snd n) = (true, q)) /\
  (forall n, image_to_direction c (fst (pixel_of c n)) (snd (pixel_of c n)) = Ok n).
Proof.
  intros c (A & B & _) P. split.
  - intros q. exists (shrunk c q). split; [now apply plain_direction|]. rewrite trusted_pixel by now apply plain_trusted. f_equal. now apply plain_inverse.
  - intros n. rewrite plain_direction by assumption. f_equal. now apply plain_inverse'.
Qed.
Lemma finish_outcome c b d n : let r := finish c b d (fst n) (snd n) in
  depth r = d /\ pixel r = snd (direction_to_image c (fst n) (snd n)) /\ (ok r = true <-> trusted c n /\ (b = true -> inside c (pixel_of c n))).
Proof.
  intros r. subst r. destruct (trusted_dec c n) as [T|T].
  - rewrite finish_trusted, trusted_pixel by assumption. cbn [depth pixel ok snd]. split; [reflexivity|]. split; [reflexivity|]. destruct b.
    + rewrite in_image_iff, <- surjective_pairing. tauto.
    + split; [intros _; split; [assumption|discriminate]|reflexivity].
  - rewrite finish_untrusted by assumption. cbn [depth pixel ok]. split; [reflexivity|]. split; [reflexivity|]. split; [discriminate|tauto].
Qed.
Lemma global_unfold c i b before p : rolling_shutter_direction c = GlobalShutter -> world_to_image c i b before p = Ok (global_project c (prepare_global c i) b p).
Proof. intros G. unfold world_to_image, world_to_image_moving. now rewrite G. Qed.
Lemma global_projection : forall c i b before p, rolling_shutter_direction c = GlobalShutter -> solid_frames c i ->
  (forall n d, 0 < d -> sees c i p n d -> exists r, world_to_image c i b before p = Ok r /\ depth r = d /\
     pixel r = snd (direction_to_image c (fst n) (snd n)) /\
     (ok r = true <-> trusted c n /\ (b = true -> inside c (pixel_of c n)))) /\
  ((forall n d, 0 < d -> ~ sees c i p n d) -> world_to_image c i b before p = Ok {| ok := false; pixel := (-1, -1); depth := -1 |}) /\
  ((exists n d, 0 < d /\ sees c i p n d) \/ (forall n d, 0 < d -> ~ sees c i p n d)).
Proof.
  intros c i b before p G F. split; [|split].
  - intros n d D K. rewrite global_unfold by assumption. eexists. split; [reflexivity|]. rewrite (global_front c i b p n d F D K). apply finish_outcome.
  - intros K. rewrite global_unfold, global_behind by assumption. reflexivity.
  - now apply front_or_behind.
Qed.
Lemma global_round_trip : forall c i b before q n d, rolling_shutter_direction c = GlobalShutter -> solid_frames c i -> 0 < d ->
  image_to_direction c (fst q) (snd q) = Ok n -> trusted c n -> pixel_of c n = q ->
  exists p p', image_to_world c i (fst q) (snd q) d = Ok p /\ sees c i p n d /\
    world_to_image c i b before p = Ok {| ok := if b then in_image c (fst q) (snd q) else true; pixel := q; depth := d |} /\
    image_to_vehicle c i (fst q) (snd q) d = Ok p' /\ world (image_pose i) p' = p.
Proof.
  intros c i b before q n d G F D H T E. destruct (unproject_world c i q d n G H) as (p & A & B). exists p, (world (extrinsic c) (ray n d)).
  split; [assumption|]. split; [assumption|]. split; [|split; [now apply unproject_vehicle|symmetry; exact B]].
  rewrite global_unfold, (global_front c i b p n d F D B), finish_trusted, E by assumption. reflexivity.
Qed.
Lemma global_round_trip_back : forall c i b before p r, rolling_shutter_direction c = GlobalShutter -> solid_frames c i ->
  world_to_image c i b before p = Ok r -> ok r = true ->
  exists n, sees c i p n (depth r) /\ pixel_of c n = pixel r /\
    (image_to_direction c (fst (pixel r)) (snd (pixel r)) = Ok n -> image_to_world c i (fst (pixel r)) (snd (pixel r)) (depth r) = Ok p).
Proof.
  intros c i b before p r G F E V. rewrite global_unfold in E by assumption. injection E as E.
  destruct (front_or_behind c i p F) as [(n & d & D & K)|K]; [|rewrite global_behind in E by assumption; rewrite <- E in V; discriminate].
  rewrite (global_front c i b p n d F D K) in E. destruct (finish_outcome c b d n) as (A & B & C). rewrite E in A, B, C.
  destruct (proj1 C V) as [T _]. rewrite trusted_pixel in B by assumption. cbn [snd] in B. exists n. rewrite A. split; [assumption|]. split; [now symmetry|].
  intros H. destruct (unproject_world c i (pixel r) d n G H) as (p' & A' & B'). rewrite A'. f_equal. unfold sees in *. congruence.
Qed.
Lemma undistortion_refuted : exists c n n', sane c /\ trusted c n /\
  image_to_direction c (fst (pixel_of c n)) (snd (pixel_of c n)) = Ok n' /\ fst n + 2 / 10 <= fst n'.
Proof.
  destruct wavy_direction as (w & E & B). exists wavy, (1, 0), (w, 0). rewrite wavy_pixel. cbn [fst snd].
  split; [unfold sane, wavy; cbn [f_u f_v width height]; lra|]. split; [apply wavy_trusted|]. split; [assumption|lra].
Qed.

Lemma pixel_times : forall c i q, sane c -> rolls c ->
  pixel_timestamp (rolling_shutter_direction c) (shutter_time i) (camera_trigger_time i) (camera_readout_done_time i) (width c) (height c) (fst q) (snd q)
    = Ok (read_time c i q) /\
  (inside c q -> first_time i <= last_time i -> first_time i <= read_time c i q <= last_time i).
Proof. intros c i q S L. split; [now apply timestamp_ok|]. intros. now apply read_time_range. Qed.
Lemma unknown_direction_ends : forall c i, rolling_shutter_direction c = Unknown ->
  (forall b before p v, world_to_image_moving c i b before p v = Err RuntimeError) /\
  (forall u v d, image_to_world c i u v d = Err RuntimeError).
Proof. intros c i U. split; intros; [now apply refused_direction|now apply refused_direction_back]. Qed.
Lemma equation : forall c i s p v t e, sane c -> rolls c -> prepare_rolling c i = Ok s ->
  compute_depth_residual_and_jacobian s p v t = Some e ->
  let a := if is_horizontal (rolling_shutter_direction c) then fst else snd in
  residual e = t - since_pose c i (pixel_of c (normalized_coord e)) +
    (readout_time_factor_pixel s * (a (pixel_of c (normalized_coord e)) - a (c_u c, c_v c)) - readout_time_factor s * a (normalized_coord e)) /\
  (plain c -> residual e = t - since_pose c i (pixel_of c (normalized_coord e))).
Proof. intros c i s p v t e S L H C. split; [now apply (residual_gap c i s p v t e)|]. intros P. now apply (plain_residual c i s p v t e). Qed.
Lemma angular_velocity_refuted : exists c i q p, sane c /\ rolls c /\ plain c /\ solid_frames c i /\
  image_to_world c i (fst q) (snd q) 10 = Ok p /\ forall d, ~ caught c i (rate_as_documented i) p (0, 0, 0) q d.
Proof.
  destruct turning_documented as (p & A & B). exists sharp, (turning flip3), (500, 500), p. cbn [fst snd].
  split; [apply sharp_sane|]. split; [apply sharp_rolls|]. split; [apply sharp_plain|]. split; [split; [apply flip_proper|apply unit_proper]|]. auto.
Qed.

Lemma reported_pixel : forall c i s b before p v r, sane c -> rolls c -> solid_frames c i -> not_turning i -> prepare_rolling c i = Ok s ->
  world_to_image_moving c i b before p v = Ok r ->
  r = {| ok := false; pixel := (-1, -1); depth := -1 |} \/ (ok r = false /\ pixel r = pixel before /\ depth r = depth before) \/
  exists t n d, 0 < d /\ seen_at c i (rate_of_vehicle i) t p v n d /\ depth r = d /\
    pixel r = snd (direction_to_image c (fst n) (snd n)) /\
    (ok r = true <-> trusted c n /\ (b = true -> inside c (pixel_of c n))) /\
    (plain c -> residual_at s p v t = 0 -> caught c i (rate_of_vehicle i) p v (pixel r) d).
Proof.
  intros c i s b before p v r S L F N H E. rewrite (moving_unfold c i b before p v s L H) in E.
  destruct (rolling_reported c i s b before p v r S L F N H E) as [A|[A|(t & n & d & D & K & DE & P1 & P2 & V & e & C & NE)]]; [now left|now right; left|].
  right. right. exists t, n, d. split; [assumption|]. split; [assumption|]. split; [assumption|]. split; [|split; [assumption|]].
  - destruct (trusted_dec c n) as [T|T]; [rewrite trusted_pixel by assumption|]; auto.
  - intros P R. unfold residual_at in R. rewrite C in R. pose proof (residual_zero_caught c i s t p v e S L P F N H C R) as Q. rewrite NE in Q.
    rewrite P1 by now apply plain_trusted.
    assert (point_depth e = d) as <-; [|exact Q]. apply (seen_evaluation c i s t p v n d S L F N H D) in K. destruct K as (e' & C' & _ & E'). rewrite C in C'. now injection C' as <-.
Qed.
Lemma steady_depth_exact : forall c i p v d q b before, sane c -> rolls c -> plain c -> solid_frames c i -> not_turning i -> 0 < d ->
  (forall t, exists n, seen_at c i (rate_of_vehicle i) t p v n d) ->
  caught c i (rate_of_vehicle i) p v q d -> (forall q' d', 0 < d' -> caught c i (rate_of_vehicle i) p v q' d' -> q' = q) ->
  world_to_image_moving c i b before p v = Ok {| ok := if b then in_image c (fst q) (snd q) else true; pixel := q; depth := d |}.
Proof.
  intros c i p v d q b before S L P F N D K C U. destruct (plain_prepared c i S L P) as (s & H). rewrite (moving_unfold c i b before p v s L H).
  now apply (steady_project c i s p v d S L P F N H D K).
Qed.
Lemma slope_of_the_solver : forall c i s t p v e, sane c -> rolls c -> not_turning i -> prepare_rolling c i = Ok s ->
  compute_depth_residual_and_jacobian s p v t = Some e ->
  exists depth_rate slope, derivable_pt_lim (fun x => X (cam_pos_f_at s p v x)) t depth_rate /\ derivable_pt_lim (residual_at s p v) t slope /\
    let a := if is_horizontal (rolling_shutter_direction c) then fst else snd in
    jacobian e = slope - 2 * readout_time_factor s * a (normalized_coord e) * depth_rate / point_depth e /\
    (jacobian e = slope <-> readout_time_factor s * a (normalized_coord e) * depth_rate = 0).
Proof.
  intros c i s t p v e S L N H C. destruct (still_slope c i s t p v e S L N H C) as [A B]. pose proof (evaluation_some _ _ _ _ _ C) as (D & _).
  eexists. eexists. split; [exact A|]. split; [exact B|]. cbn zeta. change (if is_horizontal (rolling_shutter_direction c) then fst else snd) with (along c).
  set (x := readout_time_factor s * along c (normalized_coord e) * X (drift s v)).
  replace (2 * readout_time_factor s * along c (normalized_coord e) * X (drift s v) / point_depth e) with (2 * x / point_depth e) by (unfold x; field; lra).
  split; [ring|]. split; intros Z.
  - assert (Q : 2 * x / point_depth e = 0) by lra. apply (Rmult_eq_reg_r (/ point_depth e)); [unfold Rdiv in Q; lra|]. apply Rinv_neq_0_compat. lra.
  - rewrite Z. unfold Rdiv. ring.
Qed.
Lemma valid_pixel_refuted : exists c i p q q' d d', sane c /\ rolls c /\ plain c /\ solid_frames c i /\ not_turning i /\
  (forall b before, world_to_image c i b before p = Ok {| ok := true; pixel := q; depth := d |}) /\
  (forall x, 0 < x -> ~ caught c i (rate_of_vehicle i) p (0, 0, 0) q x) /\
  0 < d' /\ caught c i (rate_of_vehicle i) p (0, 0, 0) q' d' /\ inside c q' /\ 100 < fst q' - fst q.
Proof.
  exists sharp, (driving 1), beside, (500 - 1000 * (10 / 21), 500), (500 - 1000 * (10 / 21) / root37, 500), 1, root37.
  destruct root37_eq as [_ [A B]].
  assert (I : / (13 / 10) < / root37 < / (129 / 100)) by (split; apply Rinv_lt_contravar; nra).
  split; [apply sharp_sane|]. split; [apply sharp_rolls|]. split; [apply sharp_plain|]. split; [apply driving_solid|]. split; [reflexivity|].
  split; [intros; apply driving_reported|]. split; [apply driving_not_there|]. split; [lra|]. split; [apply driving_caught; lra|].
  unfold inside, sharp. cbn [width height fst snd]. unfold Rdiv in *. split; lra.
Qed.
Lemma outputs_assigned_refuted : exists c i p q d, sane c /\ rolls c /\ plain c /\ solid_frames c i /\ not_turning i /\ 0 < d /\
  caught c i (rate_of_vehicle i) p (0, 0, 0) q d /\ inside c q /\
  (forall b before, world_to_image c i b before p = Ok {| ok := false; pixel := pixel before; depth := depth before |}) /\
  world_to_image_op c i [p] = Ok [(0, 0, 0, 0)].
Proof.
  exists sharp, (driving 30), beside, (500 - 1000 * (10 / 21) / root37, 500), root37. destruct root37_eq as [_ [A B]].
  assert (I : / (13 / 10) < / root37 < / (129 / 100)) by (split; apply Rinv_lt_contravar; nra).
  split; [apply sharp_sane|]. split; [apply sharp_rolls|]. split; [apply sharp_plain|]. split; [apply driving_solid|]. split; [reflexivity|].
  split; [lra|]. split; [apply driving_caught; lra|]. split; [unfold inside, sharp; cbn [width height fst snd]; unfold Rdiv in *; lra|].
  split; [intros; apply driving_diverged|]. unfold world_to_image_op. cbn [mapM]. rewrite driving_diverged. reflexivity.
Qed.
Lemma turning_round_trip_refuted : exists c i q d, sane c /\ rolls c /\ plain c /\ solid_frames c i /\ inside c q /\ 0 < d /\
  exists p, image_to_world c i (fst q) (snd q) d = Ok p /\
    forall before, exists r, world_to_image c i false before p = Ok r /\ ok r = true /\ snd (pixel r) < snd q - 3 /\ depth r <> d.
Proof.
  exists sharp, (turning unit3), (500, 900), 10.
  split; [apply sharp_sane|]. split; [apply sharp_rolls|]. split; [apply sharp_plain|]. split; [split; apply unit_proper|].
  split; [unfold inside, sharp; cbn [width height fst snd]; lra|]. split; [lra|].
  destruct (turning_round_trip {| ok := false; pixel := (0, 0); depth := 0 |}) as (p & A & _). exists p. split; [exact A|]. intros before.
  destruct (turning_round_trip before) as (p' & A' & B'). cbn [fst snd] in *. rewrite A in A'. injection A' as <-. eexists. split; [exact B'|].
  cbn [ok pixel depth snd]. split; [reflexivity|]. split; lra.
Qed.
Lemma camera_example :
  sane sharp /\ rolls sharp /\ plain sharp /\ solid_frames sharp (driving 1) /\ not_turning (driving 1) /\ inside sharp (c_u sharp, c_v sharp) /\
  trusted wavy (1, 0) /\ ~ trusted wavy (2, 0).
Proof.
  split; [apply sharp_sane|]. split; [apply sharp_rolls|]. split; [apply sharp_plain|]. split; [apply driving_solid|]. split; [reflexivity|].
  split; [unfold inside, sharp; cbn; lra|]. split; [apply wavy_trusted|]. unfold trusted, lens_factor, wavy. cbn [k1 k2 k5 fst snd]. lra.
Qed.
Lemma steady_example : exists q,
  (forall t, exists n, seen_at sharp (driving 1) (rate_of_vehicle (driving 1)) t (10, 1, 1) (30, 0, 0) n 10) /\
  caught sharp (driving 1) (rate_of_vehicle (driving 1)) (10, 1, 1) (30, 0, 0) q 10 /\
  (forall q' d', 0 < d' -> caught sharp (driving 1) (rate_of_vehicle (driving 1)) (10, 1, 1) (30, 0, 0) q' d' -> q' = q) /\ inside sharp q.
Proof.
  assert (Q : forall t n d, seen_at sharp (driving 1) (rate_of_vehicle (driving 1)) t (10, 1, 1) (30, 0, 0) n d <-> ray n d = (10, 1, 1)).
  { intros t n d. unfold seen_at, camera_point, vehicle_point, driving, rate_of_vehicle, sharp, unit_pose, unit3.
    cbn [image_pose extrinsic rotation translation v_xyz w_xyz]. generalize (ray n d). intros r. vv r. vec. split; intros E; injection E as E1 E2 E3; comps; lra. }
  assert (R : ray (- (1 / 10), - (1 / 10)) 10 = (10, 1, 1)) by (unfold ray; cbn [fst snd]; comps; lra).
  exists (400, 400). split; [|split; [|split]].
  - intros t. exists (- (1 / 10), - (1 / 10)). now apply Q.
  - exists (- (1 / 10), - (1 / 10)). split; [rewrite sharp_pixel; f_equal; lra|]. now apply Q.
  - intros q' d' D (n & E & K). apply Q in K. rewrite <- R in K. destruct (ray_unique _ _ _ _ D K) as [-> _]. rewrite <- E, sharp_pixel. f_equal; lra.
  - unfold inside, sharp. cbn [width height fst snd]. lra.
Qed.
Lemma global_example : exists c, rolling_shutter_direction c = GlobalShutter /\ solid_frames c (driving 1) /\
  world_to_image c (driving 1) true {| ok := false; pixel := (0, 0); depth := 0 |} (10, 1, 1) = Ok {| ok := true; pixel := (400, 400); depth := 10 |}.
Proof.
  set (c := {| f_u := 1000; f_v := 1000; c_u := 500; c_v := 500; k1 := 0; k2 := 0; k3 := 0; k4 := 0; k5 := 0; extrinsic := unit_pose;
     width := 1000; height := 1000; rolling_shutter_direction := GlobalShutter |}).
  assert (F : solid_frames c (driving 1)) by (split; apply unit_proper). assert (P : plain c) by (repeat split; reflexivity).
  exists c. split; [reflexivity|]. split; [assumption|]. rewrite global_unfold by reflexivity.
  assert (K : sees c (driving 1) (10, 1, 1) (- (1 / 10), - (1 / 10)) 10).
  { unfold sees, driving, c, ray, unit_pose, unit3. cbn [image_pose extrinsic]. vec. comps; lra. }
  rewrite (global_front c (driving 1) true _ _ 10 F ltac:(lra) K). rewrite finish_trusted by now apply plain_trusted.
  assert (E : pixel_of c (- (1 / 10), - (1 / 10)) = (400, 400)) by (rewrite plain_pixel by assumption; unfold c; cbn [f_u f_v c_u c_v fst snd]; f_equal; lra).
  rewrite E. cbn [fst snd]. rewrite (proj2 (in_image_iff c 400 400)); [reflexivity|]. unfold inside, c. cbn [width height fst snd]. lra.
Qed.
(** The op reports the validity of the lens only; the size of the image plays no part. *)
Theorem global_op : forall c i points, rolling_shutter_direction c = GlobalShutter -> solid_frames c i ->
  exists rows, world_to_image_op c i points = Ok rows /\ length rows = length points /\
    forall k p u v d flag, nth_error points k = Some p -> nth_error rows k = Some (u, v, d, flag) ->
      (forall n e, 0 < e -> sees c i p n e -> (u, v) = snd (direction_to_image c (fst n) (snd n)) /\ d = e /\
         (trusted c n -> flag = 1) /\ (~ trusted c n -> flag = 0)) /\
      ((forall n e, 0 < e -> ~ sees c i p n e) -> (u, v) = (-1, -1) /\ d = -1 /\ flag = 0).
Proof.
  intros c i points G S. induction points as [|p points (rows & E & L & H)].
  - exists []. split; [reflexivity|]. split; [reflexivity|]. intros [|k]; discriminate.
  - destruct (global_projection c i false {| ok := false; pixel := (0, 0); depth := 0 |} p G S) as (A & N & D).
    assert (R0 : exists r, world_to_image c i false {| ok := false; pixel := (0, 0); depth := 0 |} p = Ok r).
    { destruct D as [(n & d & Hd & Hs)|D]; [destruct (A n d Hd Hs) as (r & Er & _); exists r; exact Er|]. eexists. exact (N D). }
    destruct R0 as [r Er]. unfold world_to_image_op in *. cbn [mapM]. rewrite Er. cbn [bind]. rewrite E. cbn [bind]. eexists. split; [reflexivity|].
    split; [cbn [length]; rewrite L; reflexivity|]. intros [|k] q u v d flag Eq Ew; cbn [nth_error] in Eq, Ew.
    + injection Eq as <-. injection Ew as <- <- <- <-. split.
      * intros n e He Hs. destruct (A n e He Hs) as (r' & Er' & Dr & Pr & Or). rewrite Er in Er'. injection Er' as <-. rewrite <- Pr. split; [destruct (pixel r); reflexivity|]. split; [exact Dr|].
        destruct (ok r); split; intros T; try reflexivity; exfalso.
        -- apply T, Or. reflexivity.
        -- assert (false = true) by (apply Or; split; [exact T|discriminate]). discriminate.
      * intros Hn. rewrite (N Hn) in Er. injection Er as <-. split; [reflexivity|]. split; reflexivity.
    + exact (H k q u v d flag Eq Ew).
Qed.
