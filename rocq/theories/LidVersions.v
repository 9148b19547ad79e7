(** The tools of the second version of the data and of the motion data agree with those of the frames. *)
From Coq Require Import Reals Lra List Arith ZArith Lia Bool Permutation.
From Verif Require Import Base ResultLib GeomModel GeomBase FrameModel FrameSpec FrameProofs LidModel LidSpec LidImages LidBeams LidParse LidFrames.
Import ListNotations.
Open Scope R_scope.

Lemma component_inclinations c h : rev match values (calibration_component c) with Some l => l | None => compute_inclination (v2_min (calibration_component c)) (v2_max (calibration_component c)) h end = row_inclinations c h.
Proof. unfold calibration_component, row_inclinations. cbn [values v2_min v2_max]. destruct (beam_inclinations c); reflexivity. Qed.
Theorem v2_same f top poses c ri keep img : posed top poses ->
  v2_cartesian ri (calibration_component c) (needs c top) (needs c (vehicle_pose f)) keep = Ok img <-> lidar_cartesian f poses c ri keep = Ok img.
Proof.
  intros (tp & T1 & T2). unfold v2_cartesian, lidar_cartesian, needs.
  change (match beam_inclinations c, dims ri with [], [] => Err IndexError | [], h :: _ => Ok h | _, _ => Ok 0%nat end) with (height_of c ri).
  destruct (tensor ri) as [t|e] eqn:T.
  2:{ split; [destruct (Z.eqb (calib_name c) TOP); discriminate|]. destruct (height_of c ri); discriminate. }
  apply tensor_ok in T as T'. destruct T' as (h & w & d & W & L & _). destruct (height_exists c ri _ _ _ W) as [n Hn]. rewrite Hn. cbn [bind]. rewrite (height_inclinations _ _ _ _ _ _ W Hn), L.
  rewrite component_inclinations. destruct (Z.eqb (calib_name c) TOP); cbn [bind].
  - rewrite T1. cbn [bind]. rewrite T2. cbn [bind]. reflexivity.
  - reflexivity.
Qed.
Theorem v2_defined f top c ri keep : (calib_name c = TOP -> pose_image top) ->
  ((exists img, v2_cartesian ri (calibration_component c) (needs c top) (needs c (vehicle_pose f)) keep = Ok img) <-> fits f top c ri) /\
  forall img, v2_cartesian ri (calibration_component c) (needs c top) (needs c (vehicle_pose f)) keep = Ok img -> cartesian_image f top c ri keep img.
Proof.
  intros P. destruct (Z.eq_dec (calib_name c) TOP) as [N|N].
  - destruct (proj2 (posed_exists top) (P N)) as [poses PP]. split.
    + split; [intros [img E] | intros F].
      * apply (v2_same f top poses) in E; [|exact PP]. now destruct (lidar_cartesian_spec _ _ _ _ _ _ _ PP E).
      * destruct (lidar_cartesian_exists f top poses c ri keep PP F) as [img E]. exists img. now apply (v2_same f top poses).
    + intros img E. apply (v2_same f top poses) in E; [|exact PP]. destruct (lidar_cartesian_spec _ _ _ _ _ _ _ PP E) as (_ & A & B). now split.
  - set (none := {| data := []; dims := [0%nat; 0%nat; 6%nat] |} : matrix R). assert (PN : posed none []) by (exists []; split; reflexivity).
    assert (EQ : forall img, v2_cartesian ri (calibration_component c) (needs c top) (needs c (vehicle_pose f)) keep = Ok img <-> lidar_cartesian f [] c ri keep = Ok img).
    { intros img. rewrite <- (v2_same f none [] c ri keep img PN). unfold needs. apply Z.eqb_neq in N. rewrite N. reflexivity. }
    assert (FE : fits f top c ri <-> fits f none c ri).
    { unfold fits. split; intros (h & w & d & W & A & B & _); exists h, w, d; (split; [exact W|]); (split; [exact A|]); (split; [exact B|]); contradiction. }
    split.
    + rewrite FE. split; [intros [img E] | intros F].
      * apply EQ in E. now destruct (lidar_cartesian_spec _ _ _ _ _ _ _ PN E).
      * destruct (lidar_cartesian_exists f none [] c ri keep PN F) as [img E]. exists img. now apply EQ.
    + intros img E. apply EQ in E. destruct (lidar_cartesian_spec _ _ _ _ _ _ _ PN E) as (_ & A & B). split; [exact A|]. intros r col out O. specialize (B r col out O).
      destruct B as (h & w & d & v & x & i & psi & p & B1 & B2 & B3 & B4 & B5 & B6 & B7). exists h, w, d, v, x, i, psi, p. apply Z.eqb_neq in N. rewrite N in *. tauto.
Qed.
Theorem v2_no_frame_pose ri c pp keep : v2_cartesian ri c (Some pp) None keep = Err AssertionError /\ v2_point_cloud ri c (Some pp) None keep = Err AssertionError.
Proof. split; reflexivity. Qed.
Theorem v2_frame_pose_alone ri c fp keep : v2_cartesian ri c None (Some fp) keep = v2_cartesian ri c None None keep.
Proof. reflexivity. Qed.

(** Point by point the clouds of a frame are those of its lidars. *)
Theorem v2_clouds f images projections top k keep points cps : distinct_calibrations f ->
  convert_range_image_to_point_cloud f images projections top k keep = Ok (points, cps) ->
  forall j c, nth_error (sort (laser_calibrations f)) j = Some c -> exists ri cp pts ps,
    fetch images (calib_name c) k = Ok ri /\ fetch projections (calib_name c) k = Ok cp /\ nth_error points j = Some pts /\ nth_error cps j = Some ps /\
    v2_point_cloud ri (calibration_component c) (needs c top) (needs c (vehicle_pose f)) keep = Ok pts /\ v2_camera_projection ri cp = Ok ps.
Proof.
  intros ND E j c J. unfold convert_range_image_to_point_cloud in E.
  destruct (convert_range_image_to_cartesian f images top k keep) as [cart|] eqn:C; [|discriminate]. cbn [bind] in E.
  change (fun c => do ri <- fetch images (calib_name c) k; do t <- tensor ri; do ranges <- channel0 t;
      do image <- match get cart (calib_name c) with Some i => Ok i | None => Err KeyError end;
      do points <- gather image (where_positive ranges); do cp <- fetch projections (calib_name c) k; do cp_tensor <- tensor cp;
      do cp_points <- gather cp_tensor (where_positive ranges); Ok (points, cp_points)) with (cloud_of cart images projections k) in E.
  destruct (mapM (cloud_of cart images projections k) (sort (laser_calibrations f))) as [outs|] eqn:M; [|discriminate]. cbn [bind] in E.
  apply Ok_inj in E. apply pair_equal_spec in E. destruct E as [<- <-]. destruct (mapM_nth _ _ _ M j c J) as ([pts ps] & O1 & O2). rewrite !nth_error_map, O2. cbn [option_map fst snd].
  unfold convert_range_image_to_cartesian in C. destruct (tensor top) as [tt|] eqn:T; [|discriminate]. cbn [bind] in C. destruct (pixel_transforms tt) as [poses|] eqn:P; [|discriminate]. cbn [bind] in C.
  assert (PP : posed top poses) by (exists tt; auto). destruct (cartesian_fold f poses images k keep (laser_calibrations f) []) as [_ V]. destruct (V cart C) as [_ V2].
  assert (I : In c (laser_calibrations f)) by (apply (Permutation_in _ (sort_perm _)); now apply nth_error_In in J). destruct (V2 ND c I) as (ri & img & F & G & H).
  unfold cloud_of in O1. rewrite F in O1. cbn [bind] in O1. destruct (tensor ri) as [t|] eqn:TR; [|discriminate]. cbn [bind] in O1. destruct (channel0 t) as [ranges|] eqn:CH; [|discriminate]. cbn [bind] in O1.
  rewrite H in O1. cbn [bind] in O1. destruct (gather img (where_positive ranges)) as [g|] eqn:GA; [|discriminate]. cbn [bind] in O1.
  destruct (fetch projections (calib_name c) k) as [cp|] eqn:FP; [|discriminate]. cbn [bind] in O1. destruct (tensor cp) as [ct|] eqn:CT; [|discriminate]. cbn [bind] in O1.
  destruct (gather ct (where_positive ranges)) as [gc|] eqn:GC; [|discriminate]. cbn [bind] in O1. apply Ok_inj in O1. apply pair_equal_spec in O1. destruct O1 as [<- <-].
  exists ri, cp, g, gc. split; [exact F|]. split; [reflexivity|]. split; [reflexivity|]. split; [reflexivity|].
  apply (v2_same f top poses) in G; [|exact PP]. split.
  - unfold v2_point_cloud. rewrite G. cbn [bind]. rewrite TR. cbn [bind]. rewrite CH. cbn [bind]. exact GA.
  - unfold v2_camera_projection. rewrite TR. cbn [bind]. rewrite CH. cbn [bind]. rewrite CT. cbn [bind]. exact GC.
Qed.
Theorem v2_laser ls n : NoDup (map laser_name ls) ->
  (forall l, get_laser_by_name ls n = Ok l <-> In l ls /\ laser_name l = n) /\
  (get_laser_by_name ls n = Err ValueError <-> ~ In n (map laser_name ls)).
Proof.
  induction ls as [|x ls IH]; intros ND; cbn [get_laser_by_name map].
  - split; [intros l; split; [discriminate | intros [[] _]] | split; [intros _ [] | reflexivity]].
  - inversion ND as [|? ? Nx ND' E]; subst. destruct (IH ND') as [A B]. destruct (Z.eqb_spec (laser_name x) n) as [<-|N].
    + split.
      * intros l. split; [intros E; apply Ok_inj in E; subst; split; [now left | reflexivity]|]. intros [[->|I] M]; [reflexivity|]. elim Nx. rewrite <- M. now apply in_map.
      * split; [discriminate|]. intros F. elim F. now left.
    + split.
      * intros l. rewrite A. split; [intros [I M]; split; [now right | exact M]|]. intros [[->|I] M]; [contradiction | auto].
      * rewrite B. split; [intros F [G|G]; auto|]. intros F G. apply F. now right.
Qed.

(** ** Motion data *)
Lemma gather_joined (t : image (list R)) (cart : image vec3) img idx xyz ft pts :
  with_features true t cart = Ok img -> gather cart idx = Ok xyz -> gather (map (map (firstn 3)) t) idx = Ok ft -> gather img idx = Ok pts -> joined ft xyz pts.
Proof.
  intros W A B C. apply with_features_spec in W. destruct W as (_ & _ & W). apply gather_ok in A, B, C. revert ft pts B C. induction A as [|rc p idx xyz Hp A IH]; intros ft pts B C.
  - inversion B; inversion C; subst. split; [reflexivity|]. split; [reflexivity|]. intros [|] ? ? ?; discriminate.
  - inversion B as [|? f ? ft' Hf B' E1 E2]; inversion C as [|? q ? pts' Hq C' E3 E4]; subst. destruct (IH ft' pts' B' C') as (L1 & L2 & N). split; [cbn; congruence|]. split; [cbn; congruence|].
    intros [|i] u v Hu Hv; cbn in Hu, Hv |- *; [|now apply N]. injection Hu as <-. injection Hv as <-. rewrite pixel_map in Hf. rewrite W in Hq. rewrite Hp in Hq.
    destruct (pixel_at t (fst rc) (snd rc)) as [v|]; [|discriminate]. cbn in Hf, Hq. injection Hf as <-. injection Hq as <-. reflexivity.
Qed.
Lemma gather_shape {A B} (a : list (list A)) (b : list (list B)) idx x : same_shape a b -> gather a idx = Ok x -> exists y, gather b idx = Ok y.
Proof.
  intros S G. apply gather_exists. intros r c I N. apply gather_ok in G. apply (shape_none _ _ _ _ (same_shape_sym _ _ S)) in N. revert I. induction G as [|rc v l l' H _ IH]; intros I; [destruct I|].
  destruct I as [->|I]; [cbn in H; congruence | auto].
Qed.
Lemma gather_where (t : image (list R)) ranges : channel0 t = Ok ranges -> exists y, gather ranges (where_positive ranges) = Ok y.
Proof. intros C. apply gather_exists. intros r c I N. apply where_in in I. destruct I as (x & Hx & _). congruence. Qed.
(** One return. *)
Lemma womd_points_spec ri t c incl pp fp : tensor ri = Ok t -> (forall h w d, well_formed ri h w d -> incl = row_inclinations c h) ->
  ((exists xyz ft, womd_points t c incl pp fp = Ok (xyz, ft)) <-> exists pts,
     (do ranges <- channel0 t; do cart <- extract_point_cloud ranges (calib_extrinsic c) incl pp fp; do img <- with_features true t cart; gather img (where_positive ranges)) = Ok pts) /\
  forall xyz ft pts, womd_points t c incl pp fp = Ok (xyz, ft) ->
    (do ranges <- channel0 t; do cart <- extract_point_cloud ranges (calib_extrinsic c) incl pp fp; do img <- with_features true t cart; gather img (where_positive ranges)) = Ok pts -> joined ft xyz pts.
Proof.
  intros T _. unfold womd_points. destruct (channel0 t) as [ranges|] eqn:C; cbn [bind]; [|split; [split; [intros (? & ? & ?) | intros (? & ?)]; discriminate | discriminate]].
  destruct (extract_point_cloud ranges (calib_extrinsic c) incl pp fp) as [cart|] eqn:EX; cbn [bind]; [|split; [split; [intros (? & ? & ?) | intros (? & ?)]; discriminate | discriminate]].
  apply channel0_spec in C as C'. destruct C' as [C1 _]. destruct (gather_where t ranges C) as [gr GR].
  destruct (gather_shape _ (map (map (firstn 3)) t) _ _ (same_shape_trans _ _ _ (same_shape_sym _ _ C1) (same_shape_map _ _)) GR) as [ft' GF].
  assert (SH : same_shape ranges cart).
  { apply tensor_ok in T. destruct T as (h & w & d & _ & _ & R0 & _). pose proof (rectangle_shape _ _ _ C1 R0) as R'. pose proof (mounted_exists (calib_extrinsic c)) as M.
    destruct pp as [poses|]; [destruct fp as [fp|]|].
    - destruct (extract_posed ranges _ incl poses fp w _ R' M) as [D _]. now destruct (D _ EX).
    - unfold extract_point_cloud in EX. destruct (compute_range_image_polar _ _ _); [|discriminate]. cbn [bind compute_range_image_cartesian] in EX. destruct (zip_image _ _ _); discriminate.
    - destruct (extract_plain ranges _ incl fp w _ R' M) as [D _]. destruct (D _ EX) as (_ & S & _). exact S. }
  destruct (gather_shape _ cart _ _ SH GR) as [xyz' GX]. destruct (zip_image_exists (fun c p => if true then firstn 3 c ++ coordinates p else coordinates p) t cart (same_shape_trans _ _ _ C1 SH)) as [img WF].
  change (with_features true t cart = Ok img) in WF. rewrite GX. cbn [bind]. rewrite GF. cbn [bind]. rewrite WF. cbn [bind].
  apply with_features_spec in WF as WF'. destruct WF' as (_ & S2 & _). destruct (gather_shape _ img _ _ (same_shape_trans _ _ _ (same_shape_sym _ _ C1) S2) GR) as [pts' GP]. rewrite GP. split.
  - split; eauto.
  - intros xyz ft pts E F. apply Ok_inj in E, F. apply pair_equal_spec in E. destruct E as [<- <-]. subst pts. exact (gather_joined t cart img _ _ _ _ WF GX GF GP).
Qed.
(** The cloud of the second version of the data, unfolded. *)
Lemma v2_cloud_unfold ri t c pp fp poses incl : tensor ri = Ok t -> (forall h w d, well_formed ri h w d -> incl = row_inclinations c h) ->
  match pp, fp with Some m, Some _ => posed m poses | Some _, None => False | None, _ => True end ->
  forall pts, v2_point_cloud ri (calibration_component c) pp fp true = Ok pts <->
    (do ranges <- channel0 t; do cart <- extract_point_cloud ranges (calib_extrinsic c) incl (match pp with Some _ => Some poses | None => None end) (match pp with Some _ => fp | None => None end);
     do img <- with_features true t cart; gather img (where_positive ranges)) = Ok pts.
Proof.
  intros T I P pts. apply tensor_ok in T as T'. destruct T' as (h & w & d & W & L & _). specialize (I h w d W). subst incl. rewrite <- L, <- component_inclinations. clear W.
  unfold v2_point_cloud, v2_cartesian. destruct pp as [m|]; [destruct fp as [fp|]; [|contradiction]|].
  - destruct P as (tp & P1 & P2). cbn [bind]. rewrite T. cbn [bind]. rewrite P1. cbn [bind]. rewrite P2. cbn [bind]. destruct (channel0 t) as [ranges|]; cbn [bind]; [|reflexivity].
    cbn [v2_extrinsic calibration_component]. destruct (extract_point_cloud _ _ _ _ _) as [cart|]; cbn [bind]; [|reflexivity]. destruct (with_features true t cart); reflexivity.
  - replace (match fp with Some _ => Ok (@None (image pose)) | None => Ok None end) with (Ok (@None (image pose))) by (destruct fp; reflexivity).
    cbn [bind]. rewrite T. cbn [bind]. destruct (channel0 t) as [ranges|]; cbn [bind]; [|reflexivity].
    cbn [v2_extrinsic calibration_component]. destruct (extract_point_cloud _ _ _ _ _) as [cart|]; cbn [bind]; [|reflexivity]. destruct (with_features true t cart); reflexivity.
Qed.
Lemma tensor_height {A} (ri : matrix A) t h w d : tensor ri = Ok t -> well_formed ri h w d -> length t = h.
Proof. intros T W. apply tensor_ok in T. destruct T as (h' & w' & d' & W' & L & _). destruct (well_formed_unique _ _ _ _ _ _ _ W W') as (-> & _). exact L. Qed.
Theorem womd_side m1 m2 ri1 ri2 c : tensor m1 = Ok (womd_image ri1) -> tensor m2 = Ok (womd_image ri2) ->
  ((exists o, extract_side_lidar_points ri1 ri2 c = Ok o) <->
   (exists p1, v2_point_cloud m1 (calibration_component c) None None true = Ok p1) /\ exists p2, v2_point_cloud m2 (calibration_component c) None None true = Ok p2) /\
  forall x1 f1 x2 f2 p1 p2, extract_side_lidar_points ri1 ri2 c = Ok (x1, f1, x2, f2) ->
    v2_point_cloud m1 (calibration_component c) None None true = Ok p1 -> v2_point_cloud m2 (calibration_component c) None None true = Ok p2 -> joined f1 x1 p1 /\ joined f2 x2 p2.
Proof.
  intros T1 T2. unfold extract_side_lidar_points.
  assert (I1 : forall h w d, well_formed m1 h w d -> row_inclinations c (length (womd_image ri1)) = row_inclinations c h) by (intros h w d W; now rewrite (tensor_height _ _ _ _ _ T1 W)).
  assert (I2 : forall h w d, well_formed m2 h w d -> row_inclinations c (length (womd_image ri2)) = row_inclinations c h) by (intros h w d W; now rewrite (tensor_height _ _ _ _ _ T2 W)).
  pose proof (v2_cloud_unfold m1 _ c None None [] _ T1 I1 I) as U1. pose proof (v2_cloud_unfold m2 _ c None None [] _ T2 I2 I) as U2.
  destruct (womd_points_spec m1 _ c _ None None T1 I1) as [D1 V1]. destruct (womd_points_spec m2 _ c _ None None T2 I2) as [D2 V2].
  destruct (womd_points (womd_image ri1) c _ None None) as [[a b]|] eqn:E1; cbn [bind].
  - destruct (womd_points (womd_image ri2) c _ None None) as [[a' b']|] eqn:E2; cbn [bind].
    + split.
      * split; [|eauto]. intros _. destruct (proj1 D1) as [p1 P1]; [eauto|]. destruct (proj1 D2) as [p2 P2]; [eauto|]. split; [exists p1; now apply U1 | exists p2; now apply U2].
      * intros x1 f1 x2 f2 p1 p2 E P1 P2. injection E as <- <- <- <-. apply U1 in P1. apply U2 in P2. split; [exact (V1 _ _ _ eq_refl P1) | exact (V2 _ _ _ eq_refl P2)].
    + split; [|discriminate]. split; [intros [? ?]; discriminate|]. intros [_ [p2 P2]]. apply U2 in P2. destruct (proj2 D2) as (? & ? & ?); [eauto | discriminate].
  - split; [|discriminate]. split; [intros [? ?]; discriminate|]. intros [[p1 P1] _]. apply U1 in P1. destruct (proj2 D1) as (? & ? & ?); [eauto | discriminate].
Qed.
Theorem womd_top m1 m2 top ri1 ri2 fp c : tensor m1 = Ok (womd_image ri1) -> tensor m2 = Ok (womd_image ri2) -> tensor top = Ok (womd_pose ri1) -> beam_inclinations c <> [] ->
  ((exists o, extract_top_lidar_points ri1 ri2 fp c = Ok o) <->
   (exists p1, v2_point_cloud m1 (calibration_component c) (Some top) (Some fp) true = Ok p1) /\ exists p2, v2_point_cloud m2 (calibration_component c) (Some top) (Some fp) true = Ok p2) /\
  forall x1 f1 x2 f2 p1 p2, extract_top_lidar_points ri1 ri2 fp c = Ok (x1, f1, x2, f2) ->
    v2_point_cloud m1 (calibration_component c) (Some top) (Some fp) true = Ok p1 -> v2_point_cloud m2 (calibration_component c) (Some top) (Some fp) true = Ok p2 -> joined f1 x1 p1 /\ joined f2 x2 p2.
Proof.
  intros T1 T2 TT NE. unfold extract_top_lidar_points. destruct (pixel_transforms (womd_pose ri1)) as [poses|] eqn:P; cbn [bind].
  2:{ split; [|discriminate]. split; [intros [? ?]; discriminate|]. intros [[p1 P1] _]. unfold v2_point_cloud, v2_cartesian in P1. cbn [bind] in P1. rewrite T1 in P1. cbn [bind] in P1. rewrite TT in P1. cbn [bind] in P1.
      rewrite P in P1. discriminate. }
  assert (PP : posed top poses) by (exists (womd_pose ri1); auto).
  assert (RI : match beam_inclinations c with [] => Err RuntimeError | l => Ok (rev l) end = Ok (rev (beam_inclinations c))) by (destruct (beam_inclinations c); [now elim NE | reflexivity]).
  rewrite RI. cbn [bind].
  assert (I0 : forall h, rev (beam_inclinations c) = row_inclinations c h) by (intros h; unfold row_inclinations; destruct (beam_inclinations c); [now elim NE | reflexivity]).
  pose proof (v2_cloud_unfold m1 _ c (Some top) (Some fp) poses _ T1 (fun h _ _ _ => I0 h) PP) as U1. pose proof (v2_cloud_unfold m2 _ c (Some top) (Some fp) poses _ T2 (fun h _ _ _ => I0 h) PP) as U2.
  cbv beta iota in U1, U2.
  destruct (womd_points_spec m1 _ c _ (Some poses) (Some fp) T1 (fun h _ _ _ => I0 h)) as [D1 V1]. destruct (womd_points_spec m2 _ c _ (Some poses) (Some fp) T2 (fun h _ _ _ => I0 h)) as [D2 V2].
  destruct (womd_points (womd_image ri1) c _ (Some poses) (Some fp)) as [[a b]|] eqn:E1; cbn [bind].
  - destruct (womd_points (womd_image ri2) c _ (Some poses) (Some fp)) as [[a' b']|] eqn:E2; cbn [bind].
    + split.
      * split; [|eauto]. intros _. destruct (proj1 D1) as [p1 P1]; [eauto|]. destruct (proj1 D2) as [p2 P2]; [eauto|]. split; [exists p1; now apply U1 | exists p2; now apply U2].
      * intros x1 f1 x2 f2 p1 p2 E P1 P2. injection E as <- <- <- <-. apply U1 in P1. apply U2 in P2. split; [exact (V1 _ _ _ eq_refl P1) | exact (V2 _ _ _ eq_refl P2)].
    + split; [|discriminate]. split; [intros [? ?]; discriminate|]. intros [_ [p2 P2]]. apply U2 in P2. destruct (proj2 D2) as (? & ? & ?); [eauto | discriminate].
  - split; [|discriminate]. split; [intros [? ?]; discriminate|]. intros [[p1 P1] _]. apply U1 in P1. destruct (proj2 D1) as (? & ? & ?); [eauto | discriminate].
Qed.
Theorem womd_top_unlisted ri1 ri2 fp c : beam_inclinations c = [] -> exists e, extract_top_lidar_points ri1 ri2 fp c = Err e.
Proof. intros E. unfold extract_top_lidar_points. destruct (pixel_transforms (womd_pose ri1)); cbn [bind]; [rewrite E; cbn [bind]|]; eauto. Qed.

(** ** Scenarios *)
Theorem augment_content {M L T} (s d : scenario M L T) :
  motion (augment_with_lidar s d) = motion s /\ frame_camera_tokens (augment_with_lidar s d) = frame_camera_tokens s /\
  compressed_frame_laser_data (augment_with_lidar s d) = compressed_frame_laser_data s ++ compressed_frame_laser_data d.
Proof. repeat split. Qed.
Theorem tokens_content {M L T} (s d : scenario M L T) :
  motion (add_camera_tokens s d) = motion s /\ compressed_frame_laser_data (add_camera_tokens s d) = compressed_frame_laser_data s /\
  frame_camera_tokens (add_camera_tokens s d) = frame_camera_tokens s ++ frame_camera_tokens d.
Proof. repeat split. Qed.
Theorem augment_commutes {M L T} (s d e : scenario M L T) : add_camera_tokens (augment_with_lidar s d) e = augment_with_lidar (add_camera_tokens s e) d.
Proof. reflexivity. Qed.
Theorem augment_twice {M L T} (s d : scenario M L T) :
  augment_with_lidar (augment_with_lidar s d) d = augment_with_lidar s d <-> compressed_frame_laser_data d = [].
Proof.
  unfold augment_with_lidar. cbn [motion compressed_frame_laser_data frame_camera_tokens]. split.
  - intros E. injection E as E. rewrite <- app_assoc in E. apply app_inv_head in E. apply (f_equal (@length L)) in E. rewrite app_length in E. destruct (compressed_frame_laser_data d); [reflexivity | cbn in E; lia].
  - intros ->. now rewrite !app_nil_r.
Qed.

(** ** Codebook *)
Lemma fold_min_ge l : forall t b, (b <= fold_left Z.min l t)%Z <-> (b <= t)%Z /\ Forall (fun x => (b <= x)%Z) l.
Proof.
  induction l as [|x l IH]; intros t b; cbn [fold_left]; [split; [auto | tauto]|]. rewrite IH. split.
  - intros [A B]. split; [lia|]. constructor; [lia | exact B].
  - intros [A B]. inversion B; subst. split; [lia | assumption].
Qed.
Lemma fold_max_le l : forall t b, (fold_left Z.max l t <= b)%Z <-> (t <= b)%Z /\ Forall (fun x => (x <= b)%Z) l.
Proof.
  induction l as [|x l IH]; intros t b; cbn [fold_left]; [split; [auto | tauto]|]. rewrite IH. split.
  - intros [A B]. split; [lia|]. constructor; [lia | exact B].
  - intros [A B]. inversion B; subst. split; [lia | assumption].
Qed.
Theorem codebook_spec {E} (codebook : list E) tokens :
  ((exists out, get_camera_embedding codebook tokens = Ok out) <-> tokens <> [] /\ Forall (in_codebook codebook) tokens) /\
  (~ (tokens <> [] /\ Forall (in_codebook codebook) tokens) -> get_camera_embedding codebook tokens = Err ValueError) /\
  forall out, get_camera_embedding codebook tokens = Ok out -> Forall2 (fun t v => nth_error codebook (Z.to_nat t) = Some v) tokens out.
Proof.
  destruct tokens as [|t l].
  { cbn [get_camera_embedding]. split; [split; [intros [? ?]; discriminate | intros [N _]; now elim N]|]. split; [reflexivity | discriminate]. }
  cbn [get_camera_embedding]. set (test := (fold_left Z.min l t <? 0)%Z || (Z.of_nat (length codebook) - 1 <? fold_left Z.max l t)%Z).
  assert (TE : test = false <-> Forall (in_codebook codebook) (t :: l)).
  { unfold test. rewrite orb_false_iff, !Z.ltb_ge, fold_min_ge, fold_max_le. split.
    - intros [[A B] [C D]]. unfold in_codebook. constructor; [lia|]. rewrite Forall_forall in *. intros x I. specialize (B x I). specialize (D x I). cbn in B, D. lia.
    - intros F. inversion F as [|? ? A B]; subst. unfold in_codebook in *. split; (split; [lia|]); rewrite Forall_forall in *; intros x I; specialize (B x I); cbn in B; lia. }
  destruct test.
  - split; [split; [intros [? ?]; discriminate | intros [_ F]; apply TE in F; discriminate]|]. split; [reflexivity | discriminate].
  - pose proof (proj1 TE eq_refl) as F. split; [|split].
    + split; [intros _; split; [discriminate | exact F]|]. intros _. apply mapM_exists. intros x I. rewrite Forall_forall in F. specialize (F x I). unfold in_codebook in F.
      destruct (nth_error codebook (Z.to_nat x)) eqn:G; [eauto|]. apply nth_error_None in G. lia.
    + intros N. elim N. split; [discriminate | exact F].
    + intros out M. apply mapM_inv in M. eapply Forall2_impl; [|exact M]. intros x v H. cbv beta in H. destruct (nth_error codebook (Z.to_nat x)); [|discriminate]. apply Ok_inj in H. congruence.
Qed.
