(** Proofs about the extraction of keypoints, lidar data and calibrations. *)
From Coq Require Import FinFun.
From Verif Require Import Base ResultLib ExtractModel ExtractSpec ExtractProofs SensorModel SensorSpec.
Open Scope list_scope.
Open Scope Z_scope.

(** ** Keypoints *)
Definition camera_cat (h : camera_hkp) (rows : list row2) : camera_hkp :=
  {| ch_type := ch_type h ++ map r2_type rows; ch_x := ch_x h ++ map r2_x rows; ch_y := ch_y h ++ map r2_y rows;
     ch_occluded := ch_occluded h ++ map r2_occluded rows |}.
Lemma camera_append_ok h k h' : camera_append h k = Ok h' <-> exists r, camera_point k r /\ h' = camera_cat h [r].
Proof.
  unfold camera_append, camera_required, camera_point, camera_cat. split.
  - destruct k as [[t|] [[[v|] [o|]]|] k3]; cbn; try discriminate. intros [= <-].
    exists {| r2_type := t; r2_x := num_of (v2_x v); r2_y := num_of (v2_y v); r2_occluded := flag_of o |}. cbn. split; [|reflexivity].
    split; [reflexivity|]. exists v, o. repeat split.
  - intros ([t x y b] & (T & v & o & L & V & X & Y & B) & ->). cbn in *. destruct k as [kt [[lv vo]|] k3]; cbn in *; [|discriminate].
    injection L as ->. injection V as ->. subst. cbn. reflexivity.
Qed.
Lemma camera_append_err h k e : camera_append h k = Err e <-> e = RuntimeError /\ ~ complete_camera_point k.
Proof.
  unfold camera_append, camera_required, complete_camera_point. split.
  - destruct k as [[t|] [[[v|] [o|]]|] k3]; cbn; try discriminate; intros [= <-]; (split; [reflexivity|]);
      intros (A & p & P & B & C); cbn in *; try congruence; injection P as <-; cbn in *; congruence.
  - intros [-> N]. destruct k as [[t|] [[[v|] [o|]]|] k3]; cbn in *; try reflexivity.
    exfalso. apply N. split; [discriminate|]. eexists. split; [reflexivity|]. split; discriminate.
Qed.
Lemma camera_cat_cat h a b : camera_cat (camera_cat h a) b = camera_cat h (a ++ b).
Proof. unfold camera_cat; cbn. now rewrite !map_app, !app_assoc. Qed.
Lemma camera_fold_ok ks : forall h h', foldM camera_append ks h = Ok h' <-> exists rows, Forall2 camera_point ks rows /\ h' = camera_cat h rows.
Proof.
  induction ks as [|k ks IH]; intros h h'; cbn [foldM].
  - split.
    + intros [= <-]. exists []. split; [constructor|]. destruct h; unfold camera_cat; cbn; now rewrite !app_nil_r.
    + intros (rows & F & ->). inversion F. destruct h; unfold camera_cat; cbn; now rewrite !app_nil_r.
  - split.
    + destruct (camera_append h k) as [h1|] eqn:E; cbn [bind]; [|discriminate]. apply camera_append_ok in E as (r & P & ->).
      intros F. apply IH in F as (rows & F & ->). exists (r :: rows). split; [now constructor|]. now rewrite camera_cat_cat.
    + intros (rows & F & ->). inversion F as [|? r ? rows' P F']; subst.
      assert (E : camera_append h k = Ok (camera_cat h [r])) by (apply camera_append_ok; eauto). rewrite E. cbn [bind]. apply IH.
      exists rows'. split; [exact F'|]. now rewrite camera_cat_cat.
Qed.
Lemma camera_fold_err ks : forall h e, foldM camera_append ks h = Err e <-> e = RuntimeError /\ exists k, In k ks /\ ~ complete_camera_point k.
Proof.
  induction ks as [|k ks IH]; intros h e; cbn [foldM].
  - split; [discriminate|]. intros (_ & k & [] & _).
  - destruct (camera_append h k) as [h1|e1] eqn:E; cbn [bind].
    + rewrite IH. split.
      * intros (-> & x & I & N). split; [reflexivity|]. exists x. split; [now right|exact N].
      * intros (-> & x & [<-|I] & N); [|eauto]. exfalso.
        assert (X : camera_append h k = Err RuntimeError) by now apply camera_append_err. congruence.
    + apply camera_append_err in E as [-> N]. split; [intros [= <-]; split; [reflexivity|]; exists k; split; [now left|exact N]|].
      intros [-> _]. reflexivity.
Qed.
Lemma camera_table_cat ks h :
  (exists rows, Forall2 camera_point ks rows /\ h = camera_cat {| ch_type := []; ch_x := []; ch_y := []; ch_occluded := [] |} rows) <-> camera_table ks h.
Proof.
  unfold camera_table, camera_cat. cbn [ch_type ch_x ch_y ch_occluded app]. split.
  - intros (rows & F & ->). exists rows. cbn. auto.
  - intros (rows & F & A & B & C & D). exists rows. split; [exact F|]. destruct h; cbn in *. subst. reflexivity.
Qed.
Theorem camera_keypoints_ok segment time camera l r :
  extract_camera_keypoints segment time camera l = Ok r <->
  ((forall ks, kl_keypoints l <> Some (CameraKeypoints ks)) /\ r = []) \/
  (exists ks h, kl_keypoints l = Some (CameraKeypoints ks) /\ camera_table ks h /\
     r = [({| ck_segment := segment; ck_time := time; ck_camera := camera; ck_object := or_default [] (kl_id l) |}, h)]).
Proof.
  unfold extract_camera_keypoints, camera_hkp_from_label. change (or_default [] (kl_id l)) with (text_of (kl_id l)).
  destruct (kl_keypoints l) as [[ks|ks]|]; cbn [bind].
  - split; [intros [= <-]; left; split; [discriminate|reflexivity]|]. intros [[_ ->]|(ks' & h & E & _)]; [reflexivity|discriminate].
  - split.
    + destruct (foldM camera_append ks _) as [h|] eqn:E; cbn [bind]; [|discriminate]. intros [= <-]. right. exists ks, h.
      split; [reflexivity|]. split; [|reflexivity]. apply camera_table_cat, camera_fold_ok, E.
    + intros [[N _]|(ks' & h & E & T & ->)]; [exfalso; now apply (N ks)|]. injection E as <-.
      apply camera_table_cat, camera_fold_ok in T. rewrite T. reflexivity.
  - split; [intros [= <-]; left; split; [discriminate|reflexivity]|]. intros [[_ ->]|(ks' & h & E & _)]; [reflexivity|discriminate].
Qed.
Theorem camera_keypoints_err segment time camera l e :
  extract_camera_keypoints segment time camera l = Err e <->
  e = RuntimeError /\ exists ks k, kl_keypoints l = Some (CameraKeypoints ks) /\ In k ks /\ ~ complete_camera_point k.
Proof.
  unfold extract_camera_keypoints, camera_hkp_from_label. destruct (kl_keypoints l) as [[ks|ks]|]; cbn [bind].
  - split; [discriminate|]. intros (_ & ? & ? & E & _). discriminate.
  - split.
    + destruct (foldM camera_append ks _) as [h|] eqn:E; cbn [bind]; [discriminate|]. intros [= <-].
      apply camera_fold_err in E as (-> & k & I & N). eauto 6.
    + intros (-> & ks' & k & E & I & N). injection E as <-.
      assert (X : foldM camera_append ks {| ch_type := []; ch_x := []; ch_y := []; ch_occluded := [] |} = Err RuntimeError)
        by (apply camera_fold_err; eauto). rewrite X. reflexivity.
  - split; [discriminate|]. intros (_ & ? & ? & E & _). discriminate.
Qed.

Definition lidar_cat (h : lidar_hkp) (rows : list row3) : lidar_hkp :=
  {| lh_type := lh_type h ++ map r3_type rows; lh_x := lh_x h ++ map r3_x rows; lh_y := lh_y h ++ map r3_y rows;
     lh_z := lh_z h ++ map r3_z rows; lh_occluded := lh_occluded h ++ map r3_occluded rows |}.
Lemma lidar_append_ok h k h' : lidar_append h k = Ok h' <-> exists r, laser_point k r /\ h' = lidar_cat h [r].
Proof.
  unfold lidar_append, lidar_required, laser_point, lidar_cat. split.
  - destruct k as [[t|] [[[v|] [o|]]|]]; cbn; try discriminate. intros [= <-].
    exists {| r3_type := t; r3_x := num_of (v3_x v); r3_y := num_of (v3_y v); r3_z := num_of (v3_z v); r3_occluded := flag_of o |}. cbn. split; [|reflexivity].
    split; [reflexivity|]. exists v, o. repeat split.
  - intros ([t x y z b] & (T & v & o & L & V & X & Y & Z & B) & ->). cbn in *. destruct k as [kt [[lv vo]|]]; cbn in *; [|discriminate].
    injection L as ->. injection V as ->. subst. cbn. reflexivity.
Qed.
Lemma lidar_append_err h k e : lidar_append h k = Err e <-> e = RuntimeError /\ ~ complete_laser_point k.
Proof.
  unfold lidar_append, lidar_required, complete_laser_point. split.
  - destruct k as [[t|] [[[v|] [o|]]|]]; cbn; try discriminate; intros [= <-]; (split; [reflexivity|]);
      intros (A & p & P & B & C); cbn in *; try congruence; injection P as <-; cbn in *; congruence.
  - intros [-> N]. destruct k as [[t|] [[[v|] [o|]]|]]; cbn in *; try reflexivity.
    exfalso. apply N. split; [discriminate|]. eexists. split; [reflexivity|]. split; discriminate.
Qed.
Lemma lidar_cat_cat h a b : lidar_cat (lidar_cat h a) b = lidar_cat h (a ++ b).
Proof. unfold lidar_cat; cbn. now rewrite !map_app, !app_assoc. Qed.
Lemma lidar_fold_ok ks : forall h h', foldM lidar_append ks h = Ok h' <-> exists rows, Forall2 laser_point ks rows /\ h' = lidar_cat h rows.
Proof.
  induction ks as [|k ks IH]; intros h h'; cbn [foldM].
  - split.
    + intros [= <-]. exists []. split; [constructor|]. destruct h; unfold lidar_cat; cbn; now rewrite !app_nil_r.
    + intros (rows & F & ->). inversion F. destruct h; unfold lidar_cat; cbn; now rewrite !app_nil_r.
  - split.
    + destruct (lidar_append h k) as [h1|] eqn:E; cbn [bind]; [|discriminate]. apply lidar_append_ok in E as (r & P & ->).
      intros F. apply IH in F as (rows & F & ->). exists (r :: rows). split; [now constructor|]. now rewrite lidar_cat_cat.
    + intros (rows & F & ->). inversion F as [|? r ? rows' P F']; subst.
      assert (E : lidar_append h k = Ok (lidar_cat h [r])) by (apply lidar_append_ok; eauto). rewrite E. cbn [bind]. apply IH.
      exists rows'. split; [exact F'|]. now rewrite lidar_cat_cat.
Qed.
Lemma lidar_fold_err ks : forall h e, foldM lidar_append ks h = Err e <-> e = RuntimeError /\ exists k, In k ks /\ ~ complete_laser_point k.
Proof.
  induction ks as [|k ks IH]; intros h e; cbn [foldM].
  - split; [discriminate|]. intros (_ & k & [] & _).
  - destruct (lidar_append h k) as [h1|e1] eqn:E; cbn [bind].
    + rewrite IH. split.
      * intros (-> & x & I & N). split; [reflexivity|]. exists x. split; [now right|exact N].
      * intros (-> & x & [<-|I] & N); [|eauto]. exfalso.
        assert (X : lidar_append h k = Err RuntimeError) by now apply lidar_append_err. congruence.
    + apply lidar_append_err in E as [-> N]. split; [intros [= <-]; split; [reflexivity|]; exists k; split; [now left|exact N]|].
      intros [-> _]. reflexivity.
Qed.
Lemma laser_table_cat ks h :
  (exists rows, Forall2 laser_point ks rows /\ h = lidar_cat {| lh_type := []; lh_x := []; lh_y := []; lh_z := []; lh_occluded := [] |} rows) <-> laser_table ks h.
Proof.
  unfold laser_table, lidar_cat. cbn [lh_type lh_x lh_y lh_z lh_occluded app]. split.
  - intros (rows & F & ->). exists rows. cbn. auto 10.
  - intros (rows & F & A & B & C & D & E). exists rows. split; [exact F|]. destruct h; cbn in *. subst. reflexivity.
Qed.
Theorem lidar_keypoints_ok segment time l r :
  extract_lidar_keypoints segment time l = Ok r <->
  ((forall ks, kl_keypoints l <> Some (LaserKeypoints ks)) /\ r = []) \/
  (exists ks h, kl_keypoints l = Some (LaserKeypoints ks) /\ laser_table ks h /\
     r = [({| lk_segment := segment; lk_time := time; lk_object := or_default [] (kl_id l) |}, h)]).
Proof.
  unfold extract_lidar_keypoints, lidar_hkp_from_label. change (or_default [] (kl_id l)) with (text_of (kl_id l)).
  destruct (kl_keypoints l) as [[ks|ks]|]; cbn [bind].
  - split.
    + destruct (foldM lidar_append ks _) as [h|] eqn:E; cbn [bind]; [|discriminate]. intros [= <-]. right. exists ks, h.
      split; [reflexivity|]. split; [|reflexivity]. apply laser_table_cat, lidar_fold_ok, E.
    + intros [[N _]|(ks' & h & E & T & ->)]; [exfalso; now apply (N ks)|]. injection E as <-.
      apply laser_table_cat, lidar_fold_ok in T. rewrite T. reflexivity.
  - split; [intros [= <-]; left; split; [discriminate|reflexivity]|]. intros [[_ ->]|(ks' & h & E & _)]; [reflexivity|discriminate].
  - split; [intros [= <-]; left; split; [discriminate|reflexivity]|]. intros [[_ ->]|(ks' & h & E & _)]; [reflexivity|discriminate].
Qed.
Theorem lidar_keypoints_err segment time l e :
  extract_lidar_keypoints segment time l = Err e <->
  e = RuntimeError /\ exists ks k, kl_keypoints l = Some (LaserKeypoints ks) /\ In k ks /\ ~ complete_laser_point k.
Proof.
  unfold extract_lidar_keypoints, lidar_hkp_from_label. destruct (kl_keypoints l) as [[ks|ks]|]; cbn [bind].
  - split.
    + destruct (foldM lidar_append ks _) as [h|] eqn:E; cbn [bind]; [discriminate|]. intros [= <-].
      apply lidar_fold_err in E as (-> & k & I & N). eauto 6.
    + intros (-> & ks' & k & E & I & N). injection E as <-.
      assert (X : foldM lidar_append ks {| lh_type := []; lh_x := []; lh_y := []; lh_z := []; lh_occluded := [] |} = Err RuntimeError)
        by (apply lidar_fold_err; eauto). rewrite X. reflexivity.
  - split; [discriminate|]. intros (_ & ? & ? & E & _). discriminate.
  - split; [discriminate|]. intros (_ & ? & ? & E & _). discriminate.
Qed.

(** ** Lidar data *)
Section Returns.
  Variables floats integers : bytes -> result (list Z * list Z).
  Definition decoder (c : image_class) := match c with RangeImage | PoseImage => floats | ProjectionImage | SegmentationImage => integers end.
  Lemma parse_image_ok b c i : parse_range_image floats integers b c = Ok i <-> holds (decoder c) b i.
  Proof.
    unfold parse_range_image, holds. change (or_default [] b) with (list_of b). destruct (list_of b) as [|x y] eqn:E.
    - split; [intros [= <-]; auto|]. intros [[_ ->]|[N _]]; [reflexivity|congruence].
    - assert (D : match c with ProjectionImage | SegmentationImage => integers (x :: y) | RangeImage | PoseImage => floats (x :: y) end = decoder c (x :: y))
        by now destruct c. rewrite D. split.
      + destruct (decoder c (x :: y)) as [[v s]|]; cbn [bind]; [|discriminate]. intros [= <-]. right. split; [discriminate|]. exists v, s. auto.
      + intros [[N _]|(_ & v & s & -> & ->)]; [discriminate|]. reflexivity.
  Qed.
  Lemma holds_none d b i : holds d b i -> (i = None <-> or_default [] b = []).
  Proof. intros [[A ->]|(A & v & s & _ & ->)]; split; auto; [discriminate|congruence]. Qed.
  Theorem returns_ok field c segment time l r :
    extract_returns floats integers field c segment time l = Ok r <->
    (has_return field l = false /\ r = []) \/ (exists p, r = [p] /\ is_returns (decoder c) field segment time l p).
  Proof.
    unfold extract_returns, is_returns, get_laser_key. change (or_default 0 (la_name l)) with (num_of (la_name l)). split.
    - destruct (parse_range_image floats integers (field (la_return1 l)) c) as [i1|] eqn:E1; cbn [bind]; [|discriminate].
      destruct (parse_range_image floats integers (field (la_return2 l)) c) as [i2|] eqn:E2; cbn [bind]; [|discriminate].
      apply parse_image_ok in E1, E2. assert (N1 := holds_none _ _ _ E1). assert (N2 := holds_none _ _ _ E2).
      unfold has_return. destruct i1 as [i1|], i2 as [i2|]; intros [= <-].
      + right. eexists. split; [reflexivity|]. cbn. split; [|auto].
        destruct (or_default [] (field (la_return1 l))); [|reflexivity]. destruct N1 as [_ N1]. now specialize (N1 eq_refl).
      + right. eexists. split; [reflexivity|]. cbn. split; [|auto].
        destruct (or_default [] (field (la_return1 l))); [|reflexivity]. destruct N1 as [_ N1]. now specialize (N1 eq_refl).
      + right. eexists. split; [reflexivity|]. cbn. split; [|auto].
        destruct (or_default [] (field (la_return1 l))); [|reflexivity].
        destruct (or_default [] (field (la_return2 l))); [|reflexivity]. destruct N2 as [_ N2]. now specialize (N2 eq_refl).
      + left. split; [|reflexivity]. destruct N1 as [N1 _], N2 as [N2 _]. now rewrite (N1 eq_refl), (N2 eq_refl).
    - intros [[H ->]|([k i1 i2] & -> & H & K & H1 & H2)].
      + assert (A : or_default [] (field (la_return1 l)) = [] /\ or_default [] (field (la_return2 l)) = []).
        { unfold has_return in H. destruct (or_default [] (field (la_return1 l))), (or_default [] (field (la_return2 l))); try discriminate. auto. }
        destruct A as [A1 A2].
        assert (E1 : parse_range_image floats integers (field (la_return1 l)) c = Ok None) by (apply parse_image_ok; left; auto).
        assert (E2 : parse_range_image floats integers (field (la_return2 l)) c = Ok None) by (apply parse_image_ok; left; auto).
        rewrite E1, E2. reflexivity.
      + cbn in K, H1, H2. subst k. assert (N1 := holds_none _ _ _ H1). assert (N2 := holds_none _ _ _ H2).
        apply parse_image_ok in H1, H2. rewrite H1, H2. cbn [bind]. destruct i1, i2; try reflexivity.
        exfalso. unfold has_return in H. destruct N1 as [N1 _], N2 as [N2 _]. rewrite (N1 eq_refl), (N2 eq_refl) in H. discriminate.
  Qed.
  (** The components of all the lasers of a frame. *)
  Theorem all_returns field c segment time lasers r :
    over_labels (extract_returns floats integers field c segment time) lasers = Ok r <->
    Forall2 (is_returns (decoder c) field segment time) (filter (has_return field) lasers) r.
  Proof. apply over_ok; [intros; apply returns_ok|]. intros l p (H & _). exact H. Qed.
  Theorem returns_keys field c segment time lasers r :
    over_labels (extract_returns floats integers field c segment time) lasers = Ok r ->
    (NoDup (map tr_key r) <-> NoDup (map (fun l => or_default 0 (la_name l)) (filter (has_return field) lasers))).
  Proof.
    intros E. apply all_returns in E.
    assert (M : map tr_key r = map (fun l => {| sk_segment := segment; sk_time := time; sk_name := or_default 0 (la_name l) |}) (filter (has_return field) lasers)).
    { induction E as [|l p q r X F IH]; cbn; [reflexivity|]. rewrite IH. f_equal. now destruct X as (_ & K & _). }
    rewrite M. apply (NoDup_map_iff (fun n => {| sk_segment := segment; sk_time := time; sk_name := n |}) (fun l : laser1 => or_default 0 (la_name l))).
    intros x y. congruence.
  Qed.
  Theorem lidar_pose_ok segment time l r :
    extract_lidar_pose floats integers segment time l = Ok r <->
    (has_pose l = false /\ r = []) \/ (exists p, r = [p] /\ is_pose floats segment time l p).
  Proof.
    unfold extract_lidar_pose, is_pose, has_pose, get_laser_key. change (or_default 0 (la_name l)) with (num_of (la_name l)). split.
    - destruct (parse_range_image floats integers (r_pose (la_return1 l)) PoseImage) as [i|] eqn:E; cbn [bind]; [|discriminate].
      apply parse_image_ok in E. assert (N := holds_none _ _ _ E). destruct i as [i|]; intros [= <-].
      + right. eexists. split; [reflexivity|]. cbn. auto.
      + left. split; [|reflexivity]. destruct N as [N _]. now rewrite (N eq_refl).
    - intros [[H ->]|([k i] & -> & K & H)].
      + assert (E : parse_range_image floats integers (r_pose (la_return1 l)) PoseImage = Ok None).
        { apply parse_image_ok. left. split; [|reflexivity]. destruct (or_default [] (r_pose (la_return1 l))); [reflexivity|discriminate]. }
        rewrite E. reflexivity.
      + cbn in K, H. subst k. assert (E : parse_range_image floats integers (r_pose (la_return1 l)) PoseImage = Ok (Some i)) by now apply parse_image_ok.
        rewrite E. reflexivity.
  Qed.
  Theorem all_poses segment time lasers r :
    over_labels (extract_lidar_pose floats integers segment time) lasers = Ok r <->
    Forall2 (is_pose floats segment time) (filter has_pose lasers) r.
  Proof.
    apply over_ok; [intros; apply lidar_pose_ok|]. intros l p (_ & [[_ X]|[H _]]); [discriminate|].
    unfold has_pose. destruct (or_default [] (r_pose (la_return1 l))); [congruence|reflexivity].
  Qed.
End Returns.

Theorem lidar_components floats integers segment time lasers r :
  over_labels (extract_lidar floats integers segment time) lasers = Ok r <->
  Forall2 (is_returns floats r_range segment time) (filter (has_return r_range) lasers) r.
Proof. exact (all_returns floats integers r_range RangeImage segment time lasers r). Qed.
Theorem projection_components floats integers segment time lasers r :
  over_labels (extract_projection floats integers segment time) lasers = Ok r <->
  Forall2 (is_returns integers r_projection segment time) (filter (has_return r_projection) lasers) r.
Proof. exact (all_returns floats integers r_projection ProjectionImage segment time lasers r). Qed.
Theorem segmentation_components floats integers segment time lasers r :
  over_labels (extract_lidar_segmentation floats integers segment time) lasers = Ok r <->
  Forall2 (is_returns integers r_segmentation segment time) (filter (has_return r_segmentation) lasers) r.
Proof. exact (all_returns floats integers r_segmentation SegmentationImage segment time lasers r). Qed.
Theorem pose_components floats integers segment time lasers r :
  over_labels (extract_lidar_pose floats integers segment time) lasers = Ok r <->
  Forall2 (is_pose floats segment time) (filter has_pose lasers) r.
Proof. exact (all_poses floats integers segment time lasers r). Qed.
Theorem lidar_component_keys floats integers segment time lasers r :
  over_labels (extract_lidar floats integers segment time) lasers = Ok r ->
  (NoDup (map tr_key r) <-> NoDup (map (fun l => or_default 0 (la_name l)) (filter (has_return r_range) lasers))).
Proof. exact (returns_keys floats integers r_range RangeImage segment time lasers r). Qed.
(** The range image, the projections and the pose of one laser have one key. *)
Theorem same_laser floats integers segment time l c p q :
  extract_lidar floats integers segment time l = Ok [c] -> extract_projection floats integers segment time l = Ok [p] ->
  extract_lidar_pose floats integers segment time l = Ok [q] -> tr_key c = tr_key p /\ fst q = tr_key c.
Proof.
  intros A B C. apply returns_ok in A as [[_ A]|(x & A & _ & K1 & _)]; [discriminate|]. apply returns_ok in B as [[_ B]|(y & B & _ & K2 & _)]; [discriminate|].
  apply lidar_pose_ok in C as [[_ C]|(z & C & K3 & _)]; [discriminate|]. injection A as <-. injection B as <-. injection C as <-. split; congruence.
Qed.

(** ** Camera segmentation *)
Lemma mapping_fold ms : forall a b c, fold_left mapping_append ms (a, b, c) =
  (a ++ map (fun m => num_of (mp_local m)) ms, b ++ map (fun m => num_of (mp_global m)) ms, c ++ map (fun m => flag_of (mp_tracked m)) ms).
Proof.
  induction ms as [|m ms IH]; intros a b c; cbn [fold_left map]; [now rewrite !app_nil_r|].
  unfold mapping_append at 2. rewrite IH, <- !app_assoc. reflexivity.
Qed.
Theorem camera_segmentation segment time camera label :
  extract_segmentation segment time camera label =
  match label with
  | None => []
  | Some s =>
      [ {| s2_key := {| sk_segment := segment; sk_time := time; sk_name := or_default 0 camera |}; s2_divisor := or_default 0 (sg_divisor s);
           s2_label := or_default [] (sg_label s); s2_local := map (fun m => or_default 0 (mp_local m)) (sg_mapping s);
           s2_global := map (fun m => or_default 0 (mp_global m)) (sg_mapping s);
           s2_tracked := map (fun m => or_default false (mp_tracked m)) (sg_mapping s);
           s2_sequence := or_default [] (sg_sequence s); s2_covered := or_default [] (sg_covered s) |} ]
  end.
Proof.
  unfold extract_segmentation. destruct label as [s|]; [|reflexivity]. rewrite mapping_fold. reflexivity.
Qed.

(** ** Calibrations and statistics *)
Theorem intrinsic_ok v i : get_intrinsic v = Ok i <-> nine v i.
Proof.
  unfold get_intrinsic, nine, at_index. split.
  - do 9 (destruct v as [|? v]; [discriminate|]). cbn. intros [= <-]. exists v. reflexivity.
  - intros [rest ->]. cbn. now destruct i.
Qed.
Theorem intrinsic_err v e : get_intrinsic v = Err e <-> e = IndexError /\ (List.length v < 9)%nat.
Proof.
  split.
  - unfold get_intrinsic, at_index. do 9 (destruct v as [|? v]; [cbn; intros [= <-]; split; [reflexivity|lia]|]). discriminate.
  - intros [-> L]. unfold get_intrinsic, at_index. do 9 (destruct v as [|? v]; [reflexivity|]). cbn in L. lia.
Qed.
Theorem inclination_back least most values :
  in_min (get_inclination least most values) = or_default 0 least /\ in_max (get_inclination least most values) = or_default 0 most /\
  or_default [] (in_values (get_inclination least most values)) = values /\
  (in_values (get_inclination least most values) = None <-> values = []).
Proof. unfold get_inclination. destruct values as [|x y]; cbn; repeat split; congruence. Qed.
Theorem counts_back l :
  parse_object_counts l = (if (List.length l =? 0)%nat then None
                           else Some (map (fun p => or_default 0 (fst p)) l, map (fun p => or_default 0 (snd p)) l)).
Proof. destruct l; reflexivity. Qed.

(** ** What is not met *)
Definition point_2d : keypoint2d1 := {| location_px := Some {| v2_x := Some 5; v2_y := Some 6 |}; visibility2 := Some (Some true) |}.
Definition point_3d : keypoint3d1 := {| location_m := Some {| v3_x := Some 1; v3_y := Some 2; v3_z := Some 3 |}; visibility3 := Some None |}.
Definition nose (p : keypoint2d1) (q : option keypoint3d1) : camera_keypoint := {| ckp_type := Some 1; ckp_2d := Some p; ckp_3d := q |}.
Definition key_label (ks : list camera_keypoint) : klabel := {| kl_id := Some [1%nat]; kl_keypoints := Some (CameraKeypoints ks) |}.
(** The position in space of a keypoint of a camera label is dropped, although its column exists. *)
Theorem spatial_refuted : exists segment time camera k k' r,
  ckp_3d k = None /\ ckp_3d k' <> None /\
  extract_camera_keypoints segment time camera (key_label [k]) = Ok r /\ extract_camera_keypoints segment time camera (key_label [k']) = Ok r.
Proof.
  exists [], 0, 1, (nose point_2d None), (nose point_2d (Some point_3d)). eexists. split; [reflexivity|]. split; [discriminate|].
  split; vm_compute; reflexivity.
Qed.
(** A position without numbers counts as present, at zero. *)
Theorem position_refuted : exists segment time camera p key h,
  option_map v2_x (location_px p) = Some None /\
  extract_camera_keypoints segment time camera (key_label [nose p None]) = Ok [(key, h)] /\ ch_x h = [0].
Proof.
  exists [], 0, 1, {| location_px := Some {| v2_x := None; v2_y := None |}; visibility2 := Some None |}. do 2 eexists.
  split; [reflexivity|]. split; vm_compute; reflexivity.
Qed.
(** A label without keypoints in its list still has a component. *)
Theorem empty_refuted : exists segment time camera key h,
  extract_camera_keypoints segment time camera (key_label []) = Ok [(key, h)] /\ ch_type h = [].
Proof. exists [], 0, 1. do 2 eexists. split; vm_compute; reflexivity. Qed.
(** The pose image of the second return is not extracted. *)
Theorem second_pose_refuted : exists floats integers segment time l,
  or_default [] (r_pose (la_return2 l)) <> [] /\ extract_lidar_pose floats integers segment time l = Ok [].
Proof.
  exists (fun b => Ok (b, [])), (fun b => Ok (b, [])), [], 0.
  exists {| la_name := Some 1; la_return1 := {| r_range := None; r_projection := None; r_pose := None; r_segmentation := None |};
            la_return2 := {| r_range := None; r_projection := None; r_pose := Some [1]; r_segmentation := None |} |}.
  split; [discriminate|reflexivity].
Qed.
