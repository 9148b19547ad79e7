(** Facts for the property theorems: definedness of the images, witnesses and concrete cases. *)
From Coq Require Import Reals Lra List Arith ZArith Lia Bool Permutation.
From Verif Require Import Base ResultLib GeomModel GeomBase FrameModel FrameSpec FrameProofs RangeImageModel LidModel LidSpec LidImages LidBeams LidReturn LidParse LidFrames LidVersions.
Import ListNotations.
Open Scope R_scope.

Theorem build_defined points n e incl w : (0 < w)%nat ->
  (exists im, build_range_image points n e incl w = Ok im) <-> Forall (fun p => exists x, pixel_of_point e incl w p = Ok x) points.
Proof.
  intros W. split.
  - intros [im E]. unfold build_range_image in E. destruct (mapM (pixel_of_point e incl w) points) as [px|] eqn:M; [|discriminate]. apply mapM_inv in M. clear E. induction M; constructor; eauto.
  - intros F. destruct (mapM_exists (pixel_of_point e incl w) points) as [px M]; [now apply Forall_forall|]. destruct (build_ok points n e incl w px W M) as (im & E & _). eauto.
Qed.
(** Every point of a proper lidar has its pixel except the ones straight behind, on the seam, when the width is even. *)
Theorem image_defined points n e incl w psi : ~ singular (rotation e) -> (0 < w)%nat -> incl <> [] -> facing e psi ->
  (exists im, build_range_image points n e incl w = Ok im) <->
  forall p q a, In p points -> sensed e p q -> azimuth_of q a -> ~ (Nat.Even w /\ a + psi = - PI).
Proof.
  intros S W I F. rewrite build_defined by exact W. rewrite Forall_forall. split.
  - intros H p q a Ip Sq A. apply (pixel_defined e incl w p q a psi S W I Sq A F). auto.
  - intros H p Ip. destruct (sensed_exists e p S) as [q Sq]. pose proof (atan2_angle (Y q) (X q)) as A. apply (pixel_defined e incl w p q _ psi S W I Sq A F). exact (H p q _ Ip Sq A).
Qed.
(** The pixel of a point, for the points of one image. *)
Theorem image_content points n e incl w psi im : ~ singular (rotation e) -> (0 < w)%nat -> facing e psi -> build_range_image points n e incl w = Ok im ->
  length im = (length incl * w)%nat /\
  exists pixels, length pixels = length points /\
    (forall j p, nth_error points j = Some p -> exists r c d, nth_error pixels j = Some (Z.of_nat r, Z.of_nat c, d) /\ (r < length incl)%nat /\ (c < w)%nat /\ 0 <= d /\
       forall q a b, sensed e p q -> azimuth_of q a -> inclination_of q b -> first_closest incl b r /\ in_column w (a + psi) c /\ d * d = dot3 q q) /\
    forall r c, (r < length incl)%nat -> (c < w)%nat -> exists x, nth_error im (r * w + c) = Some x /\ nearest_or_zero (firstn n pixels) (Z.of_nat r, Z.of_nat c) x.
Proof.
  intros S W F E. assert (M : exists pixels, mapM (pixel_of_point e incl w) points = Ok pixels) by (unfold build_range_image in E; destruct (mapM (pixel_of_point e incl w) points); [eauto | discriminate]).
  destruct M as [pixels M]. destruct (build_ok points n e incl w pixels W M) as (im' & E' & L & H). assert (im' = im) by congruence. subst im'. split; [exact L|]. exists pixels.
  split; [exact (mapM_length _ _ _ M)|]. split; [|exact H]. intros j p J. destruct (mapM_nth _ _ _ M j p J) as ([[r c] d] & P & N).
  destruct (sensed_exists e p S) as [q0 S0]. destruct (pixel_ok e incl w p q0 _ _ psi r c d S W S0 (atan2_angle _ _) (atan2_angle _ _) F P) as (r' & c' & -> & -> & C & (y & Y0 & _) & _ & _ & D).
  exists r', c', d. split; [exact N|]. split; [apply nth_error_Some; congruence|]. split; [exact C|]. split; [exact D|]. intros q a b Sq A B.
  destruct (pixel_ok e incl w p q a b psi _ _ d S W Sq A B F P) as (r2 & c2 & R2 & C2 & _ & G1 & G2 & G3 & _). apply Nat2Z.inj in R2, C2. now subst.
Qed.

(** The cloud of one lidar in the second version of the data. *)
Theorem v2_cloud_spec f top c ri keep : (calib_name c = TOP -> pose_image top) ->
  ((exists pts, v2_point_cloud ri (calibration_component c) (needs c top) (needs c (vehicle_pose f)) keep = Ok pts) <-> fits f top c ri) /\
  forall pts, v2_point_cloud ri (calibration_component c) (needs c top) (needs c (vehicle_pose f)) keep = Ok pts ->
    exists hits, hits_of ri hits /\ Forall2 (fun rc v => lidar_pixel f top c ri keep (fst rc) (snd rc) v) hits pts.
Proof.
  intros P. destruct (v2_defined f top c ri keep P) as [D V]. unfold v2_point_cloud.
  destruct (v2_cartesian ri (calibration_component c) (needs c top) (needs c (vehicle_pose f)) keep) as [img|] eqn:E; cbn [bind].
  2:{ split; [|discriminate]. split; [intros [? ?]; discriminate|]. intros F. apply D in F. destruct F; discriminate. }
  pose proof (proj1 D (ex_intro _ _ eq_refl)) as F. destruct (fits_parts _ _ _ _ F) as (t & ranges & T & C). rewrite T. cbn [bind]. rewrite C. cbn [bind].
  pose proof (where_hits_of _ _ _ T C) as H. destruct (V img eq_refl) as [I1 I2]. split.
  - split; [intros _; exact F|]. intros _. apply gather_exists. intros r col J N. apply (proj1 H) in J. destruct J as (v & x & Hv & _). destruct (proj2 (I1 r col)) as [o O]; [eauto|]. congruence.
  - intros pts G. exists (where_positive ranges). split; [exact H|]. apply gather_ok in G. eapply Forall2_impl; [|exact G]. intros [r col] v. apply I2.
Qed.
Theorem v2_projection_spec ri cp : an_image cp -> 
  (forall ps, v2_camera_projection ri cp = Ok ps -> exists hits, hits_of ri hits /\ Forall2 (fun rc v => channels cp (fst rc) (snd rc) v) hits ps).
Proof.
  intros _ ps E. unfold v2_camera_projection in E. destruct (tensor ri) as [t|] eqn:T; [|discriminate]. cbn [bind] in E. destruct (channel0 t) as [ranges|] eqn:C; [|discriminate]. cbn [bind] in E.
  destruct (tensor cp) as [ct|] eqn:CT; [|discriminate]. cbn [bind] in E. exists (where_positive ranges). split; [exact (where_hits_of _ _ _ T C)|]. now apply (gather_channels cp ct).
Qed.

(** ** A lidar turned about the vertical *)
Definition turned (psi : R) : pose := {| rotation := get_yaw_rotation psi; translation := (0, 0, 0) |}.
Lemma turned_proper psi : proper (rotation (turned psi)).
Proof.
  unfold turned, proper, get_yaw_rotation, inner, outer, axis_x, axis_y, axis_z. cbn [rotation r0 r1 r2 fst snd]. pose proof (cs1 psi) as H.
  split; [lra|]. split; [lra|]. split; [lra|]. f_equal; [f_equal; lra|]. lra.
Qed.
Lemma turned_facing psi : - PI < psi <= PI -> facing (turned psi) psi.
Proof. intros H. split; [exact H|]. left. exists 1. unfold turned, get_yaw_rotation. cbn. lra. Qed.
Lemma seam_point : sensed (turned (- (PI / 2))) (-1, 0, 0) (0, -1, 0) /\ azimuth_of (0, -1, 0) (- (PI / 2)).
Proof.
  unfold sensed, turned, get_yaw_rotation, world, azimuth_of, has_angle. cbn [rotation translation r0 r1 r2]. rewrite cos_neg, sin_neg, cos_PI2, sin_PI2. split.
  - f_equal; [f_equal|]; lra.
  - split; [pose proof PI_RGT_0; lra|]. left. exists 1. cbn. lra.
Qed.
Theorem seam_lost : build_range_image [(-1, 0, 0)] 1 (turned (- (PI / 2))) [0] 2 = Err ValueError.
Proof.
  unfold build_range_image. cbn [mapM]. destruct seam_point as [S A]. pose proof PI_RGT_0 as P.
  destruct (pixel_defined (turned (- (PI / 2))) [0] 2 (-1, 0, 0) (0, -1, 0) (- (PI / 2)) (- (PI / 2))) as [_ H];
    [apply proper_not_singular, turned_proper | lia | discriminate | exact S | exact A | apply turned_facing; lra|].
  rewrite H; [reflexivity | now exists 1%nat | lra].
Qed.
Theorem example_points : extract_point_cloud [[5; 0]] (turned 0) [0] None None = Ok [[(0, 5, 0); (0, 0, 0)]].
Proof.
  unfold extract_point_cloud, compute_range_image_polar, number. cbn [zip length seq combine map fst snd bind compute_range_image_cartesian].
  assert (Z0 : az_correction (turned 0) = 0).
  { apply (angle_unique 1 0); [|split; [pose proof PI_RGT_0; lra | left; exists 1; rewrite cos_0, sin_0; lra]]. change (az_correction (turned 0)) with (atan2 (sin 0) (cos 0)). rewrite sin_0, cos_0. apply atan2_angle. }
  assert (A0 : azimuth (turned 0) 2 0 = PI / 2) by (unfold azimuth; rewrite Z0; cbn [Nat.sub INR]; field).
  rewrite A0. unfold sensor_point, apply, turned, get_yaw_rotation, mulv, dot3, add3. cbn [rotation translation r0 r1 r2 X Y Z_ fst snd]. rewrite cos_PI2, sin_PI2, cos_0, sin_0.
  match goal with |- Ok [[?a; ?b]] = Ok [[?c; ?d]] => assert (E1 : a = c); [|assert (E2 : b = d); [|now rewrite E1, E2]] end; unfold X, Y, Z_; cbn [fst snd]; (apply pair_equal_spec; split; [apply pair_equal_spec; split|]); unfold X, Y, Z_; cbn [fst snd]; ring.
Qed.

(** ** A frame with two lidars *)
Definition ranges_of (l : list R) : matrix R := {| data := l; dims := [1; length l; 1]%nat |}.
Definition still_poses (w : nat) : matrix R := {| data := repeat 0 (w * 6); dims := [1; w; 6]%nat |}.
Definition shown (l : list Z) : matrix Z := {| data := l; dims := [1; length l; 1]%nat |}.
Definition a_return (l : list R) (pose : option (matrix R)) (cp : list Z) : ri_return :=
  {| range_image := Some (ranges_of l); range_image_pose := pose; camera_projection := Some (shown cp); segmentation_label := None |}.
Definition top_laser : laser := {| laser_name := TOP; ri_return1 := a_return [5; 0] (Some (still_poses 2)) [7; 8]%Z; ri_return2 := a_return [0; 9] None [1; 2]%Z |}.
Definition side_laser : laser := {| laser_name := 3; ri_return1 := a_return [4; 6; 0] None [1; 2; 3]%Z; ri_return2 := a_return [1; 0; 0] None [4; 5; 6]%Z |}.
Definition top_calibration : calibration := {| calib_name := TOP; beam_inclinations := [0]; beam_inclination_min := -1; beam_inclination_max := 1; calib_extrinsic := turned 0 |}.
Definition side_calibration : calibration := {| calib_name := 3; beam_inclinations := []; beam_inclination_min := -1; beam_inclination_max := 1; calib_extrinsic := turned (PI / 2) |}.
Definition two_lidars : frame := {| lasers := [side_laser; top_laser]; laser_calibrations := [side_calibration; top_calibration]; vehicle_pose := turned 0 |}.
Definition side_only : frame := {| lasers := [side_laser]; laser_calibrations := [side_calibration]; vehicle_pose := turned 0 |}.
Lemma ranges_well_formed l : well_formed (ranges_of l) 1 (length l) 1.
Proof. split; [reflexivity | cbn; lia]. Qed.
Lemma shown_well_formed l : well_formed (shown l) 1 (length l) 1.
Proof. split; [reflexivity | cbn; lia]. Qed.
Lemma still_well_formed w : well_formed (still_poses w) 1 w 6.
Proof. split; [reflexivity | cbn; rewrite repeat_length; lia]. Qed.
Lemma channels_exist {A} (m : matrix A) h w d r c : well_formed m h w d -> (r < h)%nat -> (c < w)%nat -> exists v, channels m r c v.
Proof.
  intros W R C. destruct (tensor_exists _ _ _ _ W) as [t T]. apply tensor_ok in T. destruct T as (h' & w' & d' & W' & L & Re & Q). destruct (well_formed_unique _ _ _ _ _ _ _ W W') as (<- & <- & <-).
  destruct (rectangle_pixel w t r c Re) as [v V]; [lia | exact C|]. exists v. now apply Q.
Qed.
Lemma channels_bounds {A} (m : matrix A) h w d r c v : well_formed m h w d -> channels m r c v -> (r < h)%nat /\ (c < w)%nat.
Proof. intros [D _] (h' & w' & d' & [D' _] & R & C & _). rewrite D in D'. now injection D' as <- <- <-. Qed.
Lemma covers_same cp ri : length cp = length ri -> covers (shown cp) (ranges_of ri).
Proof.
  intros L. split; [exists 1%nat, (length cp), 1%nat; apply shown_well_formed|]. intros r c (v & x & H & _). destruct (channels_bounds _ _ _ _ _ _ _ (ranges_well_formed ri) H) as [R C].
  apply (channels_exist (shown cp) 1 (length cp) 1); [apply shown_well_formed | exact R | lia].
Qed.
Lemma side_fits f top l : fits f top side_calibration (ranges_of l).
Proof. exists 1%nat, (length l), 1%nat. split; [apply ranges_well_formed|]. split; [lia|]. split; [exact I|]. discriminate. Qed.
Lemma top_fits f l : length l = 2%nat -> vehicle_pose f = turned 0 -> fits f (still_poses 2) top_calibration (ranges_of l).
Proof.
  intros L V. exists 1%nat, (length l), 1%nat. split; [apply ranges_well_formed|]. split; [lia|]. split; [reflexivity|]. intros _. split.
  - exists 2%nat, 6%nat. split; [apply still_well_formed | congruence].
  - rewrite V. apply proper_not_singular, turned_proper.
Qed.
Lemma still_image w : pose_image (still_poses w).
Proof. exists 1%nat, w, 6%nat. split; [apply still_well_formed | reflexivity]. Qed.
Lemma two_distinct : distinct_lasers two_lidars /\ distinct_calibrations two_lidars /\ Forall in_sequence (lasers two_lidars).
Proof.
  split; [|split].
  - unfold distinct_lasers. cbn. constructor; [intros [E|[]]; discriminate|]. constructor; [intros []|constructor].
  - unfold distinct_calibrations. cbn. constructor; [intros [E|[]]; discriminate|]. constructor; [intros []|constructor].
  - assert (Q : forall l, segmentation_label (ri_return2 l) = None -> range_image (ri_return1 l) <> None -> in_sequence l) by (intros l A B _; split; [exact B | intros N; contradiction]).
    constructor; [apply Q; [reflexivity | discriminate]|]. constructor; [apply Q; [reflexivity | discriminate] | constructor].
Qed.
Lemma two_top : top_poses two_lidars (still_poses 2).
Proof. exists top_laser. split; [split; [right; left; reflexivity | reflexivity]|]. split; [discriminate | reflexivity]. Qed.
Theorem two_clouds : exists p out, parse_frame two_lidars = Ok p /\
  convert_range_image_to_point_cloud two_lidars (range_images p) (camera_projections p) (range_image_top_pose p) 0 false = Ok out.
Proof.
  destruct two_distinct as (A & B & C). destruct (proj2 (proj1 (parse_defined _ A)) C) as [p P]. exists p.
  destruct (frame_clouds two_lidars p 0 false A B P) as [[_ D] _]. destruct D as [out O]; [|exists out; auto].
  exists (still_poses 2). split; [exact two_top|]. split; [apply still_image|]. intros c [<-|[<-|[]]].
  - exists (ranges_of [4; 6; 0]), (shown [1; 2; 3]%Z). split; [exists side_laser; split; [split; [left|]; reflexivity | reflexivity]|]. split; [apply side_fits|].
    split; [exists side_laser; split; [split; [left|]; reflexivity | reflexivity]|]. now apply covers_same.
  - exists (ranges_of [5; 0]), (shown [7; 8]%Z). split; [exists top_laser; split; [split; [right; left|]; reflexivity | reflexivity]|]. split; [now apply top_fits|].
    split; [exists top_laser; split; [split; [right; left|]; reflexivity | reflexivity]|]. now apply covers_same.
Qed.
Theorem two_dict : exists d, lidar_dict two_lidars = Ok d.
Proof.
  destruct two_distinct as (A & B & C). destruct (lidar_dict_spec two_lidars A B) as [[_ D] _]. apply D. split; [exact C|]. exists (still_poses 2). split; [exact two_top|]. split; [apply still_image|].
  intros c [<-|[<-|[]]].
  - exists (ranges_of [4; 6; 0]), (ranges_of [1; 0; 0]), (shown [1; 2; 3]%Z), (shown [4; 5; 6]%Z). assert (L : laser_of two_lidars 3 side_laser) by (split; [left|]; reflexivity).
    split; [exists side_laser; split; [exact L | reflexivity]|]. split; [exists side_laser; split; [exact L | reflexivity]|]. split; [apply side_fits|]. split; [apply side_fits|].
    split; [exists side_laser; split; [exact L | reflexivity]|]. split; [exists side_laser; split; [exact L | reflexivity]|]. split; do 3 eexists; apply shown_well_formed.
  - exists (ranges_of [5; 0]), (ranges_of [0; 9]), (shown [7; 8]%Z), (shown [1; 2]%Z). assert (L : laser_of two_lidars TOP top_laser) by (split; [right; left|]; reflexivity).
    split; [exists top_laser; split; [exact L | reflexivity]|]. split; [exists top_laser; split; [exact L | reflexivity]|]. split; [now apply top_fits|]. split; [now apply top_fits|].
    split; [exists top_laser; split; [exact L | reflexivity]|]. split; [exists top_laser; split; [exact L | reflexivity]|]. split; do 3 eexists; apply shown_well_formed.
Qed.
(** A frame with side lidars only, whose images fit, has no points. *)
Theorem side_refused : exists f p, distinct_lasers f /\ distinct_calibrations f /\ parse_frame f = Ok p /\ laser_calibrations f <> [] /\
  (forall c, In c (laser_calibrations f) -> exists ri cp, image_of f 0 (calib_name c) ri /\ (forall top, fits f top c ri) /\ projection_of f 0 (calib_name c) cp /\ covers cp ri) /\
  forall keep, convert_range_image_to_point_cloud f (range_images p) (camera_projections p) (range_image_top_pose p) 0 keep = Err ValueError.
Proof.
  assert (A : distinct_lasers side_only) by (unfold distinct_lasers; cbn; constructor; [intros [] | constructor]).
  assert (B : Forall in_sequence (lasers side_only)) by (constructor; [intros _; split; [discriminate | intros N; now elim N] | constructor]).
  destruct (proj2 (proj1 (parse_defined _ A)) B) as [p P]. exists side_only, p. split; [exact A|]. split; [unfold distinct_calibrations; cbn; constructor; [intros [] | constructor]|]. split; [exact P|].
  split; [discriminate|]. split.
  - intros c [<-|[]]. exists (ranges_of [4; 6; 0]), (shown [1; 2; 3]%Z). split; [exists side_laser; split; [split; [left|]; reflexivity | reflexivity]|]. split; [intros top; apply side_fits|].
    split; [exists side_laser; split; [split; [left|]; reflexivity | reflexivity]|]. now apply covers_same.
  - intros keep. apply (frame_topless side_only p 0 keep A P). intros l [[<-|[]] N]. discriminate.
Qed.
(** Without listed inclinations the points of the top lidar of the motion data are refused. *)
Definition unlisted : calibration := {| calib_name := TOP; beam_inclinations := []; beam_inclination_min := -1; beam_inclination_max := 1; calib_extrinsic := turned 0 |}.
Theorem top_refused : exists m top ri fp c pts, tensor m = Ok (womd_image ri) /\ tensor top = Ok (womd_pose ri) /\
  v2_point_cloud m (calibration_component c) (Some top) (Some fp) true = Ok pts /\ extract_top_lidar_points ri ri fp c = Err RuntimeError.
Proof.
  set (m := ranges_of [5; 0]). set (top := still_poses 2). set (f := {| lasers := []; laser_calibrations := []; vehicle_pose := turned 0 |}).
  destruct (tensor_exists m _ _ _ (ranges_well_formed _)) as [t T]. destruct (tensor_exists top _ _ _ (still_well_formed 2)) as [tp TP].
  destruct (v2_cloud_spec f top unlisted m true) as [[_ D] _]; [intros _; apply still_image|]. destruct D as [pts E].
  { exists 1%nat, 2%nat, 1%nat. split; [apply (ranges_well_formed [5; 0])|]. split; [lia|]. split; [exact I|]. intros _. split; [exists 2%nat, 6%nat; split; [apply still_well_formed | reflexivity]|].
    apply proper_not_singular, turned_proper. }
  exists m, top, {| womd_image := t; womd_pose := tp |}, (turned 0), unlisted, pts. split; [exact T|]. split; [exact TP|]. split; [exact E|].
  unfold extract_top_lidar_points. cbn [womd_pose womd_image]. destruct (proj2 (posed_exists top) (still_image 2)) as (poses & tp' & T' & P'). assert (tp' = tp) by congruence. subst tp'. rewrite P'. reflexivity.
Qed.
(** With them they are not. *)
Theorem top_accepted : exists m top ri fp c o, tensor m = Ok (womd_image ri) /\ tensor top = Ok (womd_pose ri) /\ beam_inclinations c <> [] /\ extract_top_lidar_points ri ri fp c = Ok o.
Proof.
  set (m := ranges_of [5; 0]). set (top := still_poses 2). set (f := {| lasers := []; laser_calibrations := []; vehicle_pose := turned 0 |}).
  destruct (tensor_exists m _ _ _ (ranges_well_formed _)) as [t T]. destruct (tensor_exists top _ _ _ (still_well_formed 2)) as [tp TP].
  destruct (v2_cloud_spec f top top_calibration m true) as [[_ D] _]; [intros _; apply still_image|]. destruct D as [pts E]; [now apply top_fits|].
  destruct (womd_top m m top {| womd_image := t; womd_pose := tp |} {| womd_image := t; womd_pose := tp |} (turned 0) top_calibration T T TP ltac:(discriminate)) as [[_ W] _].
  destruct W as [o O]; [split; exists pts; exact E|]. exists m, top, {| womd_image := t; womd_pose := tp |}, (turned 0), top_calibration, o. split; [exact T|]. split; [exact TP|]. split; [discriminate | exact O].
Qed.
