(** From lidar range images to points and back: utils/range_image_utils.py (256-385, 475-640), utils/frame_utils.py,
    v2/perception/utils/lidar_utils.py, utils/womd_lidar_utils.py and utils/womd_camera_utils.py.

    Conventions.
    - Numbers are real numbers; rounding and the casts between float types are not modelled.
    - One element of the batch dimension at a time, as all callers use.
    - A tensor of shape [H, W, ...] is the list of its rows; the width is the length of a row.
    - A transform is a [pose] (FrameModel.v): the last row of the matrix is (0, 0, 0, 1).
    - Errors of TensorFlow about shapes are ValueError. *)
From Coq Require Import Reals.
From Verif Require Import Base ResultLib GeomModel FrameModel RangeImageModel.
Open Scope list_scope.
Open Scope R_scope.

Definition image (A : Type) : Type := list (list A).
(** Elementwise operations on tensors of the same shape. *)
Fixpoint zip {A B C} (f : A -> B -> C) (a : list A) (b : list B) : result (list C) :=
  match a, b with
  | [], [] => Ok []
  | x :: a, y :: b => do r <- zip f a b; Ok (f x y :: r)
  | _, _ => Err ValueError
  end.
Definition zip_image {A B C} (f : A -> B -> C) (a : image A) (b : image B) : result (image C) :=
  do rows <- zip (zip f) a b; mapM (fun r => r) rows.
Definition number {A} (l : list A) : list (nat * A) := combine (seq 0 (length l)) l.

(** ** range_image_utils.py *)
(** 283-289, az_correction and the azimuth of a column. *)
Definition az_correction (extrinsic : pose) : R := atan2 (X (r1 (rotation extrinsic))) (X (r0 (rotation extrinsic))).
Definition azimuth (extrinsic : pose) (width column : nat) : R :=
  let ratio := (INR (width - column) - / 2) / INR width in
  (ratio * 2 - 1) * PI - az_correction extrinsic.
(** 256-299, compute_range_image_polar. *)
Definition compute_range_image_polar (range_image : image R) (extrinsic : pose) (inclination : list R) : result (image vec3) :=
  zip (fun incl row => map (fun cr => (azimuth extrinsic (length row) (fst cr), incl, snd cr)) (number row)) inclination range_image.
(** 339-351, from polar coordinates to a point of the sensor frame. *)
Definition sensor_point (polar : vec3) : vec3 :=
  let '(azimuth, inclination, range) := polar in
  (cos azimuth * cos inclination * range, sin azimuth * cos inclination * range, sin inclination * range).
(** 302-385, compute_range_image_cartesian. *)
Definition compute_range_image_cartesian (range_image_polar : image vec3) (extrinsic : pose)
  (pixel_pose : option (image pose)) (frame_pose : option pose) : result (image vec3) :=
  let points := map (map (fun p => apply extrinsic (sensor_point p))) range_image_polar in
  match pixel_pose with
  | None => Ok points
  | Some poses =>
      do global <- zip_image apply poses points;
      match frame_pose with
      | None => Err ValueError
      | Some f => do world_to_vehicle <- inverse f; Ok (map (map (apply world_to_vehicle)) global)
      end
  end.
(** 610-652, extract_point_cloud_from_range_image. *)
Definition extract_point_cloud (range_image : image R) (extrinsic : pose) (inclination : list R)
  (pixel_pose : option (image pose)) (frame_pose : option pose) : result (image vec3) :=
  do polar <- compute_range_image_polar range_image extrinsic inclination;
  compute_range_image_cartesian polar extrinsic pixel_pose frame_pose.

(** tf.round: half to even. *)
Definition round_even (x : R) : Z :=
  let f := Int_part x in
  let r := x - IZR f in
  if rltb r (/ 2) then f else if rltb (/ 2) r then (f + 1)%Z else if Z.even f then f else (f + 1)%Z.
(** tf.argmin: the first of the smallest. *)
Fixpoint argmin_from (best : R) (bi i : nat) (l : list R) : nat :=
  match l with
  | [] => bi
  | x :: l' => if rltb x best then argmin_from x i (S i) l' else argmin_from best bi (S i) l'
  end.
Definition argmin (l : list R) : result nat :=
  match l with [] => Err ValueError | x :: l' => Ok (argmin_from x 0 1 l') end.
Definition norm3 (v : vec3) : R := sqrt (dot3 v v).
(** 529-566, the row, the column and the range of a point given in the vehicle frame. *)
Definition fold_azimuth (az : R) : R :=
  let gt := if rltb PI az then 1 else 0 in
  let lt := if rltb az (- PI) then 1 else 0 in
  az - gt * 2 * PI + lt * 2 * PI.
Definition pixel_of_point (extrinsic : pose) (inclination : list R) (width : nat) (p : vec3) : result (Z * Z * R) :=
  do vehicle_to_laser <- inverse extrinsic;
  let q := apply vehicle_to_laser p in
  let xy_norm := sqrt (X q * X q + Y q * Y q) in
  do row <- argmin (map (fun i => Rabs (atan2 (Z_ q) xy_norm - i)) inclination);
  let az := fold_azimuth (atan2 (Y q) (X q) + az_correction extrinsic) in
  let column := round_even (INR width - 1 + / 2 - (az + PI) / (2 * PI) * INR width) in
  if (0 <=? column)%Z && (column <? Z.of_nat width)%Z then Ok (Z.of_nat row, column, norm3 q) else Err ValueError.
(** tf.math.unsorted_segment_min. *)
Definition pool_minr (l : list R) : R := match l with [] => 0 | x :: l' => fold_left Rmin l' x end.
(** 475-607, build_range_image_from_point_cloud without point features: the image, its rows one after the other.
    The inclinations have [height] entries. [num_point] is the number of points that count. *)
Definition build_range_image (points : list vec3) (num_point : nat) (extrinsic : pose) (inclination : list R) (width : nat)
  : result (list R) :=
  do pixels <- mapM (pixel_of_point extrinsic inclination width) points;
  let pixels := firstn num_point pixels in
  scatter_nd_with_pool 0 Rplus pool_minr (Z.of_nat (length inclination)) (Z.of_nat width) (map fst pixels) (map snd pixels).
(** 699-718, compute_inclination. *)
Definition compute_inclination (low high : R) (height : nat) : list R :=
  map (fun i => (/ 2 + INR i) / INR height * (high - low) + low) (seq 0 height).

(** ** frame_utils.py *)
(** MatrixFloat and MatrixInt32. A field of bytes is None when empty; otherwise the matrix it decodes to. An empty
    field decompresses to the empty message. *)
Record matrix (A : Type) := { data : list A; dims : list nat }.
Arguments data {A}. Arguments dims {A}.
Definition no_matrix {A} : matrix A := {| data := []; dims := [] |}.
Definition decode {A} (field : option (matrix A)) : matrix A := match field with Some m => m | None => no_matrix end.
Record ri_return := { range_image : option (matrix R); range_image_pose : option (matrix R);
                      camera_projection : option (matrix Z); segmentation_label : option (matrix Z) }.
Record laser := { laser_name : Z; ri_return1 : ri_return; ri_return2 : ri_return }.
Record calibration := { calib_name : Z; beam_inclinations : list R; beam_inclination_min : R; beam_inclination_max : R;
                        calib_extrinsic : pose }.
Record frame := { lasers : list laser; laser_calibrations : list calibration; vehicle_pose : pose }.
(** dataset.proto, LaserName.TOP. *)
Definition TOP : Z := 1%Z.

(** Dictionaries. *)
Definition dict (V : Type) : Type := list (Z * V).
Fixpoint get {V} (d : dict V) (k : Z) : option V :=
  match d with [] => None | (k', v) :: d' => if Z.eqb k k' then Some v else get d' k end.
Definition set {V} (d : dict V) (k : Z) (v : V) : dict V := (k, v) :: d.
Definition append_to {V} (d : dict (list V)) (k : Z) (v : V) : result (dict (list V)) :=
  match get d k with Some l => Ok (set d k (l ++ [v])) | None => Err KeyError end.

(** 34-106, parse_range_image_and_camera_projection. *)
Record parsed := { range_images : dict (list (matrix R)); camera_projections : dict (list (matrix Z));
                   seg_labels : dict (list (matrix Z)); range_image_top_pose : matrix R }.
Definition parse_return1 (p : parsed) (l : laser) : parsed :=
  let n := laser_name l in
  match range_image (ri_return1 l) with
  | None => p
  | Some ri =>
      {| range_images := set (range_images p) n [ri];
         camera_projections := set (camera_projections p) n [decode (camera_projection (ri_return1 l))];
         seg_labels := match segmentation_label (ri_return1 l) with Some s => set (seg_labels p) n [s] | None => seg_labels p end;
         range_image_top_pose := if Z.eqb n TOP then decode (range_image_pose (ri_return1 l)) else range_image_top_pose p |}
  end.
Definition parse_return2 (p : parsed) (l : laser) : result parsed :=
  let n := laser_name l in
  match range_image (ri_return2 l) with
  | None => Ok p
  | Some ri =>
      do ims <- append_to (range_images p) n ri;
      do cps <- append_to (camera_projections p) n (decode (camera_projection (ri_return2 l)));
      do labels <- match segmentation_label (ri_return2 l) with
                   | Some s => append_to (seg_labels p) n s
                   | None => Ok (seg_labels p)
                   end;
      Ok {| range_images := ims; camera_projections := cps; seg_labels := labels; range_image_top_pose := range_image_top_pose p |}
  end.
Definition parse_frame (f : frame) : result parsed :=
  foldM (fun p l => parse_return2 (parse_return1 p l) l) (lasers f)
    {| range_images := []; camera_projections := []; seg_labels := []; range_image_top_pose := no_matrix |}.

(** tf.reshape of the numbers to their dimensions. The images here have three; another rank is refused (the code
    refuses it later). *)
Fixpoint split {A} (n k : nat) (l : list A) : list (list A) :=
  match n with O => [] | S n' => firstn k l :: split n' k (skipn k l) end.
Definition tensor {A} (m : matrix A) : result (image (list A)) :=
  match dims m with
  | [h; w; d] => if Nat.eqb (length (data m)) (h * w * d) then Ok (map (split w d) (split h (w * d) (data m))) else Err ValueError
  | _ => Err ValueError
  end.
(** The per-pixel poses (133-143; v2 lidar_utils.py:34-56; womd_lidar_utils.py:86-99): roll, pitch, yaw and translation. *)
Definition pixel_transform (c : list R) : result pose :=
  match c with
  | [roll; pitch; yaw; x; y; z] => Ok (get_transform (get_rotation_matrix roll pitch yaw) (x, y, z))
  | _ => Err ValueError
  end.
Definition pixel_transforms (t : image (list R)) : result (image pose) := mapM (mapM pixel_transform) t.
(** range_image_tensor[..., 0]. *)
Definition channel0 (t : image (list R)) : result (image R) :=
  mapM (mapM (fun c => match c with x :: _ => Ok x | [] => Err IndexError end)) t.
Definition coordinates (p : vec3) : list R := [X p; Y p; Z_ p].
(** 176-181: with the polar features in front or not. *)
Definition with_features (keep : bool) (t : image (list R)) (cartesian : image vec3) : result (image (list R)) :=
  zip_image (fun c p => if keep then firstn 3 c ++ coordinates p else coordinates p) t cartesian.
(** range_images[name][ri_index]. *)
Definition fetch {V} (d : dict (list V)) (k : Z) (ri_index : nat) : result V :=
  match get d k with
  | None => Err KeyError
  | Some l => match nth_error l ri_index with None => Err IndexError | Some v => Ok v end
  end.
(** 145-155: the inclinations of the rows, from the top. *)
Definition row_inclinations (c : calibration) (height : nat) : list R :=
  rev match beam_inclinations c with
      | [] => compute_inclination (beam_inclination_min c) (beam_inclination_max c) height
      | l => l
      end.
(** One lidar of the loop (145-183). *)
Definition lidar_cartesian (f : frame) (top_pose : image pose) (c : calibration) (ri : matrix R) (keep : bool) : result (image (list R)) :=
  do height <- match beam_inclinations c, dims ri with
               | [], [] => Err IndexError
               | [], h :: _ => Ok h
               | _, _ => Ok 0%nat
               end;
  do t <- tensor ri;
  do ranges <- channel0 t;
  do cartesian <- extract_point_cloud ranges (calib_extrinsic c) (row_inclinations c height)
                    (if Z.eqb (calib_name c) TOP then Some top_pose else None)
                    (if Z.eqb (calib_name c) TOP then Some (vehicle_pose f) else None);
  with_features keep t cartesian.
(** 109-185, convert_range_image_to_cartesian. *)
Definition convert_range_image_to_cartesian (f : frame) (images : dict (list (matrix R))) (top_pose : matrix R)
  (ri_index : nat) (keep : bool) : result (dict (image (list R))) :=
  do t <- tensor top_pose;
  do poses <- pixel_transforms t;
  foldM (fun out c =>
    do ri <- fetch images (calib_name c) ri_index;
    do cartesian <- lidar_cartesian f poses c ri keep;
    Ok (set out (calib_name c) cartesian)) (laser_calibrations f) [].

(** tf.where of a mask and tf.gather_nd of its positions; an index outside the tensor is an error. *)
Definition where_positive (ranges : image R) : list (nat * nat) :=
  concat (map (fun rr => map (fun cx => (fst rr, fst cx)) (filter (fun cx => rltb 0 (snd cx)) (number (snd rr)))) (number ranges)).
Definition gather {A} (t : image A) (index : list (nat * nat)) : result (list A) :=
  mapM (fun rc => match nth_error t (fst rc) with
                  | None => Err IndexError
                  | Some row => match nth_error row (snd rc) with None => Err IndexError | Some x => Ok x end
                  end) index.
(** sorted(calibrations, key=name): stable. *)
Fixpoint insert (c : calibration) (l : list calibration) : list calibration :=
  match l with
  | [] => [c]
  | d :: l' => if Z.leb (calib_name c) (calib_name d) then c :: l else d :: insert c l'
  end.
Definition sort (l : list calibration) : list calibration := fold_right insert [] l.
(** 188-244, convert_range_image_to_point_cloud. *)
Definition convert_range_image_to_point_cloud (f : frame) (images : dict (list (matrix R))) (projections : dict (list (matrix Z)))
  (top_pose : matrix R) (ri_index : nat) (keep : bool) : result (list (list (list R)) * list (list (list Z))) :=
  do cartesian <- convert_range_image_to_cartesian f images top_pose ri_index keep;
  do out <- mapM (fun c =>
      do ri <- fetch images (calib_name c) ri_index;
      do t <- tensor ri;
      do ranges <- channel0 t;
      do image <- match get cartesian (calib_name c) with Some i => Ok i | None => Err KeyError end;
      do points <- gather image (where_positive ranges);
      do cp <- fetch projections (calib_name c) ri_index;
      do cp_tensor <- tensor cp;
      do cp_points <- gather cp_tensor (where_positive ranges);
      Ok (points, cp_points)) (sort (laser_calibrations f));
  Ok (map fst out, map snd out).

(** The lidar part of convert_frame_to_dict (247-365): for each lidar the entries BEAM_INCLINATION, LIDAR_EXTRINSIC,
    RANGE_IMAGE_FIRST_RETURN, RANGE_IMAGE_SECOND_RETURN, CAM_PROJ_FIRST_RETURN and CAM_PROJ_SECOND_RETURN. *)
Record lidar_entries := { BEAM_INCLINATION : list R; LIDAR_EXTRINSIC : pose;
                          RANGE_IMAGE_FIRST_RETURN : image (list R); RANGE_IMAGE_SECOND_RETURN : image (list R);
                          CAM_PROJ_FIRST_RETURN : image (list Z); CAM_PROJ_SECOND_RETURN : image (list Z) }.
Definition of_key {V} (d : dict V) (k : Z) : result V := match get d k with Some v => Ok v | None => Err KeyError end.
Definition lidar_dict (f : frame) : result (dict lidar_entries) :=
  do p <- parse_frame f;
  do first <- convert_range_image_to_cartesian f (range_images p) (range_image_top_pose p) 0 true;
  do second <- convert_range_image_to_cartesian f (range_images p) (range_image_top_pose p) 1 true;
  foldM (fun out c =>
    let n := calib_name c in
    do inclinations <- match beam_inclinations c with
                       | [] => do ri <- fetch (range_images p) n 0;
                               match dims ri with
                               | [] => Err IndexError
                               | h :: _ => Ok (compute_inclination (beam_inclination_min c) (beam_inclination_max c) h)
                               end
                       | l => Ok l
                       end;
    do image1 <- of_key first n;
    do image2 <- of_key second n;
    do cp1 <- fetch (camera_projections p) n 0;
    do cp1 <- tensor cp1;
    do cp2 <- fetch (camera_projections p) n 1;
    do cp2 <- tensor cp2;
    Ok (set out n {| BEAM_INCLINATION := inclinations; LIDAR_EXTRINSIC := calib_extrinsic c;
                     RANGE_IMAGE_FIRST_RETURN := image1; RANGE_IMAGE_SECOND_RETURN := image2;
                     CAM_PROJ_FIRST_RETURN := cp1; CAM_PROJ_SECOND_RETURN := cp2 |})) (laser_calibrations f) [].

(** ** v2/perception/utils/lidar_utils.py *)
(** v2/perception/context.py:85-98, BeamInclination, and compat_v1/context.py:63-92, which fills it. *)
Record calibration_v2 := { values : option (list R); v2_min : R; v2_max : R; v2_extrinsic : pose }.
Definition calibration_component (c : calibration) : calibration_v2 :=
  {| values := match beam_inclinations c with [] => None | l => Some l end;
     v2_min := beam_inclination_min c; v2_max := beam_inclination_max c; v2_extrinsic := calib_extrinsic c |}.
(** 204-237, parse_range_image: None for an empty field. *)
Definition parse_range_image {A} (field : option (matrix A)) : option (matrix A) := field.
(** 59-134, convert_range_image_to_cartesian. *)
Definition v2_cartesian (ri : matrix R) (c : calibration_v2) (pixel_pose : option (matrix R)) (frame_pose : option pose) (keep : bool)
  : result (image (list R)) :=
  do _ <- match pixel_pose, frame_pose with Some _, None => Err AssertionError | _, _ => Ok tt end;
  do t <- tensor ri;
  let inclination := rev match values c with
                         | Some l => l
                         | None => compute_inclination (v2_min c) (v2_max c) (length t)
                         end in
  do poses <- match pixel_pose, frame_pose with
              | Some pp, Some _ => do p <- tensor pp; do q <- pixel_transforms p; Ok (Some q)
              | _, _ => Ok None
              end;
  do ranges <- channel0 t;
  do cartesian <- extract_point_cloud ranges (v2_extrinsic c) inclination poses
                    (match poses with Some _ => frame_pose | None => None end);
  with_features keep t cartesian.
(** 137-176, convert_range_image_to_point_cloud. *)
Definition v2_point_cloud (ri : matrix R) (c : calibration_v2) (pixel_pose : option (matrix R)) (frame_pose : option pose) (keep : bool)
  : result (list (list R)) :=
  do cartesian <- v2_cartesian ri c pixel_pose frame_pose keep;
  do t <- tensor ri;
  do ranges <- channel0 t;
  gather cartesian (where_positive ranges).
(** 179-201, extract_pointwise_camera_projection. *)
Definition v2_camera_projection (ri : matrix R) (cp : matrix Z) : result (list (list Z)) :=
  do t <- tensor ri;
  do ranges <- channel0 t;
  do cp_tensor <- tensor cp;
  gather cp_tensor (where_positive ranges).
(** 248-255, get_laser_by_name. *)
Fixpoint get_laser_by_name (l : list laser) (n : Z) : result laser :=
  match l with [] => Err ValueError | x :: l' => if Z.eqb (laser_name x) n then Ok x else get_laser_by_name l' n end.

(** ** womd_lidar_utils.py *)
(** A return of a CompressedLaser, after delta_encoder.decompress (compression/delta_encoder.py), whose results are arrays
    of three dimensions. *)
Record womd_return := { womd_image : image (list R); womd_pose : image (list R) }.
(** One pass of the loops (104-141 and 170-209): points and features. *)
Definition womd_points (t : image (list R)) (c : calibration) (inclinations : list R) (pixel_pose : option (image pose))
  (frame_pose : option pose) : result (list vec3 * list (list R)) :=
  do ranges <- channel0 t;
  do cartesian <- extract_point_cloud ranges (calib_extrinsic c) inclinations pixel_pose frame_pose;
  do xyz <- gather cartesian (where_positive ranges);
  do features <- gather (map (map (firstn 3)) t) (where_positive ranges);
  Ok (xyz, features).
(** 66-148, extract_top_lidar_points. Without listed inclinations it asks the decompressed array, a numpy array, for
    [dims], which it does not have (115-120): AttributeError, here RuntimeError. *)
Definition extract_top_lidar_points (ri1 ri2 : womd_return) (frame_pose : pose) (c : calibration)
  : result (list vec3 * list (list R) * list vec3 * list (list R)) :=
  do poses <- pixel_transforms (womd_pose ri1);
  let one (ri : womd_return) :=
    do inclinations <- match beam_inclinations c with [] => Err RuntimeError | l => Ok (rev l) end;
    womd_points (womd_image ri) c inclinations (Some poses) (Some frame_pose) in
  do a <- one ri1;
  do b <- one ri2;
  Ok (fst a, snd a, fst b, snd b).
(** 151-216, extract_side_lidar_points. *)
Definition extract_side_lidar_points (ri1 ri2 : womd_return) (c : calibration)
  : result (list vec3 * list (list R) * list vec3 * list (list R)) :=
  let one (ri : womd_return) := womd_points (womd_image ri) c (row_inclinations c (length (womd_image ri))) None None in
  do a <- one ri1;
  do b <- one ri2;
  Ok (fst a, snd a, fst b, snd b).

(** 41-63, augment_womd_scenario_with_lidar_points, and womd_camera_utils.py:22-40, add_camera_tokens_to_scenario. The fields
    of the scenario other than these two are [motion]. CopyFrom copies, so the argument is not changed. *)
Record scenario (M L T : Type) := { motion : M; compressed_frame_laser_data : list L; frame_camera_tokens : list T }.
Arguments motion {M L T}. Arguments compressed_frame_laser_data {M L T}. Arguments frame_camera_tokens {M L T}.
Definition augment_with_lidar {M L T} (s d : scenario M L T) : scenario M L T :=
  {| motion := motion s; compressed_frame_laser_data := compressed_frame_laser_data s ++ compressed_frame_laser_data d;
     frame_camera_tokens := frame_camera_tokens s |}.
Definition add_camera_tokens {M L T} (s d : scenario M L T) : scenario M L T :=
  {| motion := motion s; compressed_frame_laser_data := compressed_frame_laser_data s;
     frame_camera_tokens := frame_camera_tokens s ++ frame_camera_tokens d |}.
(** womd_camera_utils.py:43-60, get_camera_embedding_from_codebook: numpy refuses the minimum of no tokens. *)
Definition get_camera_embedding {E} (codebook : list E) (input_tokens : list Z) : result (list E) :=
  let max_index := (Z.of_nat (length codebook) - 1)%Z in
  match input_tokens with
  | [] => Err ValueError
  | t :: l =>
      if (fold_left Z.min l t <? 0)%Z || (max_index <? fold_left Z.max l t)%Z then Err ValueError
      else mapM (fun k => match nth_error codebook (Z.to_nat k) with Some v => Ok v | None => Err IndexError end) input_tokens
  end.
