(** Lidar range images and points, independently of how the conversions compute them. *)
From Coq Require Import Reals List ZArith.
From Verif Require Import Base FrameModel FrameSpec LidModel.
Import ListNotations.
Open Scope R_scope.

(** ** Pixels *)
Definition pixel_at {A} (t : list (list A)) (r c : nat) : option A :=
  match nth_error t r with Some row => nth_error row c | None => None end.
Definition same_shape {A B} (a : list (list A)) (b : list (list B)) : Prop :=
  Forall2 (fun x y => length x = length y) a b.
Definition rectangle {A} (w : nat) (t : list (list A)) : Prop := Forall (fun row => length row = w) t.
(** The channels of a pixel of an image stored row by row, pixel by pixel. *)
Definition well_formed {A} (m : matrix A) (h w d : nat) : Prop := dims m = [h; w; d] /\ length (data m) = (h * w * d)%nat.
Definition channels {A} (m : matrix A) (r c : nat) (v : list A) : Prop :=
  exists h w d, well_formed m h w d /\ (r < h)%nat /\ (c < w)%nat /\ length v = d /\
    forall k, (k < d)%nat -> nth_error v k = nth_error (data m) ((r * w + c) * d + k).

(** ** Beams: column [c] of [w] looks at this bearing, counter-clockwise from straight ahead; the first column looks
    almost straight behind, and the columns turn clockwise. *)
Definition bearing (w c : nat) : R := PI - (2 * INR c + 1) * PI / INR w.
Definition direction (bearing inclination : R) : vec3 :=
  (cos bearing * cos inclination, sin bearing * cos inclination, sin inclination).
Definition times (s : R) (v : vec3) : vec3 := let '(x, y, z) := v in (s * x, s * y, s * z).
(** The x axis of the sensor, seen from above the vehicle, points to the bearing [psi]; or it is vertical. *)
Definition faces (e : pose) (psi : R) : Prop :=
  exists rho, 0 < rho /\ X (r0 (rotation e)) = rho * cos psi /\ X (r1 (rotation e)) = rho * sin psi.
Definition faces_up_or_down (e : pose) : Prop := X (r0 (rotation e)) = 0 /\ X (r1 (rotation e)) = 0.
Definition mounted (e : pose) (psi : R) : Prop := faces e psi \/ (faces_up_or_down e /\ psi = 0).
(** The point of a beam of length [x], in the sensor frame and in the vehicle frame. *)
Definition beam (psi : R) (w c : nat) (inclination x : R) : vec3 := times x (direction (bearing w c - psi) inclination).
Definition beam_end (e : pose) (psi : R) (w c : nat) (inclination x : R) : vec3 := world e (beam psi w c inclination x).
Definition square_distance (a b : vec3) : R := (X a - X b) * (X a - X b) + (Y a - Y b) * (Y a - Y b) + (Z_ a - Z_ b) * (Z_ a - Z_ b).

(** The angle of a vector of the plane, and of no vector at all. *)
Definition has_angle (x y a : R) : Prop :=
  - PI < a <= PI /\ ((exists rho, 0 < rho /\ x = rho * cos a /\ y = rho * sin a) \/ (x = 0 /\ y = 0 /\ a = 0)).

(** [i] is the first of the entries of [l] that are closest to [x]. *)
Definition first_closest (l : list R) (x : R) (i : nat) : Prop :=
  exists y, nth_error l i = Some y /\ (forall j z, nth_error l j = Some z -> Rabs (x - y) <= Rabs (x - z)) /\
    (forall j z, (j < i)%nat -> nth_error l j = Some z -> Rabs (x - y) < Rabs (x - z)).

(** ** Pixels with a return, in the order of the rows. *)
Definition hit (ranges : list (list R)) (r c : nat) : Prop := exists x, pixel_at ranges r c = Some x /\ 0 < x.
Definition earlier (a b : nat * nat) : Prop := (fst a < fst b)%nat \/ (fst a = fst b /\ (snd a < snd b)%nat).
Definition all_hits (ranges : list (list R)) (l : list (nat * nat)) : Prop :=
  (forall r c, In (r, c) l <-> hit ranges r c) /\
  (forall i j a b, (i < j)%nat -> nth_error l i = Some a -> nth_error l j = Some b -> earlier a b).

(** ** Frames *)
(** The returns of a lidar, as the documentation of the parsed dictionaries describes them. *)
Definition returns {A} (field : ri_return -> option (matrix A)) (l : laser) : list (matrix A) :=
  match range_image (ri_return1 l) with
  | None => []
  | Some _ =>
      match field (ri_return1 l) with Some m => [m] | None => [] end ++
      match range_image (ri_return2 l) with
      | None => []
      | Some _ => match field (ri_return2 l) with Some m => [m] | None => [] end
      end
  end.
(** The second return, and its labels, come with the first. *)
Definition in_sequence (l : laser) : Prop :=
  range_image (ri_return2 l) <> None ->
  range_image (ri_return1 l) <> None /\ (segmentation_label (ri_return2 l) <> None -> segmentation_label (ri_return1 l) <> None).
Definition distinct_lasers (f : frame) : Prop := NoDup (map laser_name (lasers f)).
Definition distinct_calibrations (f : frame) : Prop := NoDup (map calib_name (laser_calibrations f)).
Definition ordered (l : list calibration) : Prop :=
  forall i j a b, (i < j)%nat -> nth_error l i = Some a -> nth_error l j = Some b -> (calib_name a <= calib_name b)%Z.
(** The inclination of a row: the list is from the lowest beam, the rows from the highest. *)
Definition row_inclination (c : calibration) (height r : nat) (i : R) : Prop :=
  match beam_inclinations c with
  | [] => i = beam_inclination_max c - (INR r + / 2) * (beam_inclination_max c - beam_inclination_min c) / INR height
  | l => exists k, (r + k + 1 = length l)%nat /\ nth_error l k = Some i
  end.
(** The pose of the vehicle when a pixel was measured: roll, pitch and yaw, turned about x, then y, then z. *)
Definition turn_z (a : R) (p : vec3) : vec3 := let '(x, y, z) := p in (x * cos a - y * sin a, x * sin a + y * cos a, z).
Definition turn_y (a : R) (p : vec3) : vec3 := let '(x, y, z) := p in (x * cos a + z * sin a, y, - x * sin a + z * cos a).
Definition turn_x (a : R) (p : vec3) : vec3 := let '(x, y, z) := p in (x, y * cos a - z * sin a, y * sin a + z * cos a).
Definition moved (v : list R) (p q : vec3) : Prop :=
  exists roll pitch yaw x y z, v = [roll; pitch; yaw; x; y; z] /\
    q = (let '(a, b, c) := turn_z yaw (turn_y pitch (turn_x roll p)) in (a + x, b + y, c + z)).

(** ** From points to pixels *)
(** [q] is the point [p] of the vehicle in the frame of the sensor. *)
Definition sensed (e : pose) (p q : vec3) : Prop := world e q = p.
Definition inclination_of (q : vec3) (b : R) : Prop := has_angle (sqrt (X q * X q + Y q * Y q)) (Z_ q) b.
Definition azimuth_of (q : vec3) (a : R) : Prop := has_angle (X q) (Y q) a.
Definition facing (e : pose) (psi : R) : Prop := has_angle (X (r0 (rotation e))) (X (r1 (rotation e))) psi.
(** The bearing of a column is within half a column of the bearing [b], up to whole turns. *)
Definition in_column (w : nat) (b : R) (c : nat) : Prop := exists k, Rabs (b - bearing w c - IZR k * (2 * PI)) <= PI / INR w.
(** The entry of an image, its rows one after the other, is the range of the nearest of the counted points there, or 0. *)
Definition nearest_or_zero (pixels : list (Z * Z * R)) (rc : Z * Z) (x : R) : Prop :=
  (x = 0 /\ forall d, ~ In (rc, d) pixels) \/ (In (rc, x) pixels /\ forall d, In (rc, d) pixels -> x <= d).

(** ** What a frame says about a pixel of a lidar *)
Definition lidar_pixel (f : frame) (top_pose : matrix R) (c : calibration) (ri : matrix R) (keep : bool) (r col : nat) (out : list R) : Prop :=
  exists h w d v x i psi p,
    well_formed ri h w d /\ channels ri r col v /\ hd_error v = Some x /\ row_inclination c h r i /\ mounted (calib_extrinsic c) psi /\
    (if Z.eqb (calib_name c) TOP
     then exists tv, channels top_pose r col tv /\ moved tv (beam_end (calib_extrinsic c) psi w col i x) (world (vehicle_pose f) p)
     else p = beam_end (calib_extrinsic c) psi w col i x) /\
    out = (if keep then firstn 3 v else []) ++ [X p; Y p; Z_ p].
Definition lidar_hit (ri : matrix R) (r c : nat) : Prop := exists v x, channels ri r c v /\ hd_error v = Some x /\ 0 < x.
Definition hits_of (ri : matrix R) (l : list (nat * nat)) : Prop :=
  (forall r c, In (r, c) l <-> lidar_hit ri r c) /\
  (forall i j a b, (i < j)%nat -> nth_error l i = Some a -> nth_error l j = Some b -> earlier a b).
(** The inputs of the conversion of a lidar fit together. *)
Definition fits (f : frame) (top_pose : matrix R) (c : calibration) (ri : matrix R) : Prop :=
  exists h w d, well_formed ri h w d /\ ((0 < h)%nat -> (0 < w)%nat -> (0 < d)%nat) /\
    match beam_inclinations c with [] => True | l => length l = h end /\
    (calib_name c = TOP -> (exists w' d', well_formed top_pose h w' d' /\ ((0 < h)%nat -> w' = w)) /\ ~ singular (rotation (vehicle_pose f))).
Definition pose_image (m : matrix R) : Prop := exists h w d, well_formed m h w d /\ ((0 < h)%nat -> (0 < w)%nat -> d = 6%nat).
Definition covers (cp : matrix Z) (ri : matrix R) : Prop :=
  (exists h w d, well_formed cp h w d) /\ forall r c, lidar_hit ri r c -> exists v, channels cp r c v.
Definition laser_of (f : frame) (n : Z) (l : laser) : Prop := In l (lasers f) /\ laser_name l = n.
Definition projections (l : laser) : list (matrix Z) := returns (fun r => Some (decode (camera_projection r))) l.
(** The poses of the vehicle for the pixels of the top lidar come with its first return. *)
Definition top_poses (f : frame) (m : matrix R) : Prop :=
  exists l, laser_of f TOP l /\ range_image (ri_return1 l) <> None /\ range_image_pose (ri_return1 l) = Some m.
(** Return [k] of the lidar [n], and what it shows of the cameras. *)
Definition image_of (f : frame) (k : nat) (n : Z) (ri : matrix R) : Prop :=
  exists l, laser_of f n l /\ nth_error (returns range_image l) k = Some ri.
Definition projection_of (f : frame) (k : nat) (n : Z) (cp : matrix Z) : Prop :=
  exists l, laser_of f n l /\ nth_error (projections l) k = Some cp.
(** The image of the coordinates of a lidar. *)
Definition cartesian_image (f : frame) (top : matrix R) (c : calibration) (ri : matrix R) (keep : bool) (img : list (list (list R))) : Prop :=
  (forall r col, (exists out, pixel_at img r col = Some out) <-> exists v, channels ri r col v) /\
  forall r col out, pixel_at img r col = Some out -> lidar_pixel f top c ri keep r col out.
(** The points of a lidar and their camera projections, hit by hit. *)
Definition lidar_cloud (f : frame) (top : matrix R) (c : calibration) (ri : matrix R) (cp : matrix Z) (keep : bool)
  (pts : list (list R)) (cps : list (list Z)) : Prop :=
  exists hits, hits_of ri hits /\
    Forall2 (fun rc v => lidar_pixel f top c ri keep (fst rc) (snd rc) v) hits pts /\
    Forall2 (fun rc v => channels cp (fst rc) (snd rc) v) hits cps.
(** The entries of a lidar in the dictionary of a frame. The inclinations are from the lowest beam, the rows from the highest. *)
Definition shows (t : list (list (list Z))) (cp : matrix Z) : Prop := forall r col v, pixel_at t r col = Some v <-> channels cp r col v.
Definition lidar_entry (f : frame) (top : matrix R) (c : calibration) (ri1 ri2 : matrix R) (cp1 cp2 : matrix Z) (e : lidar_entries) : Prop :=
  LIDAR_EXTRINSIC e = calib_extrinsic c /\
  cartesian_image f top c ri1 true (RANGE_IMAGE_FIRST_RETURN e) /\ cartesian_image f top c ri2 true (RANGE_IMAGE_SECOND_RETURN e) /\
  shows (CAM_PROJ_FIRST_RETURN e) cp1 /\ shows (CAM_PROJ_SECOND_RETURN e) cp2 /\
  exists h w d, well_formed ri1 h w d /\ length (BEAM_INCLINATION e) = h /\
    forall r k i, (r + k + 1 = h)%nat -> nth_error (BEAM_INCLINATION e) k = Some i <-> row_inclination c h r i.
Definition an_image {A} (m : matrix A) : Prop := exists h w d, well_formed m h w d.
(** ** Other tools *)
(** A lidar of the second version of the data with the poses it needs: only the top lidar has them. *)
Definition needs {A} (c : calibration) (x : A) : option A := if Z.eqb (calib_name c) TOP then Some x else None.
(** Each point with its features in front. *)
Definition joined (features : list (list R)) (xyz : list vec3) (points : list (list R)) : Prop :=
  length features = length xyz /\ length points = length xyz /\
  forall i ft p, nth_error features i = Some ft -> nth_error xyz i = Some p -> nth_error points i = Some (ft ++ [X p; Y p; Z_ p]).
Definition in_codebook {E} (codebook : list E) (t : Z) : Prop := (0 <= t < Z.of_nat (length codebook))%Z.
