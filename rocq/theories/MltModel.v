(** Point clouds in three tutorials: /repo/tutorial/tutorial_maps.ipynb (M below), /repo/tutorial/tutorial_womd_lidar.ipynb (W below) and
    /repo/tutorial/tutorial.ipynb (T below; the same lines are in tutorial_local.ipynb). Lines are those of the notebook files.
    Numbers are rationals, without rounding of floats. Reading files and drawing are not modelled. *)
From Coq Require Import QArith.
From Verif Require Import Base ResultLib.
Open Scope list_scope.

(** A frame of M: the pose as stored, the map offset, and the result of convert_range_image_to_point_cloud with keep_polar_features:
    for each laser, by name, rows of range, intensity, elongation, x, y, z (/repo/src/waymo_open_dataset/utils/frame_utils.py 172-177). *)
Record map_frame := MapFrame { f_pose : list Q; f_offset : Q * Q * Q; f_points : list (list (list Q)) }.
(** M 92-95: one row of the transform applied to a homogeneous point. *)
Definition transform_row (pose : list Q) (k : nat) (x y z : Q) : Q :=
  (nth (4 * k) pose 0 * x + nth (4 * k + 1) pose 0 * y + nth (4 * k + 2) pose 0 * z + nth (4 * k + 3) pose 0 * 1)%Q.
(** M 89, 92-104: a point of the plot and its colour; [:, 3:] must leave three columns to match the transform (ValueError). *)
Definition plot_point (pose : list Q) (offset : Q * Q * Q) (row : list Q) : result (Q * Q * Q * Q) :=
  let '(ox, oy, oz) := offset in
  match skipn 3 row with
  | [x; y; z] =>
      let intensity := nth 0 row 0%Q in
      Ok (transform_row pose 0 x y z + ox, transform_row pose 1 x y z + oy, transform_row pose 2 x y z + oz, intensity)%Q
  | _ => Err ValueError
  end.
(** M 75-118: one trace for each frame, of points[0]; a pose that does not have sixteen values cannot be reshaped. *)
Definition plot_frame (f : map_frame) : result (list (Q * Q * Q * Q)) :=
  match f_points f with
  | [] => Err IndexError
  | points0 :: _ => if (List.length (f_pose f) =? 16)%nat then mapM (plot_point (f_pose f) (f_offset f)) points0 else Err ValueError
  end.
(** M 61-120: plot_point_clouds_with_maps, without the map features. *)
Definition plot_point_clouds_with_maps (frames : list map_frame) : result (list (list (Q * Q * Q * Q))) := mapM plot_frame frames.
(** M 158-165: the frames loaded. *)
Fixpoint load_frames {A} (dataset : list A) (frames : list A) (count : nat) : list A :=
  match dataset with
  | [] => frames
  | d :: dataset' => if (count + 1 =? 2)%nat then frames ++ [d] else load_frames dataset' (frames ++ [d]) (count + 1)
  end.

(** A frame of W: pose [P], lasers by name with payload [D], calibrations by name. *)
Record laser_frame (P D C : Type) := LaserFrame { l_pose : P; l_lasers : list (Z * D); l_calibrations : list (Z * C) }.
Arguments LaserFrame {P D C}. Arguments l_pose {P D C}. Arguments l_lasers {P D C}. Arguments l_calibrations {P D C}.
(** dataset_pb2.LaserName.TOP. *)
Definition TOP : Z := 1.
(** W 119-125: _get_laser_calib. *)
Fixpoint get_laser_calib {C} (calibrations : list (Z * C)) (laser_name : Z) : option C :=
  match calibrations with [] => None | (n, c) :: l => if (n =? laser_name)%Z then Some c else get_laser_calib l laser_name end.
(** W 135-151: points and features of the lasers of one frame; [top] and [side] are extract_top_lidar_points and extract_side_lidar_points,
    which give points and features of the first and of the second return. *)
Fixpoint lasers_loop {P D C X F} (top : D -> P -> option C -> result (list X * list F * list X * list F)) (side : D -> option C -> result (list X * list F * list X * list F))
    (frame_pose : P) (calibrations : list (Z * C)) (lasers : list (Z * D)) (xyz : list (list X)) (features : list (list F)) : result (list (list X) * list (list F)) :=
  match lasers with
  | [] => Ok (xyz, features)
  | (name, d) :: lasers' =>
      let c := get_laser_calib calibrations name in
      do r <- (if (name =? TOP)%Z then top d frame_pose c else side d c);
      let '(x1, f1, x2, f2) := r in
      lasers_loop top side frame_pose calibrations lasers' (xyz ++ [x1] ++ [x2]) (features ++ [f1] ++ [f2])
  end.
(** np.concatenate needs at least one array. *)
Definition concatenate {A} (l : list (list A)) : result (list A) := match l with [] => Err ValueError | _ => Ok (concat l) end.
(** W 129-154: the frames, with their counter; the pose is looked up by the counter. *)
Fixpoint frames_loop {P D C X F} (top : D -> P -> option C -> result (list X * list F * list X * list F)) (side : D -> option C -> result (list X * list F * list X * list F))
    (all : list (laser_frame P D C)) (frame_i : nat) (frames : list (laser_frame P D C)) : result (list (list X * list F)) :=
  match frames with
  | [] => Ok []
  | f :: frames' =>
      do g <- match nth_error all frame_i with Some g => Ok g | None => Err IndexError end;
      do r <- lasers_loop top side (l_pose g) (l_calibrations f) (l_lasers f) [] [];
      do x <- concatenate (fst r);
      do y <- concatenate (snd r);
      do rest <- frames_loop top side all (frame_i + 1) frames';
      Ok ((x, y) :: rest)
  end.
Definition extract_all {P D C X F} (top : D -> P -> option C -> result (list X * list F * list X * list F)) (side : D -> option C -> result (list X * list F * list X * list F))
    (all : list (laser_frame P D C)) : result (list (list X * list F)) := frames_loop top side all 0 all.

(** T 397: the first image after sorting by name. *)
Definition first_name (names : list Z) : result Z := match names with [] => Err IndexError | n :: l => Ok (fold_left Z.min l n) end.
(** T 405: the mask. A projection is its list of values, camera first; [gather] are the elements at the places of the mask. *)
Fixpoint gather {A} (mask : list bool) (l : list A) : list A :=
  match mask, l with b :: mask', a :: l' => if b then a :: gather mask' l' else gather mask' l' | _, _ => [] end.
(** T 397-412: columns 1 and 2 of the projections of the first camera, with the norm of the point. *)
Definition projected_points {P} (norm : P -> Q) (names : list Z) (cp_points_all : list (list Z)) (points_all : list P) : result (list (list Q)) :=
  do name <- first_name names;
  if (List.length cp_points_all =? List.length points_all)%nat then
    let mask := map (fun cp => (nth 0 cp 0 =? name)%Z) cp_points_all in
    Ok (map (fun cr => map inject_Z (firstn 2 (skipn 1 (fst cr))) ++ [snd cr]) (combine (gather mask cp_points_all) (gather mask (map norm points_all))))
  else Err ValueError.
