(** The 3D semantic segmentation tutorial: labels of points, indices of points, the dummy submission and the choice of its frames:
    /repo/tutorial/tutorial_3d_semseg.ipynb (lines of the notebook file).
    Range images are given by the range of each pixel, as rows of equal length; label images by the pair (instance, class) of each
    pixel. Ranges are rational numbers instead of floats. Compression and the fields of the submission that are typed in by hand
    are not modelled. *)
From Coq Require Import QArith String.
From Verif Require Import Base ResultLib.
Open Scope list_scope.

Definition image (A : Type) : Type := list (list A).
Definition label : Type := Z * Z.
(** Dictionaries from lasers to the images of the two returns. *)
Definition per_laser (A : Type) : Type := list (Z * list A).
Definition entry {A} (d : per_laser A) (laser : Z) : option (list A) :=
  match find (fun p => (fst p =? laser)%Z) d with Some p => Some (snd p) | None => None end.
(** 249-252 and 433-435: range_images[laser][ri_index]. *)
Definition image_at {A} (d : per_laser A) (laser : Z) (ri_index : nat) : result A :=
  match entry d laser with
  | None => Err KeyError
  | Some l => match nth_error l ri_index with None => Err IndexError | Some a => Ok a end
  end.
Definition positive (r : Q) : bool := negb (Qle_bool r 0).
(** tf.where and np.where of the mask, row by row. *)
Fixpoint where_row (row : list Q) (r c : nat) : list (nat * nat) :=
  match row with [] => [] | v :: row' => (if positive v then [(r, c)] else []) ++ where_row row' r (S c) end.
Fixpoint where_image (rows : image Q) (r : nat) : list (nat * nat) :=
  match rows with [] => [] | row :: rows' => where_row row r 0 ++ where_image rows' (S r) end.
(** tf.gather_nd; an index outside is an error. *)
Definition pixel {A} (im : image A) (p : nat * nat) : option A :=
  match nth_error im (fst p) with None => None | Some row => nth_error row (snd p) end.
Definition gather_nd {A} (im : image A) (ps : list (nat * nat)) : result (list A) :=
  mapM (fun p => match pixel im p with None => Err ValueError | Some a => Ok a end) ps.

(** 247: sorted by name. *)
Fixpoint insert (c : Z) (l : list Z) : list Z :=
  match l with [] => [c] | d :: l' => if (c <=? d)%Z then c :: l else d :: insert c l' end.
Definition sorted_names (l : list Z) : list Z := fold_right insert [] l.
(** 249-262: the labels of the points of one laser. *)
Definition laser_labels (range_images : per_laser (image Q)) (segmentation_labels : per_laser (image label)) (ri_index : nat) (laser : Z)
    : result (list label) :=
  do im <- image_at range_images laser ri_index;
  let ps := where_image im 0 in
  match entry segmentation_labels laser with
  | Some _ => do sl <- image_at segmentation_labels laser ri_index; gather_nd sl ps
  | None => Ok (repeat (0, 0)%Z (List.length ps))
  end.
(** 229-264: convert_range_image_to_point_cloud_labels. *)
Definition point_labels (calibrations : list Z) (range_images : per_laser (image Q)) (segmentation_labels : per_laser (image label)) (ri_index : nat)
    : result (list (list label)) :=
  mapM (laser_labels range_images segmentation_labels ri_index) (sorted_names calibrations).

(** 403-404. *)
Definition TOP_LIDAR_ROW_NUM : nat := 64.
Definition TOP_LIDAR_COL_NUM : nat := Z.to_nat 2650.
Definition TOP : Z := 1.
(** 429-438: col_row_inds_top[np.where(mask)]; the grid holds (column, row) at each place. *)
Definition grid_lookup (rows cols : nat) (p : nat * nat) : result (nat * nat) :=
  if (fst p <? rows)%nat && (snd p <? cols)%nat then Ok (snd p, fst p) else Err IndexError.
(** 415-438: get_range_image_point_indexing. *)
Definition point_indexing (rows cols : nat) (range_images : per_laser (image Q)) (ri_index : nat) : result (list (nat * nat)) :=
  do im <- image_at range_images TOP ri_index;
  mapM (grid_lookup rows cols) (where_image im 0).
Definition get_range_image_point_indexing : per_laser (image Q) -> nat -> result (list (nat * nat)) :=
  point_indexing TOP_LIDAR_ROW_NUM TOP_LIDAR_COL_NUM.
(** 467-474: zeros, with the class assigned at [row, column, 1] for all indices. *)
Definition hit (idx : list (nat * nat)) (r c : nat) : bool := existsb (fun p => (fst p =? c)%nat && (snd p =? r)%nat) idx.
Definition assign (rows cols : nat) (idx : list (nat * nat)) (cls : Z) : image label :=
  map (fun r => map (fun c => (0%Z, if hit idx r c then cls else 0%Z)) (seq 0 cols)) (seq 0 rows).
(** 449-486: the two label images of dummy_semseg_for_one_frame. *)
Definition dummy_images (rows cols : nat) (range_images : per_laser (image Q)) (dummy_class : Z) : result (image label * image label) :=
  do i1 <- point_indexing rows cols range_images 0;
  do i2 <- point_indexing rows cols range_images 1;
  Ok (assign rows cols i1 dummy_class, assign rows cols i2 dummy_class).
Definition dummy_semseg_for_one_frame : per_laser (image Q) -> Z -> result (image label * image label) :=
  dummy_images TOP_LIDAR_ROW_NUM TOP_LIDAR_COL_NUM.

(** A frame: its name and time, and for each of its lasers the name and whether there are labels of the first return. *)
Record frame := Frame { context_name : string; timestamp : string; lasers : list (Z * bool) }.
(** 510-516: the frames of the validation set that are submitted. *)
Fixpoint validation_frames (frames : list frame) : result (list frame) :=
  match frames with
  | [] => Ok []
  | f :: frames' =>
      match lasers f with
      | [] => Err IndexError
      | (_, labelled) :: _ => do fs <- validation_frames frames'; Ok (if labelled then f :: fs else fs)
      end
  end.
(** Python values: strings, tuples and lists. A tuple never equals a list. *)
Inductive pyval := PyStr (s : string) | PyTuple (l : list string) | PyList (l : list string).
Fixpoint strings_eq (a b : list string) : bool :=
  match a, b with [], [] => true | x :: a', y :: b' => String.eqb x y && strings_eq a' b' | _, _ => false end.
Definition py_eq (a b : pyval) : bool :=
  match a, b with
  | PyStr x, PyStr y => String.eqb x y
  | PyTuple x, PyTuple y | PyList x, PyList y => strings_eq x y
  | _, _ => false
  end.
(** 591-592: context_name_timestamp_tuples. str.split gives a list. *)
Definition wanted (lines : list (list string)) : list pyval := map PyList lines.
(** 598-607: the frames of the test set that are submitted. *)
Definition test_frames (lines : list (list string)) (frames : list frame) : list frame :=
  filter (fun f => existsb (py_eq (PyTuple [context_name f; timestamp f])) (wanted lines)) frames.
