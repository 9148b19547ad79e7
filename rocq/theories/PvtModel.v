(** The tutorial of the panoptic video segmentation challenge, /repo/tutorial/tutorial_2d_pvps.ipynb. Lines are those of the notebook file.
    Drawing, the files and the metric itself are not modelled here. *)
From Coq Require Import String.
From Verif Require Import Base ResultLib.
Open Scope list_scope.

(** * Labels from the tables *)
(** 230-231: groupby(...).agg(list). A row of the table: its key (the time; the tutorial reads one context) and its other columns.
    Pandas sorts the keys and keeps the order of the rows of a group. *)
Definition table (V : Type) : Type := list (Z * list V).
Fixpoint insert_key (k : Z) (l : list Z) : list Z :=
  match l with
  | [] => [k]
  | j :: l' => if (k <? j)%Z then k :: l else if (k =? j)%Z then l else j :: insert_key k l'
  end.
Definition group_keys {V} (t : table V) : list Z := fold_right (fun r l => insert_key (fst r) l) [] t.
Definition group_rows {V} (t : table V) (k : Z) : list (list V) := map snd (filter (fun r => (fst r =? k)%Z) t).
(** The [count] columns from [start] on, each the list of its values. *)
Fixpoint columns {V} (start count : nat) (rows : list (list V)) : list (list V) :=
  match count with
  | O => []
  | S c => flat_map (fun r => match nth_error r start with Some v => [v] | None => [] end) rows :: columns (start + 1) c rows
  end.
(** zip(star cells); it ends with the shortest. *)
Fixpoint zip_cons {V} (c : list V) (rows : list (list V)) : list (list V) :=
  match c, rows with v :: c', r :: rows' => (v :: r) :: zip_cons c' rows' | _, _ => [] end.
Fixpoint zip_star {V} (cells : list (list V)) : list (list V) :=
  match cells with [] => [] | [c] => map (fun v => [v]) c | c :: cells' => zip_cons c (zip_star cells') end.
(** 233-240: ungroup_row; unpacking fails if there are no columns. *)
Definition ungroup_row {V} (cells : list (list V)) : result (list (list V)) :=
  match cells with [] => Err ValueError | _ => Ok (zip_star cells) end.
(** 242-250: the labels of the first three frames. *)
Definition read_labels {V} (num_columns : nat) (t : table V) : result (list (list (list V))) :=
  mapM (fun k => ungroup_row (columns 0 num_columns (group_rows t k))) (firstn 3 (group_keys t)).

(** * Cameras *)
(** 263-267 with the numbers of dataset.proto: SIDE_LEFT, FRONT_LEFT, FRONT, FRONT_RIGHT, SIDE_RIGHT. *)
Definition camera_left_to_right_order : list Z := [4; 2; 1; 3; 5]%Z.
Definition FRONT : nat := 1.
(** 270, 440, 442: a dictionary by camera name; the last one counts. *)
Fixpoint dict_get {A} (l : list (Z * A)) (name : Z) : option A :=
  match l with
  | [] => None
  | (n, a) :: l' => match dict_get l' name with Some b => Some b | None => if (n =? name)%Z then Some a else None end
  end.
(** 271, 441, 443, 611-612. *)
Definition in_order {A} (images : list (Z * A)) : result (list A) :=
  mapM (fun name => match dict_get images name with Some a => Ok a | None => Err KeyError end) camera_left_to_right_order.
(** 292-294: the label called panoptic_label_front. *)
Definition label_front {A} (frames : list (list (Z * A))) : result A :=
  do segmentation_protos_ordered <- mapM in_order frames;
  match segmentation_protos_ordered with
  | [] => Err IndexError
  | l :: _ => match nth_error l FRONT with Some a => Ok a | None => Err IndexError end
  end.

(** * Padding *)
(** A label image: its width and its rows. 363-364: rows of zeros above, up to [height] rows (1280); a negative number is an error. *)
Definition pad {V} (zero : V) (height : nat) (im : nat * list (list V)) : result (list (list V)) :=
  if (height <? List.length (snd im))%nat then Err ValueError
  else Ok (repeat (repeat zero (fst im)) (height - List.length (snd im)) ++ snd im).
Definition HEIGHT : nat := Z.to_nat 1280.

(** * Submission *)
Record frame (I : Type) := Frame { context_name : string; timestamp_micros : Z; images : list (Z * I) }.
Arguments Frame {I}. Arguments context_name {I}. Arguments timestamp_micros {I}. Arguments images {I}.
(** 579-592: _load_dataset_for_one_test_shard after the parsing. Times are compared as numbers instead of their decimal strings. *)
Fixpoint load_shard {I} (filter_by_timestamps : bool) (valid_timestamps : list Z) (frames : list (frame I)) (test_frames : list (frame I)) (name : string)
    : list (frame I) * string :=
  match frames with
  | [] => (test_frames, name)
  | f :: frames' =>
      let name' := if String.eqb name "" then context_name f else name in
      if filter_by_timestamps && negb (existsb (Z.eqb (timestamp_micros f)) valid_timestamps)
      then load_shard filter_by_timestamps valid_timestamps frames' test_frames name'
      else load_shard filter_by_timestamps valid_timestamps frames' (test_frames ++ [f]) name'
  end.
(** 642-647: CameraSegmentationFrame. *)
Record entry (P : Type) := Entry { e_context : string; e_time : Z; e_camera : Z; e_pred : P }.
Arguments Entry {P}. Arguments e_context {P}. Arguments e_time {P}. Arguments e_camera {P}. Arguments e_pred {P}.
(** 595-648: _generate_predictions_for_one_test_shard; [infer] is the inference for one image. An absent list of times is the empty list (603). *)
Definition generate_predictions {I P} (infer : I -> P) (valid_timestamps : list Z) (frames : list (frame I)) : result (list (entry P)) :=
  let (test_frames, name) := load_shard (match valid_timestamps with [] => false | _ => true end) valid_timestamps frames [] "" in
  do image_protos_ordered <- mapM (fun f => in_order (images f)) test_frames;
  do frame_timestamps_ordered <- mapM (fun f => in_order (map (fun p => (fst p, timestamp_micros f)) (images f))) test_frames;
  let camera_names_ordered := map (fun _ => camera_left_to_right_order) test_frames in
  Ok (map (fun p => Entry name (snd (fst p)) (snd p) (fst (fst p)))
       (combine (combine (map infer (concat image_protos_ordered)) (concat frame_timestamps_ordered)) (concat camera_names_ordered))).
(** 417-422: the dummy inference: zeros of the size of the image. *)
Definition dummy_inference (size : nat * nat) : list (list Z) := repeat (repeat 0%Z (snd size)) (fst size).
