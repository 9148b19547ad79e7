(** The colors of camera segmentation labels:
    /repo/src/waymo_open_dataset/utils/camera_segmentation_utils.py 37-68, 350-433.

    Simplifications that apply to the whole file:
    - label arrays have the documented shapes: [height, width], or [height, width, 1];
    - the colors of a dictionary are triples, stored modulo 256 (uint8);
    - an instance array whose shape is not that of the semantic one is an error; NumPy would repeat an
      axis of length one. *)
From Verif Require Import Base ResultLib.
Open Scope Z_scope.
Open Scope list_scope.

Definition color : Type := Z * Z * Z.
Definition red (c : color) : Z := fst (fst c).
Definition green (c : color) : Z := snd (fst c).
Definition blue (c : color) : Z := snd c.
(** Storing into a uint8 array. *)
Definition u8 (x : Z) : Z := x mod 256.
Definition u8_color (c : color) : color := (u8 (red c), u8 (green c), u8 (blue c)).

(** 37-68 SEGMENTATION_COLOR_MAP, with the numbers of camera_segmentation.proto 22-86. *)
Definition SEGMENTATION_COLOR_MAP : list (Z * color) :=
  [(0, (0, 0, 0)); (1, (102, 102, 102)); (2, (0, 0, 142)); (3, (0, 0, 70)); (4, (0, 60, 100));
   (5, (61, 133, 198)); (6, (119, 11, 32)); (7, (0, 0, 230)); (8, (111, 168, 220)); (9, (220, 20, 60));
   (10, (255, 0, 0)); (11, (180, 0, 0)); (12, (127, 96, 0)); (13, (91, 15, 0)); (14, (230, 145, 56));
   (15, (153, 153, 153)); (16, (234, 153, 153)); (17, (246, 178, 107)); (18, (250, 170, 30)); (19, (70, 70, 70));
   (20, (128, 64, 128)); (21, (234, 209, 220)); (22, (217, 210, 233)); (23, (244, 35, 232)); (24, (107, 142, 35));
   (25, (70, 130, 180)); (26, (102, 102, 102)); (27, (102, 102, 102)); (28, (102, 102, 102))].

(** Indexing an axis of length [n]: negative numbers count from the end. *)
Definition index (n : nat) (k : Z) : result nat :=
  if (0 <=? k) && (k <? Z.of_nat n) then Ok (Z.to_nat k)
  else if (- Z.of_nat n <=? k) && (k <? 0) then Ok (Z.to_nat (k + Z.of_nat n))
  else Err IndexError.
Fixpoint set_nth {A} (l : list A) (i : nat) (a : A) : list A :=
  match l, i with
  | [], _ => []
  | _ :: l, O => a :: l
  | b :: l, S i => b :: set_nth l i a
  end.

(** 350-370 _generate_color_map; np.amax of no class and a negative number of rows raise ValueError. *)
Definition assign (m : list color) (p : Z * color) : result (list color) :=
  do i <- index (length m) (fst p);
  Ok (set_nth m i (u8_color (snd p))).
Definition generate_color_map (d : option (list (Z * color))) : result (list color) :=
  let d := match d with None => SEGMENTATION_COLOR_MAP | Some d => d end in
  match map fst d with
  | [] => Err ValueError
  | c :: cs =>
      let n := fold_left Z.max cs c + 1 in
      if n <? 0 then Err ValueError else foldM assign d (repeat (0, 0, 0) (Z.to_nat n))
  end.

(** Label arrays by their number of axes; the width is kept for arrays without rows.  [A3] has a last
    axis of length one. *)
Inductive array :=
| A0 (z : Z)
| A1 (l : list Z)
| A2 (width : nat) (rows : list (list Z))
| A3 (width : nat) (rows : list (list Z)).
(** np.squeeze(axis=-1) if shape[-1] == 1. *)
Definition squeeze_last (a : array) : result array :=
  match a with
  | A0 _ => Err IndexError
  | A1 [z] => Ok (A0 z)
  | A1 l => Ok (A1 l)
  | A2 1 rows => Ok (A1 (concat rows))
  | A2 w rows => Ok (A2 w rows)
  | A3 w rows => Ok (A2 w rows)
  end.
Inductive colors :=
| C0 (c : color)
| C1 (l : list color)
| C2 (rows : list (list color)).

Definition lookup (m : list color) (k : Z) : result color :=
  do i <- index (length m) k;
  match nth_error m i with Some c => Ok c | None => Err IndexError end.

(** 375-391 semantic_label_to_rgb. *)
Definition semantic_label_to_rgb (a : array) (m : list color) : result colors :=
  do a <- squeeze_last a;
  match a with
  | A0 z => do c <- lookup m z; Ok (C0 c)
  | A1 l => do cs <- mapM (lookup m) l; Ok (C1 cs)
  | A2 _ rows | A3 _ rows => do cs <- mapM (mapM (lookup m)) rows; Ok (C2 cs)
  end.

(** Integer element types, and what a number becomes in them. *)
Record dtype := { signed : bool; bits : Z }.
Definition wrap (t : dtype) (x : Z) : Z :=
  if signed t then (x + 2 ^ (bits t - 1)) mod 2 ^ bits t - 2 ^ (bits t - 1) else x mod 2 ^ bits t.
(** The type of the sum with a uint8 array. *)
Definition with_uint8 (t : dtype) : dtype :=
  {| signed := signed t; bits := if signed t then Z.max 16 (bits t) else Z.max 8 (bits t) |}.
(** 425-429: one pixel. *)
Definition ins_noise (t : dtype) (prime_num max_delta i : Z) : Z :=
  wrap t (wrap t (wrap t (i * prime_num) mod (max_delta * 2)) - max_delta).
Definition shift_color (t : dtype) (prime_num max_delta i : Z) (c : color) : color :=
  let g := if 0 <? i then wrap (with_uint8 t) (green c + ins_noise t prime_num max_delta i) else green c in
  (red c, u8 g, blue c).
(** 430: np.clip of an array that is already uint8. *)
Definition clip_color (c : color) : color :=
  let f x := Z.min (Z.max x 0) 255 in (f (red c), f (green c), f (blue c)).
Fixpoint zip_row (f : Z -> color -> color) (is : list Z) (cs : list color) : result (list color) :=
  match is, cs with
  | [], [] => Ok []
  | i :: is, c :: cs => do r <- zip_row f is cs; Ok (f i c :: r)
  | _, _ => Err ValueError
  end.
Fixpoint zip_rows (f : Z -> color -> color) (is : list (list Z)) (cs : list (list color)) : result (list (list color)) :=
  match is, cs with
  | [], [] => Ok []
  | i :: is, c :: cs => do r <- zip_row f i c; do rs <- zip_rows f is cs; Ok (r :: rs)
  | _, _ => Err ValueError
  end.

(** 394-433 panoptic_label_to_rgb; [t] is the element type of the instance labels. *)
Definition panoptic_label_to_rgb (semantic instance : array) (m : list color) (t : dtype) (prime_num max_delta : Z)
    : result colors :=
  do semantic <- squeeze_last semantic;
  do instance <- squeeze_last instance;
  do image <- semantic_label_to_rgb semantic m;
  match image with
  | C2 rows =>
      match instance with
      | A2 _ is => do out <- zip_rows (shift_color t prime_num max_delta) is rows; Ok (C2 (map (map clip_color) out))
      | _ => Err ValueError
      end
  | _ => Err IndexError
  end.
Definition PRIME_NUM : Z := 41.
Definition MAX_DELTA : Z := 50.
