(** The camera operations, /repo/src/waymo_open_dataset/wdl_limited/camera/ops/camera_model_ops.cc. Numbers are reals, so
    that the float and the double version are one. A failed CHECK ends the program, written RuntimeError as in CamModel.v. *)
From Coq Require Import Reals ZArith List.
From Verif Require Import Base ResultLib GeomModel FrameModel CamModel.
Import ListNotations.
Open Scope R_scope.

(** A tensor: its shape, and its cells in the order of memory. *)
Record tensor (A : Type) := { dims : list nat; cells : list A }.
Arguments dims {A}. Arguments cells {A}.
(** dim_size: the dimension has to be there. *)
Definition dim_size {A} (t : tensor A) (k : nat) : result nat := match nth_error (dims t) k with Some n => Ok n | None => Err RuntimeError end.
Definition check_eq (a b : nat) : result unit := if Nat.eqb a b then Ok tt else Err RuntimeError.
Definition read {A} (t : tensor A) (k : nat) : result A := match nth_error (cells t) k with Some v => Ok v | None => Err RuntimeError end.
(** vec<T>()(i): the rank is checked, the index is not. Reads beyond the memory are undefined in the code, and an error here. *)
Definition vec_at {A} (t : tensor A) (i : nat) : result A := match dims t with [_] => read t i | _ => Err RuntimeError end.
(** matrix<T>()(i, j): the rank is checked, the indices are not: the cell of memory is computed from the width. *)
Definition matrix_at {A} (t : tensor A) (i j : nat) : result A := match dims t with [_; w] => read t (i * w + j) | _ => Err RuntimeError end.

(** Input (53-63). *)
Record input := { in_extrinsic : tensor R; in_intrinsic : tensor R; in_metadata : tensor Z; in_image_metadata : tensor R; input_coordinate : tensor R }.
(** dataset.proto:114-121; all other numbers are handled like UNKNOWN. *)
Definition shutter_of (n : Z) : shutter :=
  match n with
  | 1%Z => TopToBottom | 2%Z => LeftToRight | 3%Z => BottomToTop | 4%Z => RightToLeft | 5%Z => GlobalShutter
  | _ => Unknown
  end.
(** camera_model.cc:66-75, ToEigenTransform: the fourth row is not read. *)
Definition to_transform (m : nat -> R) : pose :=
  {| rotation := {| r0 := (m 0%nat, m 1%nat, m 2%nat); r1 := (m 4%nat, m 5%nat, m 6%nat); r2 := (m 8%nat, m 9%nat, m 10%nat) |};
     translation := (m 3%nat, m 7%nat, m 11%nat) |}.
(** ParseInput (76-117). *)
Definition parse_input (inp : input) : result (calibration * image) :=
  do n <- dim_size (in_extrinsic inp) 0; do _ <- check_eq n 4;
  do n <- dim_size (in_extrinsic inp) 1; do _ <- check_eq n 4;
  do e <- mapM (fun k => matrix_at (in_extrinsic inp) (Nat.div k 4) (Nat.modulo k 4)) (seq 0 16);
  do n <- dim_size (in_intrinsic inp) 0; do _ <- check_eq n 9;
  do f <- mapM (vec_at (in_intrinsic inp)) (seq 0 9);
  do n <- dim_size (in_metadata inp) 0; do _ <- check_eq n 3;
  do w <- vec_at (in_metadata inp) 0; do h <- vec_at (in_metadata inp) 1; do d <- vec_at (in_metadata inp) 2;
  do n <- dim_size (in_image_metadata inp) 0; do _ <- check_eq n 26;
  do m <- mapM (vec_at (in_image_metadata inp)) (seq 0 26);
  let f k := nth k f 0 in
  let m k := nth k m 0 in
  Ok ({| f_u := f 0%nat; f_v := f 1%nat; c_u := f 2%nat; c_v := f 3%nat; k1 := f 4%nat; k2 := f 5%nat; k3 := f 6%nat; k4 := f 7%nat; k5 := f 8%nat;
         extrinsic := to_transform (fun k => nth k e 0); width := IZR w; height := IZR h; rolling_shutter_direction := shutter_of d |},
      {| image_pose := to_transform m; v_xyz := (m 16%nat, m 17%nat, m 18%nat); w_xyz := (m 19%nat, m 20%nat, m 21%nat);
         pose_timestamp := m 22%nat; shutter_time := m 23%nat; camera_trigger_time := m 24%nat; camera_readout_done_time := m 25%nat |}).
(** PrepareProjection (camera_model.cc:216-318) ends the program or not, once for all points. *)
Definition prepare_projection (c : calibration) (i : image) : result unit :=
  match rolling_shutter_direction c with GlobalShutter => Ok tt | _ => do _ <- prepare_rolling c i; Ok tt end.

Definition coordinate (t : tensor R) (i : nat) : result vec3 :=
  do x <- matrix_at t i 0; do y <- matrix_at t i 1; do z <- matrix_at t i 2; Ok (x, y, z).
(** 137, 145-159: the three variables of a point start at zero. *)
Definition untouched : projection := {| ok := false; pixel := (0, 0); depth := 0 |}.
Definition output_row (return_depth : bool) (r : projection) : list R :=
  [fst (pixel r); snd (pixel r)] ++ (if return_depth then [depth r] else []) ++ [if ok r then 1 else 0].
Definition output_tensor (num_points channels : nat) (rows : list (list R)) : tensor R := {| dims := [num_points; channels]; cells := concat rows |}.
Definition out_channel (return_depth : bool) : nat := if return_depth then 4%nat else 3%nat.

(** WorldToImageOp (119-163). *)
Definition world_to_image_op (return_depth : bool) (inp : input) : result (tensor R) :=
  do (c, i) <- parse_input inp;
  do _ <- prepare_projection c i;
  do num_points <- dim_size (input_coordinate inp) 0;
  do n <- dim_size (input_coordinate inp) 1; do _ <- check_eq 3 n;
  do rows <- mapM (fun k =>
    do p <- coordinate (input_coordinate inp) k;
    do r <- world_to_image c i false untouched p;
    Ok (output_row return_depth r)) (seq 0 num_points);
  Ok (output_tensor num_points (out_channel return_depth) rows).
(** WorldToImageMovingPointOp (172-222): the shape of the velocities is not checked. *)
Definition world_to_image_moving_point_op (return_depth : bool) (inp : input) (velocity : tensor R) : result (tensor R) :=
  do (c, i) <- parse_input inp;
  do _ <- prepare_projection c i;
  do num_points <- dim_size (input_coordinate inp) 0;
  do n <- dim_size (input_coordinate inp) 1; do _ <- check_eq 3 n;
  do rows <- mapM (fun k =>
    do p <- coordinate (input_coordinate inp) k;
    do v <- coordinate velocity k;
    do r <- world_to_image_moving c i false untouched p v;
    Ok (output_row return_depth r)) (seq 0 num_points);
  Ok (output_tensor num_points (out_channel return_depth) rows).
(** ImageToWorldOp (234-272). *)
Definition image_to_world_op (inp : input) : result (tensor R) :=
  do (c, i) <- parse_input inp;
  do _ <- prepare_projection c i;
  do num_points <- dim_size (input_coordinate inp) 0;
  do n <- dim_size (input_coordinate inp) 1; do _ <- check_eq 3 n;
  do rows <- mapM (fun k =>
    do q <- coordinate (input_coordinate inp) k;
    do p <- image_to_world c i (X q) (Y q) (Z_ q);
    Ok [X p; Y p; Z_ p]) (seq 0 num_points);
  Ok (output_tensor num_points 3 rows).
(** The declared shapes (291-301, 331-341, 370-373). *)
Definition declared_shape (return_depth : bool) (inp : input) : list nat :=
  if return_depth then match dims (input_coordinate inp) with n :: _ => [n; 4%nat] | [] => [] end else dims (input_coordinate inp).
