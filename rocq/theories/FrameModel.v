(** Boxes and frames of reference: utils/box_utils.py and utils/transform_utils.py.

    Conventions.
    - Numbers are real numbers; rounding is not modelled.
    - A transform is a matrix whose last row is (0, ..., 0, 1), so only the other rows are kept.
    - tf.linalg.inv refuses singular matrices; the inverse is given by cofactors.
    - Functions are given for one element of the batch dimensions, written '...' in the code. *)
From Coq Require Import Reals.
From Verif Require Import Base ResultLib GeomModel.
Open Scope list_scope.
Open Scope R_scope.

Notation vec3 := (R * R * R)%type.
Definition X (v : vec3) : R := fst (fst v).
Definition Y (v : vec3) : R := snd (fst v).
Definition Z_ (v : vec3) : R := snd v.
Definition dot3 (a b : vec3) : R := X a * X b + Y a * Y b + Z_ a * Z_ b.
Definition add3 (a b : vec3) : vec3 := (X a + X b, Y a + Y b, Z_ a + Z_ b).
Definition is_zero (x : R) : bool := if Req_EM_T x 0 then true else false.

(** A matrix, by rows. *)
Record mat3 := { r0 : vec3; r1 : vec3; r2 : vec3 }.
Definition col0 (m : mat3) : vec3 := (X (r0 m), X (r1 m), X (r2 m)).
Definition col1 (m : mat3) : vec3 := (Y (r0 m), Y (r1 m), Y (r2 m)).
Definition col2 (m : mat3) : vec3 := (Z_ (r0 m), Z_ (r1 m), Z_ (r2 m)).
(** einsum '...ij,...nj->...ni' for one point. *)
Definition mulv (m : mat3) (v : vec3) : vec3 := (dot3 (r0 m) v, dot3 (r1 m) v, dot3 (r2 m) v).
(** tf.matmul. *)
Definition row_mul (r : vec3) (m : mat3) : vec3 := (dot3 r (col0 m), dot3 r (col1 m), dot3 r (col2 m)).
Definition matmul (a b : mat3) : mat3 := {| r0 := row_mul (r0 a) b; r1 := row_mul (r1 a) b; r2 := row_mul (r2 a) b |}.

(** transform_utils.py:27-53, get_yaw_rotation. *)
Definition get_yaw_rotation (yaw : R) : mat3 :=
  {| r0 := (cos yaw, -1 * sin yaw, 0); r1 := (sin yaw, cos yaw, 0); r2 := (0, 0, 1) |}.
(** transform_utils.py:76-127, get_rotation_matrix. *)
Definition get_rotation_matrix (roll pitch yaw : R) : mat3 :=
  let r_roll := {| r0 := (1, 0, 0); r1 := (0, cos roll, -1 * sin roll); r2 := (0, sin roll, cos roll) |} in
  let r_pitch := {| r0 := (cos pitch, 0, sin pitch); r1 := (0, 1, 0); r2 := (-1 * sin pitch, 0, cos pitch) |} in
  let r_yaw := {| r0 := (cos yaw, -1 * sin yaw, 0); r1 := (sin yaw, cos yaw, 0); r2 := (0, 0, 1) |} in
  matmul r_yaw (matmul r_pitch r_roll).
(** transform_utils.py:130-152, get_transform, of three dimensions. *)
Record pose := { rotation : mat3; translation : vec3 }.
Definition get_transform (r : mat3) (t : vec3) : pose := {| rotation := r; translation := t |}.
Definition apply (t : pose) (p : vec3) : vec3 := add3 (mulv (rotation t) p) (translation t).
(** tf.matmul of two transforms. *)
Definition compose (a b : pose) : pose :=
  {| rotation := matmul (rotation a) (rotation b);
     translation := add3 (mulv (rotation a) (translation b)) (translation a) |}.
(** tf.linalg.inv of a transform. *)
Definition det3 (m : mat3) : R :=
  X (r0 m) * (Y (r1 m) * Z_ (r2 m) - Z_ (r1 m) * Y (r2 m)) - Y (r0 m) * (X (r1 m) * Z_ (r2 m) - Z_ (r1 m) * X (r2 m)) +
  Z_ (r0 m) * (X (r1 m) * Y (r2 m) - Y (r1 m) * X (r2 m)).
Definition inverse3 (m : mat3) : mat3 :=
  let d := det3 m in
  {| r0 := ((Y (r1 m) * Z_ (r2 m) - Z_ (r1 m) * Y (r2 m)) / d, (Z_ (r0 m) * Y (r2 m) - Y (r0 m) * Z_ (r2 m)) / d,
            (Y (r0 m) * Z_ (r1 m) - Z_ (r0 m) * Y (r1 m)) / d);
     r1 := ((Z_ (r1 m) * X (r2 m) - X (r1 m) * Z_ (r2 m)) / d, (X (r0 m) * Z_ (r2 m) - Z_ (r0 m) * X (r2 m)) / d,
            (Z_ (r0 m) * X (r1 m) - X (r0 m) * Z_ (r1 m)) / d);
     r2 := ((X (r1 m) * Y (r2 m) - Y (r1 m) * X (r2 m)) / d, (Y (r0 m) * X (r2 m) - X (r0 m) * Y (r2 m)) / d,
            (X (r0 m) * Y (r1 m) - Y (r0 m) * X (r1 m)) / d) |}.
Definition neg3 (v : vec3) : vec3 := (- X v, - Y v, - Z_ v).
Definition inverse (t : pose) : result pose :=
  if is_zero (det3 (rotation t)) then Err RuntimeError else
  let r := inverse3 (rotation t) in
  Ok {| rotation := r; translation := neg3 (mulv r (translation t)) |}.

(** A row of a box tensor: center, length, width and height, heading. *)
Record box7 := { center : vec3; dim : vec3; heading : R }.
(** box_utils.py:29-70, is_within_box_3d, for a point and a box, then for all. *)
Definition within_box (p : vec3) (b : box7) : result bool :=
  do t <- inverse (get_transform (get_yaw_rotation (heading b)) (center b));
  let q := add3 (mulv (rotation t) p) (translation t) in
  let solid := negb (is_zero (X (dim b))) && negb (is_zero (Y (dim b))) && negb (is_zero (Z_ (dim b))) in
  let inside (get : vec3 -> R) := rleb (get q) (get (dim b) * / 2) && rleb (- get (dim b) * / 2) (get q) && solid in
  Ok (inside X && inside Y && inside Z_).
Definition is_within_box_3d (points : list vec3) (boxes : list box7) : result (list (list bool)) :=
  mapM (fun p => mapM (within_box p) boxes) points.
(** 114-133, compute_num_points_in_box_3d: the sums of the columns. *)
Definition compute_num_points_in_box_3d (points : list vec3) (boxes : list box7) : result (list nat) :=
  do rows <- is_within_box_3d points boxes;
  Ok (map (fun j => length (filter (fun row => nth j row false) rows)) (seq 0 (length boxes))).

(** transform_utils.py:56-73, get_yaw_rotation_2d, with get_transform and tf.linalg.inv in two dimensions:
    the rows of the inverse rotation and the inverse translation. *)
Record pose2 := { row_x : point; row_y : point; shift : point }.
Definition det2 (t : pose2) : R := fst (row_x t) * snd (row_y t) - snd (row_x t) * fst (row_y t).
Definition inverse2 (t : pose2) : result pose2 :=
  if is_zero (det2 t) then Err RuntimeError else
  let rx := (snd (row_y t) / det2 t, - snd (row_x t) / det2 t) in
  let ry := (- fst (row_y t) / det2 t, fst (row_x t) / det2 t) in
  Ok {| row_x := rx; row_y := ry; shift := (- dot rx (shift t), - dot ry (shift t)) |}.
(** box_utils.py:73-111, is_within_box_2d. *)
Record box5 := { center2 : point; dim2 : point; heading2 : R }.
Definition within_box_2d (p : point) (b : box5) : result bool :=
  do t <- inverse2 {| row_x := (cos (heading2 b), -1 * sin (heading2 b)); row_y := (sin (heading2 b), cos (heading2 b));
                      shift := center2 b |};
  let q := (dot (row_x t) p + fst (shift t), dot (row_y t) p + snd (shift t)) in
  let solid := negb (is_zero (fst (dim2 b))) && negb (is_zero (snd (dim2 b))) in
  let inside (get : point -> R) := rleb (get q) (get (dim2 b) * / 2) && rleb (- get (dim2 b) * / 2) (get q) && solid in
  Ok (inside fst && inside snd).
Definition is_within_box_2d (points : list point) (boxes : list box5) : result (list (list bool)) :=
  mapM (fun p => mapM (within_box_2d p) boxes) points.

(** 136-174, get_upright_3d_box_corners, for a box. *)
Definition get_upright_3d_box_corners (b : box7) : list vec3 :=
  let l2 := X (dim b) * / 2 in
  let w2 := Y (dim b) * / 2 in
  let h2 := Z_ (dim b) * / 2 in
  map (fun c => add3 (mulv (get_yaw_rotation (heading b)) c) (center b))
    [(l2, w2, - h2); (- l2, w2, - h2); (- l2, - w2, - h2); (l2, - w2, - h2);
     (l2, w2, h2); (- l2, w2, h2); (- l2, - w2, h2); (l2, - w2, h2)].

(** 177-193, transform_point. *)
Definition transform_point (p : vec3) (from_frame_pose to_frame_pose : pose) : result vec3 :=
  do inv <- inverse to_frame_pose;
  Ok (apply (compose inv from_frame_pose) p).
(** tf.atan2. *)
Definition atan2 (y x : R) : R :=
  if rltb 0 x then atan (y / x)
  else if rltb x 0 then if rleb 0 y then atan (y / x) + PI else atan (y / x) - PI
  else if rltb 0 y then PI / 2 else if rltb y 0 then - (PI / 2) else 0.
(** 196-215, transform_box. *)
Definition transform_box (b : box7) (from_frame_pose to_frame_pose : pose) : result box7 :=
  do inv <- inverse to_frame_pose;
  let t := compose inv from_frame_pose in
  let heading_offset := atan2 (X (r1 (rotation t))) (X (r0 (rotation t))) in
  Ok {| center := apply t (center b); dim := dim b; heading := heading b + heading_offset |}.
