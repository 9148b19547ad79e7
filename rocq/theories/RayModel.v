(** Rays and boxes of object assets: v2/perception/utils/object_asset_utils.py.

    Conventions.
    - Numbers are real numbers; the casts to float64 and back are not modelled.
    - Functions are given for one row of the arrays. *)
From Coq Require Import Reals.
From Verif Require Import Base GeomModel FrameModel.
Open Scope R_scope.

(** object_asset_utils.py:21, RAY_DIR_MARGIN = 1e-10. *)
Definition ray_dir_margin : R := / 10 ^ 10.
(** A truth value used as a number. *)
Definition b2r (b : bool) : R := if b then 1 else 0.
(** 24-30, _sel_bounds, for one dimension of the bounds [lo] and [hi]. *)
Definition sel_bounds (lo hi ray_sign : R) : R := (1 - ray_sign) * lo + ray_sign * hi.
(** 58, inv_ray_dir, for one component. *)
Definition inv_ray_dir (d : R) : R := 1 / (d + ray_dir_margin * b2r (is_zero d)).
(** 63-74 and 83-88, the two parameters of a dimension: tmin and tmax, tymin and tymax, tzmin and tzmax. *)
Definition slab (o d s : R) : R * R :=
  let inv := inv_ray_dir d in
  let sign := b2r (rltb inv 0) in
  let lo := - / 2 * s in
  let hi := / 2 * s in
  ((sel_bounds lo hi sign - o) * inv, (sel_bounds lo hi (1 - sign) - o) * inv).
(** 33-96, get_ray_box_intersects. *)
Definition get_ray_box_intersects (ray_origin ray_dir box_dim : vec3) : bool * R * R :=
  let '(tmin, tmax) := slab (X ray_origin) (X ray_dir) (X box_dim) in
  let '(tymin, tymax) := slab (Y ray_origin) (Y ray_dir) (Y box_dim) in
  let flag := true in
  let flag := if rltb tymax tmin then false else flag in
  let flag := if rltb tmax tymin then false else flag in
  let tmin := Rmax tmin tymin in
  let tmax := Rmin tmax tymax in
  let '(tzmin, tzmax) := slab (Z_ ray_origin) (Z_ ray_dir) (Z_ box_dim) in
  let flag := if rltb tzmax tmin then false else flag in
  let flag := if rltb tmax tzmin then false else flag in
  let tmin := Rmax tmin tzmin in
  let tmax := Rmin tmax tzmax in
  let flag := if rleb tmax 0 then false else flag in
  (flag, tmin, tmax).

(** 99-123, transform_points_to_frame. *)
Definition transform_points_to_frame (p : vec3) (frame_pose_tfm : pose) : vec3 :=
  add3 (mulv (rotation frame_pose_tfm) p) (translation frame_pose_tfm).
(** 126-148, transform_directions_to_frame. *)
Definition transform_directions_to_frame (d : vec3) (frame_pose_tfm : pose) : vec3 :=
  mulv (rotation frame_pose_tfm) d.
(** 151-170, rotate_points_along_z: np.dot of the first two coordinates with the transposed rotation. *)
Definition rotate_points_along_z (p : vec3) (rot_angle : R) : vec3 :=
  let cosval := cos rot_angle in
  let sinval := sin rot_angle in
  (X p * cosval + Y p * (- sinval), X p * sinval + Y p * cosval, Z_ p).
(** 173-191, transform_points_to_box_coord. *)
Definition transform_points_to_box_coord (p : vec3) (b : box7) : vec3 :=
  rotate_points_along_z (add3 p (neg3 (center b))) (-1 * heading b).
(** 194-215, transform_directions_to_box_coord. *)
Definition transform_directions_to_box_coord (d : vec3) (b : box7) : vec3 :=
  rotate_points_along_z d (-1 * heading b).
(** 218-237, transform_points_to_box_coord_reverse. *)
Definition transform_points_to_box_coord_reverse (p : vec3) (b : box7) : vec3 :=
  add3 (rotate_points_along_z p (heading b)) (center b).
