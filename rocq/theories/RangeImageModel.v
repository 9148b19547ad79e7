(** Model of utils/range_image_utils.py: packing of lidar features, scattering points into an image,
    azimuth and inclination to pixel indices, cropping, inclinations.
    Floats are exact rationals, except intensities, which are their 32 bit patterns (Z).
    Tensors are lists. [pi] stands for np.pi. *)
From Verif Require Import Base ResultLib.
Open Scope Z_scope.

(** _RANGE_TO_METERS (range_image_utils.py:60). *)
Definition range_to_meters : Q := 585532144 # 100000000000.
(** tf.cast of a non-negative float to an unsigned type truncates. *)
Definition trunc (q : Q) : Z := Qfloor q.

(** _encode_range (range_image_utils.py:63-77) and _encode_elongation (133-147): the assertions, then
    the cast; [bits] is 16 or 8. *)
Definition encode_meters (bits : Z) (r : Q) : result Z :=
  let encoded := (r / range_to_meters)%Q in
  if negb (Qle_bool 0 encoded) then Err ValueError else
  if negb (Qle_bool encoded (inject_Z (2 ^ bits - 1))) then Err ValueError else
  Ok (trunc encoded).
(** _decode_range (80-89) and _decode_elongation (150-159). *)
Definition decode_meters (r : Z) : Q := (inject_Z r * range_to_meters)%Q.
(** _encode_intensity (92-111): the upper 16 bits; the cast to uint16 keeps the low 16 bits. *)
Definition encode_intensity (bits : Z) : Z := Z.land (Z.shiftr bits 16) 65535.
(** _decode_intensity (114-130), left_shift in uint32. *)
Definition decode_intensity (code : Z) : Z := Z.land (Z.shiftl code 16) (2 ^ 32 - 1).

(** One point: range, intensity, elongation; encoded: three int64. *)
Definition encode_lidar_feature (p : Q * Z * Q) : result (Z * Z * Z) :=
  let '(r, intensity, elongation) := p in
  do er <- encode_meters 16 r;
  let ei := encode_intensity intensity in
  do ee <- encode_meters 8 elongation;
  let shifted := Z.land (Z.shiftl er 16) (2 ^ 32 - 1) in
  Ok (er, Z.lor shifted ei, Z.lor shifted ee).
(** encode_lidar_features (162-192), a tensor of points; the assertions cover all of them. *)
Definition encode_lidar_features (l : list (Q * Z * Q)) : result (list (Z * Z * Z)) :=
  mapM encode_lidar_feature l.
(** decode_lidar_features (195-215), one point. *)
Definition decode_lidar_feature (v : Z * Z * Z) : Q * Z * Q :=
  let '(r, intensity, elongation) := v in
  (decode_meters r, decode_intensity (Z.land intensity 65535), decode_meters (Z.land elongation 255)).

(** ** scatter_nd_with_pool (218-253) *)
Section Scatter.
Context {V : Type}.
Variable zero : V.             (* the value of missing pixels *)
Variable add : V -> V -> V.    (* tf.scatter_nd accumulates *)
Variable pool : list V -> V.   (* the pool method on one non-empty segment *)

(** tf.unique: the distinct values in order of first occurrence, and the position of each entry. *)
Definition unique_keys (l : list Z) : list Z :=
  fold_left (fun keys x => if existsb (Z.eqb x) keys then keys else keys ++ [x]) l [].
Fixpoint index_of (x : Z) (l : list Z) : nat :=
  match l with [] => O | y :: l' => if x =? y then O else S (index_of x l') end.
(** tf.math.unsorted_segment_*: one pooled value per segment. *)
Definition segment (value : list V) (idx : list nat) (n : nat) : list V :=
  tabulate n (fun s => pool (map fst (filter (fun vi => Nat.eqb (snd vi) s) (combine value idx)))).

Fixpoint update (l : list V) (k : nat) (f : V -> V) : list V :=
  match l, k with
  | [], _ => []
  | v :: l', O => f v :: l'
  | v :: l', S k' => v :: update l' k' f
  end.
(** tf.scatter_nd on the CPU: an index outside the shape is an error. The image is row-major. *)
Definition scatter_nd (height width : Z) (index : list (Z * Z)) (value : list V) : result (list V) :=
  foldM (fun image iv =>
    let '((r, c), v) := iv in
    if (0 <=? r) && (r <? height) && (0 <=? c) && (c <? width)
    then Ok (update image (Z.to_nat (r * width + c)) (fun old => add old v))
    else Err IndexError) (combine index value) (repeat zero (Z.to_nat (height * width))).

Definition scatter_nd_with_pool (height width : Z) (index : list (Z * Z)) (value : list V) : result (list V) :=
  let codes := map (fun rc => fst rc * width + snd rc) index in
  let index_encoded := unique_keys codes in
  let idx := map (fun x => index_of x index_encoded) codes in
  let value_pooled := segment value idx (length index_encoded) in
  let index_unique := map (fun e => (e / width, e mod width)) index_encoded in
  scatter_nd height width index_unique value_pooled.
End Scatter.

(** tf.math.unsorted_segment_min on int64 triples, elementwise, and on floats. *)
Definition min3 (a b : Z * Z * Z) : Z * Z * Z :=
  let '(a1, a2, a3) := a in let '(b1, b2, b3) := b in (Z.min a1 b1, Z.min a2 b2, Z.min a3 b3).
Definition pool_min3 (l : list (Z * Z * Z)) : Z * Z * Z :=
  match l with [] => (0, 0, 0) | a :: l' => fold_left min3 l' a end.
Definition add3 (a b : Z * Z * Z) : Z * Z * Z :=
  let '(a1, a2, a3) := a in let '(b1, b2, b3) := b in (a1 + b1, a2 + b2, a3 + b3).
Definition qmin (a b : Q) : Q := if Qle_bool a b then a else b.
Definition pool_minq (l : list Q) : Q :=
  match l with [] => 0%Q | a :: l' => fold_left qmin l' a end.

(** ** build_range_image_from_point_cloud (475-607) *)
(** Folding of the corrected azimuth (548-553). *)
Definition fold_azimuth (pi az : Q) : Q :=
  let gt := negb (Qle_bool az pi) in
  let lt := negb (Qle_bool (- pi) az) in
  (az - (if gt then 1 else 0) * 2 * pi + (if lt then 1 else 0) * 2 * pi)%Q.
(** Column of an azimuth (556-559), before the range assertions. *)
Definition column (pi : Q) (width : Z) (az : Q) : Z :=
  round_half_even (inject_Z width - 1 + (1 # 2) - (az + pi) / (2 * pi) * inject_Z width)%Q.
(** The assertions (561-564). *)
Definition checked_column (pi : Q) (width : Z) (az : Q) : result Z :=
  let c := column pi width az in
  if (0 <=? c) && (c <? width) then Ok c else Err ValueError.
(** tf.argmin: index of the first smallest entry. *)
Fixpoint argmin_from (best : Q) (bi i : nat) (l : list Q) : nat :=
  match l with
  | [] => bi
  | q :: l' => if negb (Qle_bool best q) then argmin_from q i (S i) l' else argmin_from best bi (S i) l'
  end.
Definition argmin (l : list Q) : nat := match l with [] => O | q :: l' => argmin_from q 0 1 l' end.
(** Row of an inclination (534-540). *)
Definition row (inclination : list Q) (point_inclination : Q) : nat :=
  argmin (map (fun i => Qabs (point_inclination - i)) inclination).
(** Pixel of a point whose azimuth (atan2 in the sensor frame), inclination and the azimuth
    correction of the sensor are given (542-566); the trigonometry is not modelled. *)
Definition pixel_of_point (pi : Q) (width : Z) (inclination : list Q) (correction azimuth incl : Q)
  : result (Z * Z) :=
  do c <- checked_column pi width (fold_azimuth pi (azimuth + correction));
  Ok (Z.of_nat (row inclination incl), c).

(** The inner function fn with point features (571-600): slice to [num_point] points, scatter by
    minimum, decode. Points are (pixel, (range, intensity bits, elongation)). *)
Definition build_image (height width : Z) (index : list (Z * Z)) (feature : list (Q * Z * Q))
  (num_point : nat) : result (list (Q * Z * Q)) :=
  do value <- encode_lidar_features feature;
  do image <- scatter_nd_with_pool (0, 0, 0) add3 pool_min3 height width
                (firstn num_point index) (firstn num_point value);
  Ok (map decode_lidar_feature image).

(** ** compute_range_image_polar (256-299): azimuth of the centre of a column. *)
Definition column_azimuth (pi : Q) (width : Z) (correction : Q) (c : Z) : Q :=
  let ratio := ((inject_Z (width - c) - (1 # 2)) / inject_Z width)%Q in
  ((ratio * 2 - 1) * pi - correction)%Q.

(** ** build_camera_depth_image (388-472) *)
(** A range image pixel: camera name, x, y of the two projections; its distance to the camera. *)
Record projected := { name1 : Z; x1 : Z; y1 : Z; name2 : Z; x2 : Z; y2 : Z; depth : Q }.
(** Selection of the projection (435-448) as (row, column), with the mask (449-450). *)
Definition selected (camera : Z) (p : projected) : Z * Z :=
  let s := (-1, -1) in
  let s := if name2 p =? camera then (y2 p, x2 p) else s in
  if name1 p =? camera then (y1 p, x1 p) else s.
Definition in_camera (camera : Z) (p : projected) : bool := (name1 p =? camera) || (name2 p =? camera).
(** fn (452-463) with the default pool method. *)
Definition depth_image (height width camera : Z) (l : list projected) : result (list Q) :=
  let l := filter (in_camera camera) l in
  scatter_nd_with_pool 0%Q Qplus pool_minq height width (map (selected camera) l) (map depth l).

(** ** crop_range_image (650-696) *)
(** x[left:right] for in-range bounds. *)
Definition slice {A} (left right : Z) (l : list A) : list A :=
  firstn (Z.to_nat (right - left)) (skipn (Z.to_nat left) l).
(** [range_images] is a list of images, each a list of rows of [width] entries. *)
Definition crop_range_image {A} (width new_width : Z) (shift : option (list Z))
  (range_images : list (list (list A))) : result (list (list (list A))) :=
  if width =? new_width then Ok range_images else
  if new_width <? 1 then Err ValueError else
  if width <=? new_width then Err ValueError else
  let shift := match shift with None => repeat 0 (length range_images) | Some s => s end in
  let diff := width - new_width in
  let left := map (fun i => diff / 2 + i) shift in
  let right := map (fun i => i + new_width) left in
  if existsb (fun lr => (fst lr <? 0) || (width <? snd lr)) (combine left right) then Err ValueError else
  mapM (fun i =>
    match nth_error range_images i, nth_error left i, nth_error right i with
    | Some im, Some l, Some r => Ok (map (slice l r) im)
    | _, _, _ => Err IndexError
    end) (seq 0 (length range_images)).

(** ** compute_inclination (699-718) *)
Definition compute_inclination (lo hi : Q) (height : nat) : list Q :=
  tabulate height (fun k =>
    (((1 # 2) + inject_Z (Z.of_nat k)) / inject_Z (Z.of_nat height) * (hi - lo) + lo)%Q).
