(** C35, C36, C59, C60: range images. *)
From Verif Require Import Base RangeImageModel RangeImageSpec RangeImageProofs.
Open Scope Z_scope.

(** ** C35 Packing *)
Theorem C35_defined : forall r b e,
  is_ok (encode_lidar_feature (r, b, e)) = true <->
  (0 <= r <= inject_Z 65535 * resolution)%Q /\ (0 <= e <= inject_Z 255 * resolution)%Q.
Proof. exact encode_defined. Qed.
Print Assumptions C35_defined.

(** Unpacking gives back range and elongation up to one step, and the upper half of the intensity. *)
Theorem C35_round_trip : forall r b e v, 0 <= b < 2 ^ 32 -> encode_lidar_feature (r, b, e) = Ok v ->
  exists kr ke, steps r kr /\ steps e ke /\
    decode_lidar_feature v = ((inject_Z kr * resolution)%Q, b - b mod 65536, (inject_Z ke * resolution)%Q).
Proof. exact round_trip. Qed.
Print Assumptions C35_round_trip.

(** All three packed channels are ordered by range first. *)
Theorem C35_order : forall p p' v v', 0 <= snd (fst p) < 2 ^ 32 -> 0 <= snd (fst p') < 2 ^ 32 ->
  encode_lidar_feature p = Ok v -> encode_lidar_feature p' = Ok v' ->
  exists k k', steps (fst (fst p)) k /\ steps (fst (fst p')) k' /\
    fst (fst v) = k /\ fst (fst v') = k' /\
    (k < k' -> snd (fst v) < snd (fst v') /\ snd v < snd v') /\
    (snd (fst v) < snd (fst v') -> k <= k') /\ (snd v < snd v' -> k <= k').
Proof. exact packed_order. Qed.
Print Assumptions C35_order.

(** The image: a pixel nobody hits is zero; otherwise it has the smallest range, and its intensity and
    elongation are the smallest among the points of that range step. *)
Theorem C35_pixels : forall h w index feature n im,
  0 <= h -> 0 < w -> length index = length feature -> Forall (in_image h w) (firstn n index) ->
  (forall p, In p feature -> 0 <= snd (fst p) < 2 ^ 32) ->
  build_image h w index feature n = Ok im ->
  length im = Z.to_nat (h * w) /\
  forall r c d, in_image h w (r, c) ->
    let pts := at_pixel (firstn n index) (firstn n feature) (r, c) in
    let px := nth (Z.to_nat (r * w + c)) im d in
    (pts = [] -> px = ((inject_Z 0 * resolution)%Q, 0, (inject_Z 0 * resolution)%Q)) /\
    (pts <> [] -> exists k b e,
       px = ((inject_Z k * resolution)%Q, b * 65536, (inject_Z e * resolution)%Q) /\
       (forall p, In p pts -> (inject_Z k * resolution <= fst (fst p))%Q) /\
       (exists p, In p pts /\ steps (fst (fst p)) k /\ snd (fst p) / 65536 = b) /\
       (exists p, In p pts /\ steps (fst (fst p)) k /\ steps (snd p) e) /\
       (forall p, In p pts -> steps (fst (fst p)) k -> b <= snd (fst p) / 65536 /\ (inject_Z e * resolution <= snd p)%Q)).
Proof. exact build_image_pixels. Qed.
Print Assumptions C35_pixels.

(** A point nearer than all others of its pixel by at least one step decides the pixel. *)
Theorem C35_nearest : forall h w index feature n im,
  0 <= h -> 0 < w -> length index = length feature -> Forall (in_image h w) (firstn n index) ->
  (forall p, In p feature -> 0 <= snd (fst p) < 2 ^ 32) ->
  build_image h w index feature n = Ok im ->
  forall r c d p, in_image h w (r, c) ->
    In p (at_pixel (firstn n index) (firstn n feature) (r, c)) ->
    (forall q, In q (at_pixel (firstn n index) (firstn n feature) (r, c)) ->
       q = p \/ (fst (fst p) + resolution <= fst (fst q))%Q) ->
    exists k e, steps (fst (fst p)) k /\ steps (snd p) e /\
      nth (Z.to_nat (r * w + c)) im d =
        ((inject_Z k * resolution)%Q, snd (fst p) / 65536 * 65536, (inject_Z e * resolution)%Q).
Proof. exact build_image_nearest. Qed.
Print Assumptions C35_nearest.

(** An image is built exactly if every point can be packed, including the points beyond [n]. *)
Theorem C35_image_defined : forall h w index feature n,
  0 <= h -> 0 < w -> length index = length feature -> Forall (in_image h w) (firstn n index) ->
  (is_ok (build_image h w index feature n) = true <->
   forall p, In p feature -> (0 <= fst (fst p) <= inject_Z 65535 * resolution)%Q /\ (0 <= snd p <= inject_Z 255 * resolution)%Q).
Proof. exact build_image_defined. Qed.
Print Assumptions C35_image_defined.

(** Points of equal range step: the pixel may carry the intensity of one and the elongation of the other. *)
Theorem C35_features_of_one_point_refuted : exists index feature im,
  build_image 1 1 index feature (length index) = Ok im /\
  length index = length feature /\ Forall (in_image 1 1) index /\
  ~ In (nth 0 im (0%Q, 0, 0%Q)) (map decode_lidar_feature (match encode_lidar_features feature with Ok l => l | Err _ => [] end)).
Proof. exact mixed_features. Qed.
Print Assumptions C35_features_of_one_point_refuted.

Example C35_example : build_image 1 2 [(0, 1); (0, 1); (0, 0)] [(2%Q, 65537, 1%Q); (1%Q, 131072, 0%Q); (1%Q, 0, 0%Q)] 2
  = Ok [((inject_Z 0 * resolution)%Q, 0, (inject_Z 0 * resolution)%Q); ((inject_Z 170 * resolution)%Q, 131072, (inject_Z 0 * resolution)%Q)].
Proof. vm_compute. reflexivity. Qed.

(** ** C36 Azimuth to column, inclination to row *)
Theorem C36_inside : forall pi w, (0 < pi)%Q -> 0 < w -> forall az, (- pi < az <= pi)%Q -> 0 <= column pi w az < w.
Proof. exact column_inside. Qed.
Print Assumptions C36_inside.

(** Only the azimuth exactly -pi is refused, and only for an even width. *)
Theorem C36_refused : forall pi w, (0 < pi)%Q -> 0 < w -> forall az, (- pi <= az <= pi)%Q ->
  (is_ok (checked_column pi w az) = false <-> (az == - pi)%Q /\ Z.even w = true).
Proof. exact checked_column_spec. Qed.
Print Assumptions C36_refused.

(** The column is one whose centre is nearest. *)
Theorem C36_nearest_column : forall pi w, (0 < pi)%Q -> 0 < w -> forall az,
  (Qabs (az - centre pi w (column pi w az)) <= pi / inject_Z w)%Q.
Proof. exact column_nearest. Qed.
Print Assumptions C36_nearest_column.

Theorem C36_monotone : forall pi w, (0 < pi)%Q -> 0 < w -> forall az az', (az <= az')%Q ->
  column pi w az' <= column pi w az.
Proof. exact column_antitone. Qed.
Print Assumptions C36_monotone.

(** The folded azimuth is the same direction within [-pi, pi]. *)
Theorem C36_folding : forall pi az, (0 < pi)%Q -> (- (2 * pi) <= az <= 2 * pi)%Q ->
  (- pi <= fold_azimuth pi az <= pi)%Q /\ same_direction pi (fold_azimuth pi az) az.
Proof. exact fold_azimuth_spec. Qed.
Print Assumptions C36_folding.

(** A point in the direction the range image assigns to a pixel goes back to that pixel's column,
    whatever the azimuth correction of the sensor. *)
Theorem C36_round_trip : forall pi w corr az c, (0 < pi)%Q -> 0 < w -> 0 <= c < w ->
  (- pi <= corr <= pi)%Q -> (- pi <= az <= pi)%Q -> same_direction pi az (column_azimuth pi w corr c) ->
  checked_column pi w (fold_azimuth pi (az + corr)) = Ok c.
Proof. exact azimuth_round_trip. Qed.
Print Assumptions C36_round_trip.

(** The row is the first one of nearest inclination. *)
Theorem C36_row : forall inclination incl, inclination <> [] ->
  (row inclination incl < length inclination)%nat /\
  (forall j, (j < length inclination)%nat ->
     (Qabs (incl - nth (row inclination incl) inclination 0) <= Qabs (incl - nth j inclination 0))%Q) /\
  (forall j, (j < row inclination incl)%nat ->
     (Qabs (incl - nth (row inclination incl) inclination 0) < Qabs (incl - nth j inclination 0))%Q).
Proof. exact row_nearest. Qed.
Print Assumptions C36_row.

Theorem C36_row_round_trip : forall inclination k, (k < length inclination)%nat ->
  (forall j, (j < k)%nat -> ~ (nth j inclination 0 == nth k inclination 0)%Q) ->
  forall incl, (incl == nth k inclination 0)%Q -> row inclination incl = k.
Proof. exact row_exact. Qed.
Print Assumptions C36_row_round_trip.

(** A whole pixel. *)
Theorem C36_pixel : forall pi w inclination corr az incl rc,
  pixel_of_point pi w inclination corr az incl = Ok rc <->
  checked_column pi w (fold_azimuth pi (az + corr)) = Ok (snd rc) /\ fst rc = Z.of_nat (row inclination incl).
Proof. exact pixel_of_point_spec. Qed.
Print Assumptions C36_pixel.

(** The azimuth -pi is within the documented range. *)
Theorem C36_every_azimuth_refuted : exists az, (- (22 # 7) <= az <= 22 # 7)%Q /\ checked_column (22 # 7) 4 az = Err ValueError.
Proof. exact seam_refused. Qed.
Print Assumptions C36_every_azimuth_refuted.

Example C36_example : pixel_of_point (22 # 7) 4 [1%Q; 0%Q] (11 # 7) (22 # 7) (1 # 3) = Ok (1, 2).
Proof. vm_compute. reflexivity. Qed.
Example C36_example_round_trip : same_direction (22 # 7) (column_azimuth (22 # 7) 4 (11 # 7) 0 + 0) (column_azimuth (22 # 7) 4 (11 # 7) 0)
  /\ checked_column (22 # 7) 4 (fold_azimuth (22 # 7) (column_azimuth (22 # 7) 4 (11 # 7) 0 + (11 # 7))) = Ok 0.
Proof. split; [exists 0; vm_compute; reflexivity|vm_compute; reflexivity]. Qed.

(** ** C59 Scattering and depth images *)
Theorem C59_pixels : forall (V : Type) (zero : V) add pool h w index (value : list V),
  (forall v, add zero v = v) -> 0 <= h -> 0 < w -> length index = length value -> Forall (in_image h w) index ->
  exists im, scatter_nd_with_pool zero add pool h w index value = Ok im /\ length im = Z.to_nat (h * w) /\
    forall r c, in_image h w (r, c) -> nth (Z.to_nat (r * w + c)) im zero =
      match at_pixel index value (r, c) with [] => zero | l => pool l end.
Proof. exact @scatter_pixels. Qed.
Print Assumptions C59_pixels.

(** For all indices: only the flat index is checked. *)
Theorem C59_flat : forall (V : Type) (zero : V) add pool, (forall v, add zero v = v) ->
  forall h w index (value : list V), 0 <= h -> 0 < w -> length index = length value ->
  match scatter_nd_with_pool zero add pool h w index value with
  | Ok im => (forall rc, In rc index -> 0 <= fst rc * w + snd rc < h * w) /\
      length im = Z.to_nat (h * w) /\
      forall p, 0 <= p < h * w -> nth (Z.to_nat p) im zero =
        match at_flat w index value p with [] => zero | l => pool l end
  | Err _ => exists rc, In rc index /\ ~ 0 <= fst rc * w + snd rc < h * w
  end.
Proof. exact @scatter_flat. Qed.
Print Assumptions C59_flat.

(** A column index equal to the width is not rejected but lands in the next row. *)
Theorem C59_outside_rejected_refuted : exists im,
  scatter_nd_with_pool 0 Z.add (fun l => nth 0 l 0) 2 3 [(0, 3)] [7] = Ok im /\
  nth (Z.to_nat (1 * 3 + 0)) im 0 = 7.
Proof. exact scatter_alias. Qed.
Print Assumptions C59_outside_rejected_refuted.

(** The depth of a camera pixel is the smallest distance of the points shown there. *)
Theorem C59_depth_image : forall h w camera l, 0 <= h -> 0 < w ->
  (forall p rc, In p l -> shown_at camera (name1 p, x1 p, y1 p) (name2 p, x2 p, y2 p) = Some rc -> in_image h w rc) ->
  exists im, depth_image h w camera l = Ok im /\ length im = Z.to_nat (h * w) /\
  forall r c, in_image h w (r, c) ->
    let px := nth (Z.to_nat (r * w + c)) im 0%Q in
    let at_rc p := shown_at camera (name1 p, x1 p, y1 p) (name2 p, x2 p, y2 p) = Some (r, c) in
    ((forall p, In p l -> ~ at_rc p) -> px = 0%Q) /\
    (forall p, In p l -> at_rc p -> (px <= depth p)%Q) /\
    ((exists p, In p l /\ at_rc p) -> exists p, In p l /\ at_rc p /\ px = depth p).
Proof. exact depth_image_pixels. Qed.
Print Assumptions C59_depth_image.

Example C59_example : depth_image 2 2 1
  [{| name1 := 1; x1 := 0; y1 := 1; name2 := 0; x2 := 0; y2 := 0; depth := 3 |};
   {| name1 := 2; x1 := 1; y1 := 1; name2 := 1; x2 := 0; y2 := 1; depth := 2 |};
   {| name1 := 3; x1 := 0; y1 := 0; name2 := 0; x2 := 0; y2 := 0; depth := 9 |}] = Ok [0%Q; 0%Q; 2%Q; 0%Q].
Proof. vm_compute. reflexivity. Qed.

(** ** C60 Cropping and inclinations *)
Theorem C60_crop_defined : forall (A : Type) width new_width shift (ims : list (list (list A))), width <> new_width ->
  (is_ok (crop_range_image width new_width shift ims) = true <->
   1 <= new_width < width /\
   (forall s, In s (match shift with None => repeat 0 (length ims) | Some l => l end) ->
      0 <= (width - new_width) / 2 + s <= width - new_width) /\
   (forall l, shift = Some l -> (length ims <= length l)%nat)).
Proof. exact @crop_defined. Qed.
Print Assumptions C60_crop_defined.

Theorem C60_crop_pixels : forall (A : Type) width new_width shift (ims out : list (list (list A))), width <> new_width ->
  (forall im row, In im ims -> In row im -> Z.of_nat (length row) = width) ->
  crop_range_image width new_width shift ims = Ok out ->
  length out = length ims /\
  forall b im, nth_error ims b = Some im -> exists oim, nth_error out b = Some oim /\ length oim = length im /\
    forall r row, nth_error im r = Some row -> exists orow, nth_error oim r = Some orow /\
      Z.of_nat (length orow) = new_width /\
      forall c, 0 <= c < new_width -> nth_error orow (Z.to_nat c) =
        nth_error row (Z.to_nat ((width - new_width) / 2 + match shift with None => 0 | Some s => nth b s 0 end + c)).
Proof. exact @crop_pixels. Qed.
Print Assumptions C60_crop_pixels.

(** Equal widths: the images come back as they are, and an impossible shift is not rejected. *)
Theorem C60_same_width : forall (A : Type) width shift (ims : list (list (list A))),
  crop_range_image width width shift ims = Ok ims.
Proof. exact @crop_same_width. Qed.
Print Assumptions C60_same_width.

Theorem C60_inclinations : forall lo hi height, (lo <= hi)%Q ->
  length (compute_inclination lo hi height) = height /\
  forall k, (k < height)%nat ->
    (lo <= nth k (compute_inclination lo hi height) 0 <= hi)%Q /\
    (nth k (compute_inclination lo hi height) 0 == lo + (inject_Z (2 * Z.of_nat k + 1) / inject_Z (2 * Z.of_nat height)) * (hi - lo))%Q /\
    (nth k (compute_inclination lo hi height) 0 + nth (height - 1 - k) (compute_inclination lo hi height) 0 == lo + hi)%Q.
Proof. exact inclination_spec. Qed.
Print Assumptions C60_inclinations.

Theorem C60_inclination_order : forall lo hi height k k', (lo < hi)%Q -> (k < k' < height)%nat ->
  (nth k (compute_inclination lo hi height) 0 < nth k' (compute_inclination lo hi height) 0)%Q.
Proof. exact inclination_order. Qed.
Print Assumptions C60_inclination_order.

Example C60_example : crop_range_image 4 2 (Some [1; -1]) [[[1; 2; 3; 4]]; [[5; 6; 7; 8]]] = Ok [[[3; 4]]; [[5; 6]]]
  /\ crop_range_image 4 2 (Some [2; 0]) [[[1; 2; 3; 4]]; [[5; 6; 7; 8]]] = Err ValueError.
Proof. split; reflexivity. Qed.
