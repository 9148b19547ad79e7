(** The codec of camera ray images: utils/compression/pca_codec.py and v2/perception/utils/object_asset_codec.py.

    Conventions.
    - Numbers are real numbers; the casts between float32 and float64 are not modelled.
    - A matrix is the list of its rows; the entry (i, k) is read with [ent].
    - tf.einsum is written as the sum it stands for. Lists whose length would be broadcast are refused.
    - eigen_values are stored but not used by the codec; to_json and from_json are not modelled. *)
From Coq Require Import Reals.
From Verif Require Import Base ResultLib GeomModel FrameModel LidModel NdArray TilingModel.
Open Scope list_scope.
Open Scope R_scope.

Definition sumr (n : nat) (f : nat -> R) : R := fold_right (fun i s => f i + s) 0 (seq 0 n).
Definition el (l : list R) (k : nat) : R := nth k l 0.
Definition ent (m : list (list R)) (i k : nat) : R := el (nth i m []) k.

(** pca_codec.py:30-47, PcaParams. *)
Record pca_params := { mean : list R; std : list R; eigen_vectors : list (list R) }.
(** 132-138, CodecConfig. *)
Record codec_config := { pca : pca_params; quantization : list R; tile_sz : nat }.
Definition n_components (p : pca_params) : nat := length (eigen_vectors p).
(** 79-87, Pca.__init__: the tensors exist and have matching sizes. *)
Definition pca_ok (p : pca_params) : bool :=
  Nat.ltb 0 (n_components p) && Nat.eqb (length (std p)) (length (mean p)) &&
  forallb (fun e => Nat.eqb (length e) (length (mean p))) (eigen_vectors p).

(** 89-91, Pca.transform, for a row. *)
Definition scaled (p : pca_params) (row : list R) (k : nat) : R := (el row k - el (mean p) k) / el (std p) k.
Definition transform (p : pca_params) (row : list R) : result (list R) :=
  if pca_ok p && Nat.eqb (length row) (length (mean p)) then
    Ok (tabulate (n_components p) (fun i => sumr (length (mean p)) (fun k => ent (eigen_vectors p) i k * scaled p row k)))
  else Err ValueError.
(** 93-95, Pca.inverse_transform, for a row. *)
Definition inverse_transform (p : pca_params) (coeffs : list R) : result (list R) :=
  if pca_ok p && Nat.eqb (length coeffs) (n_components p) then
    Ok (tabulate (length (mean p)) (fun k =>
      sumr (n_components p) (fun i => ent (eigen_vectors p) i k * el coeffs i) * el (std p) k + el (mean p) k))
  else Err ValueError.

(** 98-112, bucketed_quantization. np.max of no samples and a division by zero are refused. *)
Definition max_abs (l : list R) : R := fold_right (fun x m => Rmax (Rabs x) m) 0 l.
Definition bucketed_quantization (data : list (list R)) (num_buckets : list nat) : result (list R) :=
  match data with
  | [] => Err ValueError
  | _ => mapM (fun '(i, n) =>
           if Nat.eqb n 0 then Err RuntimeError else
           do column <- mapM (fun row => match nth_error row i with Some x => Ok x | None => Err IndexError end) data;
           Ok (max_abs column / INR n)) (combine (seq 0 (length num_buckets)) num_buckets)
  end.

(** 202-209, Codec._quantize, for a value. A zero step divides zero by zero: the integer that tf.cast makes of the result
    means nothing and is an error here. *)
Definition int_min : Z := (- 2 ^ 31)%Z.
Definition int_max : Z := (2 ^ 31 - 1)%Z.
Definition clip_by_value (v lo hi : R) : R := Rmax (Rmin v hi) lo.
Definition quantize (v q : R) : result Z :=
  if is_zero q then Err RuntimeError else
  Ok (round_even (clip_by_value v (IZR int_min * q) (IZR int_max * q) / q)).
Definition quantize_row (cfg : codec_config) (row : list R) : result (list Z) :=
  if Nat.eqb (length row) (length (quantization cfg)) then mapM (fun '(v, q) => quantize v q) (combine row (quantization cfg))
  else Err ValueError.
(** 211-212, Codec._inv_quantize, for a row. *)
Definition inv_quantize_row (cfg : codec_config) (row : list Z) : result (list R) :=
  if Nat.eqb (length row) (length (quantization cfg)) then Ok (map (fun '(k, q) => q * IZR k) (combine row (quantization cfg)))
  else Err ValueError.

(** The [n] rows of length [m] of a rank 2 tensor. *)
Definition rows {A} (n m : nat) (l : list A) : list (list A) := tabulate n (fun i => firstn m (skipn (i * m) l)).
(** 115-129, Code. *)
Record code := { reference : list R; quantized_values : list (list Z); shape : list nat }.
(** 165, tf.math.reduce_mean over the pixels, for a channel. *)
Definition channel_mean (h w c : nat) (elems : list R) (ch : nat) : R :=
  sumr (h * w) (fun p => el elems (p * c + ch)) / INR (h * w).
(** 150-168, codec_extract_tiles: the reference and the rows of the tiles. *)
Definition codec_extract_tiles (data : tensor R) (ts : nat) : result (list R * list (list R)) :=
  match tshape data with
  | [h; w; c] =>
      let ref := tabulate c (channel_mean h w c (telems data)) in
      do tiles <- extract_tiles 0 {| tshape := [h; w; c];
                                     telems := tabulate (h * w * c) (fun k => el (telems data) k - el ref (k mod c)) |} ts;
      match tshape tiles with
      | [n; m] => Ok (ref, rows n m (telems tiles))
      | _ => Err ValueError
      end
  | _ => Err ValueError
  end.
(** 171-184, codec_combine_tiles. *)
Definition codec_combine_tiles (ref : list R) (tiles : list (list R)) (m : nat) (sh : list nat) (ts : nat) : result (tensor R) :=
  match sh with
  | h :: w :: _ =>
      do offsets <- combine_tiles 0 {| tshape := [length tiles; m]; telems := concat tiles |} h w ts;
      match tshape offsets with
      | [_; _; c] =>
          if Nat.eqb (length ref) c then
            Ok {| tshape := tshape offsets;
                  telems := tabulate (length (telems offsets)) (fun k => el (telems offsets) k + el ref (k mod c)) |}
          else Err ValueError
      | _ => Err ValueError
      end
  | _ => Err IndexError
  end.
(** 214-230, Codec.encode. *)
Definition encode (cfg : codec_config) (data : tensor R) : result code :=
  do (ref, tiles) <- codec_extract_tiles data (tile_sz cfg);
  do values <- mapM (transform (pca cfg)) tiles;
  do q <- mapM (quantize_row cfg) values;
  Ok {| reference := ref; quantized_values := q; shape := tshape data |}.
(** 232-248, Codec.decode. *)
Definition decode (cfg : codec_config) (c : code) : result (tensor R) :=
  do values <- mapM (inv_quantize_row cfg) (quantized_values c);
  do tiles <- mapM (inverse_transform (pca cfg)) values;
  codec_combine_tiles (reference c) tiles (length (mean (pca cfg))) (shape c) (tile_sz cfg).

(** object_asset.py:209-258, the ray component and its compressed form; K is the type of the keys. *)
Record ray_component (K : Type) := { ray_key : K; ray_origin : option (tensor R); ray_direction : option (tensor R) }.
Record compressed_component (K : Type) :=
  { comp_key : K; comp_reference : list R; comp_values : list Z; comp_shape : list nat }.
Arguments ray_key {K}. Arguments ray_origin {K}. Arguments ray_direction {K}.
Arguments comp_key {K}. Arguments comp_reference {K}. Arguments comp_values {K}. Arguments comp_shape {K}.
(** tf.concat of two images along the last axis. *)
Definition concat_last (a b : tensor R) : result (tensor R) :=
  match tshape a, tshape b with
  | [h; w; c], [h'; w'; c'] =>
      if Nat.eqb h h' && Nat.eqb w w' then
        Ok {| tshape := [h; w; (c + c')%nat];
              telems := tabulate (h * w * (c + c')) (fun k =>
                let p := (k / (c + c'))%nat in let ch := (k mod (c + c'))%nat in
                if Nat.ltb ch c then el (telems a) (p * c + ch) else el (telems b) (p * c' + (ch - c))) |}
      else Err ValueError
  | _, _ => Err ValueError
  end.
(** tf.split(vec, [3, 3], axis=-1). *)
Definition split_33 (t : tensor R) : result (tensor R * tensor R) :=
  match tshape t with
  | [h; w; 6%nat] =>
      let part o := {| tshape := [h; w; 3%nat]; telems := tabulate (h * w * 3) (fun k => el (telems t) (k / 3 * 6 + o + k mod 3)) |} in
      Ok (part 0%nat, part 3%nat)
  | _ => Err ValueError
  end.
(** object_asset_codec.py:60-73, ObjectAssetRayCodec.encode. *)
Definition asset_encode {K} (cfg : codec_config) (src : ray_component K) : result (compressed_component K) :=
  match ray_origin src, ray_direction src with
  | Some o, Some d =>
      do vec <- concat_last o d;
      do c <- encode cfg vec;
      Ok {| comp_key := ray_key src; comp_reference := reference c; comp_values := concat (quantized_values c); comp_shape := shape c |}
  | _, _ => Err AssertionError
  end.
(** 75-99, ObjectAssetRayCodec.decode. *)
Definition asset_decode {K} (cfg : codec_config) (src : compressed_component K) : result (ray_component K) :=
  let q := length (quantization cfg) in
  let n := length (comp_values src) in
  if Nat.eqb q 0 then Err ValueError else
  if negb (Nat.eqb (n mod q) 0) then Err ValueError else
  do vec <- decode cfg {| reference := comp_reference src; quantized_values := rows (n / q) q (comp_values src); shape := comp_shape src |};
  do (o, d) <- split_33 vec;
  Ok {| ray_key := comp_key src; ray_origin := Some o; ray_direction := Some d |}.
