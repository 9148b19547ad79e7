(** Model of utils/compression/tiling.py.
    Simplification: _ceil (lines 20-21) goes through a float32 tensor, which is exact for
    sizes below 2^23; it is modelled as the exact integer ceiling. Elements have any type. *)
From Verif Require Import Base NdArray.
Open Scope nat_scope.

(** _ceil(a / b) (tiling.py:20-21, 47-52). *)
Definition ceil_div (a b : nat) : nat := (a + b - 1) / b.

(** _TileShapeInfo (tiling.py:24-79). *)
Record tile_info := { orig_height : nat; orig_width : nat; tile_size : nat; dims : nat }.
Definition num_tiles_y (i : tile_info) := ceil_div (orig_height i) (tile_size i).
Definition num_tiles_x (i : tile_info) := ceil_div (orig_width i) (tile_size i).
Definition padded_height (i : tile_info) := num_tiles_y i * tile_size i.
Definition padded_width (i : tile_info) := num_tiles_x i * tile_size i.

(** A tensor: shape and row-major elements. *)
Record tensor (A : Type) := { tshape : list nat; telems : list A }.
Arguments tshape {A}. Arguments telems {A}.

(** tf.reshape: InvalidArgumentError when the element counts differ. *)
Definition reshape {A} (t : tensor A) (sh : list nat) : result (tensor A) :=
  if Nat.eqb (length (telems t)) (prodl sh)
  then Ok {| tshape := sh; telems := telems t |} else Err ValueError.

(** tf.transpose. *)
Definition transpose_t {A} (d : A) (t : tensor A) (p : list nat) : tensor A :=
  {| tshape := permute p (tshape t); telems := transpose d (tshape t) p (telems t) |}.

(** Source coordinate of a REFLECT-padded coordinate (padding only at the end). *)
Definition reflect (n i : nat) : nat := if Nat.ltb i n then i else 2 * (n - 1) - i.

(** tf.pad(data, [[0, ph - h], [0, pw - w], [0, 0]], mode='REFLECT') (tiling.py:94-99).
    TensorFlow rejects paddings greater than dimension - 1. *)
Definition pad_reflect {A} (d : A) (h w c ph pw : nat) (xs : list A) : result (tensor A) :=
  if Nat.leb (ph - h) (h - 1) && Nat.leb (pw - w) (w - 1) then
    Ok {| tshape := [ph; pw; c];
          telems := tabulate (prodl [ph; pw; c]) (fun k =>
            match unravel [ph; pw; c] k with
            | [i; j; ch] => nth (ravel [h; w; c] [reflect h i; reflect w j; ch]) xs d
            | _ => d
            end) |}
  else Err ValueError.

(** extract_tiles (tiling.py:82-111); a zero tile size is a division by zero. *)
Definition extract_tiles {A} (d : A) (data : tensor A) (ts : nat) : result (tensor A) :=
  match tshape data with
  | [h; w; c] =>
      if Nat.eqb ts 0 then Err ValueError else
      let info := {| orig_height := h; orig_width := w; tile_size := ts; dims := c |} in
      do padded <- pad_reflect d h w c (padded_height info) (padded_width info) (telems data);
      do pre <- reshape padded [num_tiles_y info; ts; num_tiles_x info; ts; c];
      let tiles := transpose_t d pre [0; 2; 1; 3; 4] in
      reshape tiles [num_tiles_y info * num_tiles_x info; ts * ts * c]
  | _ => Err ValueError
  end.

(** padded[:h, :w, :] for a rank 3 tensor (tiling.py:152); slices clip at the size. *)
Definition crop {A} (d : A) (t : tensor A) (h w : nat) : result (tensor A) :=
  match tshape t with
  | [ph; pw; c] =>
      let sh := [Nat.min h ph; Nat.min w pw; c] in
      Ok {| tshape := sh;
            telems := tabulate (prodl sh)
              (fun k => nth (ravel [ph; pw; c] (unravel sh k)) (telems t) d) |}
  | _ => Err ValueError
  end.

(** combine_tiles (tiling.py:114-152). *)
Definition combine_tiles {A} (d : A) (tiles : tensor A) (h w ts : nat) : result (tensor A) :=
  if Nat.eqb ts 0 then Err ValueError else
  let width := last (tshape tiles) 0 in
  let c := width / (ts * ts) in
  if negb (Nat.eqb width (ts * ts * c)) then Err ValueError else
  let info := {| orig_height := h; orig_width := w; tile_size := ts; dims := c |} in
  do t5 <- reshape tiles [num_tiles_y info; num_tiles_x info; ts; ts; c];
  let pre := transpose_t d t5 [0; 2; 1; 3; 4] in
  do padded <- reshape pre [padded_height info; padded_width info; c];
  crop d padded h w.
