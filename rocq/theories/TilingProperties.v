(** Property C04: cutting an image into tiles and putting it back together. *)
From Verif Require Import Base NdArray TilingModel TilingSpec TilingProofs.
Open Scope nat_scope.

(** C04. For every image, tile size and element type, tiles have the documented shape and
    combine to the original image. [pad_allowed] is the precise condition under which the
    reflection padding exists: at most n - 1 elements are added to a side of length n. *)
Theorem C04_combine_extract_identity : forall A (d : A) (x : tensor A) h w c ts,
  tshape x = [h; w; c] -> length (telems x) = prodl (tshape x) -> 0 < ts ->
  pad_allowed h ts -> pad_allowed w ts ->
  exists tiles,
    extract_tiles d x ts = Ok tiles /\
    tshape tiles = [ceil_div h ts * ceil_div w ts; ts * ts * c] /\
    length (telems tiles) = prodl (tshape tiles) /\
    combine_tiles d tiles h w ts = Ok x.
Proof. exact (@combine_extract). Qed.
Print Assumptions C04_combine_extract_identity.

(** C04. The content of every tile: entry (y, x, ch) of tile (ty, tx) is the image value at
    row ty * ts + y and column tx * ts + x, mirrored at the border. *)
Theorem C04_tile_content : forall A (d : A) (x : tensor A) h w c ts,
  tshape x = [h; w; c] -> 0 < ts -> pad_allowed h ts -> pad_allowed w ts ->
  exists tiles,
    extract_tiles d x ts = Ok tiles /\
    tshape tiles = [ceil_div h ts * ceil_div w ts; ts * ts * c] /\
    length (telems tiles) = prodl (tshape tiles) /\
    (forall ty tx y xx ch r q, ty < ceil_div h ts -> tx < ceil_div w ts -> y < ts -> xx < ts -> ch < c ->
      mirrored h (ty * ts + y) r -> mirrored w (tx * ts + xx) q ->
      nth (ravel [ceil_div h ts; ceil_div w ts; ts; ts; c] [ty; tx; y; xx; ch]) (telems tiles) d =
      nth (ravel [h; w; c] [r; q; ch]) (telems x) d).
Proof. exact (@extract_content). Qed.
Print Assumptions C04_tile_content.

(** C04. The number of tiles along a side is the fewest that cover it. *)
Theorem C04_tile_count : forall n ts, 0 < ts -> fewest_tiles n ts (ceil_div n ts).
Proof. exact ceil_div_fewest. Qed.
Print Assumptions C04_tile_count.

Theorem C04_small_image_rejected : forall A (d : A) (x : tensor A) h w c ts,
  tshape x = [h; w; c] -> 0 < ts -> ~ (pad_allowed h ts /\ pad_allowed w ts) ->
  extract_tiles d x ts = Err ValueError.
Proof. exact (@extract_rejects). Qed.
Print Assumptions C04_small_image_rejected.

Theorem C04_indivisible_tiles_rejected : forall A (d : A) (t : tensor A) h w ts,
  0 < ts -> last (tshape t) 0 mod (ts * ts) <> 0 -> combine_tiles d t h w ts = Err ValueError.
Proof. exact (@combine_rejects). Qed.
Print Assumptions C04_indivisible_tiles_rejected.

(** ** Non-vacuity: a 3x5 image with tile size 2 needs padding in both directions. *)
Definition img : tensor nat := {| tshape := [3; 5; 1]; telems := seq 100 15 |}.
Example img_admissible :
  length (telems img) = prodl (tshape img) /\ pad_allowed 3 2 /\ pad_allowed 5 2.
Proof. unfold pad_allowed. vm_compute. repeat split; repeat constructor. Qed.
Example img_tiles : extract_tiles 0 img 2 = Ok {| tshape := [6; 4]; telems :=
  [100;101;105;106; 102;103;107;108; 104;103;109;108;
   110;111;105;106; 112;113;107;108; 114;113;109;108] |}.
Proof. vm_compute. reflexivity. Qed.
Example img_mirrored : mirrored 3 3 1 /\ mirrored 5 5 3 /\ mirrored 5 4 4.
Proof. unfold mirrored. lia. Qed.
Example img_back :
  match extract_tiles 0 img 2 with Ok t => combine_tiles 0 t 3 5 2 | Err e => Err e end = Ok img.
Proof. vm_compute. reflexivity. Qed.
Example tiny_rejected : extract_tiles 0 {| tshape := [1; 5; 1]; telems := seq 0 5 |} 2 = Err ValueError.
Proof. vm_compute. reflexivity. Qed.
