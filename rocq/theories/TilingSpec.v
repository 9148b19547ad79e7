(** What the tiling property talks about, without the code's helpers. *)
From Verif Require Import Base TilingModel.
Open Scope nat_scope.

(** Coordinate [m] of a side of length [n] is what a mirror placed on the last
    element shows at coordinate [i]. *)
Definition mirrored (n i m : nat) : Prop :=
  (i < n /\ m = i) \/ (n <= i /\ m + i = 2 * (n - 1)).

(** [k] tiles of size [ts] are the fewest that cover a side of length [n]. *)
Definition fewest_tiles (n ts k : nat) : Prop :=
  n <= k * ts /\ forall k', n <= k' * ts -> k <= k'.

(** Mirroring can fill the tiles of a side of length [n]: at most n - 1 elements are added
    ([ceil_div n ts] is the fewest number of tiles, theorem C04_tile_count). *)
Definition pad_allowed (n ts : nat) : Prop := ceil_div n ts * ts - n <= n - 1.
