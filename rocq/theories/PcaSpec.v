(** What the ray codec promises.  Only the types of its inputs come from the model. *)
From Coq Require Import Reals List ZArith.
From Verif Require Import TilingModel TilingSpec PcaModel.
Import ListNotations.
Open Scope R_scope.

Fixpoint total (n : nat) (f : nat -> R) : R := match n with O => 0 | S m => total m f + f m end.
Definition same (i j : nat) : R := if Nat.eqb i j then 1 else 0.
(** The entry [k] of a list and the entry [k] of component [i]. *)
Definition at_ (l : list R) (k : nat) : R := nth k l 0.
Definition comp (p : pca_params) (i k : nat) : R := nth k (nth i (eigen_vectors p) []) 0.

(** The components are vectors of length one at right angles; and they span everything. *)
Definition orthonormal (p : pca_params) : Prop :=
  forall i j, (i < length (eigen_vectors p))%nat -> (j < length (eigen_vectors p))%nat ->
    total (length (mean p)) (fun k => comp p i k * comp p j k) = same i j.
Definition spanning (p : pca_params) : Prop :=
  forall k l, (k < length (mean p))%nat -> (l < length (mean p))%nat ->
    total (length (eigen_vectors p)) (fun i => comp p i k * comp p i l) = same k l.
(** Parameters that fit vectors of [m] numbers. *)
Definition fits (p : pca_params) (m : nat) : Prop :=
  (0 < length (eigen_vectors p))%nat /\ length (mean p) = m /\ length (std p) = m /\
  (forall e, In e (eigen_vectors p) -> length e = m) /\ (forall k, (k < m)%nat -> at_ (std p) k <> 0).
(** A configuration for images with [c] channels. *)
Definition config_fits (cfg : codec_config) (c : nat) : Prop :=
  (0 < tile_sz cfg)%nat /\ fits (pca cfg) (tile_sz cfg * tile_sz cfg * c) /\
  length (quantization cfg) = length (eigen_vectors (pca cfg)) /\ Forall (fun q => 0 < q) (quantization cfg).

(** A vector in units of standard deviations from the mean, and the part of it that the components span. *)
Definition standard (p : pca_params) (v : nat -> R) (k : nat) : R := (v k - at_ (mean p) k) / at_ (std p) k.
Definition coefficient (p : pca_params) (v : nat -> R) (i : nat) : R :=
  total (length (mean p)) (fun l => comp p i l * standard p v l).
Definition built (p : pca_params) (c : nat -> R) (k : nat) : R :=
  at_ (mean p) k + at_ (std p) k * total (length (eigen_vectors p)) (fun i => c i * comp p i k).
(** Squared distance to the vector with coefficients [c], in units of standard deviations. *)
Definition misfit (p : pca_params) (v c : nat -> R) : R :=
  total (length (mean p)) (fun k => (standard p v k - total (length (eigen_vectors p)) (fun i => c i * comp p i k)) ^ 2).
(** How far half a quantization step of every component can move entry [k]. *)
Definition step_error (cfg : codec_config) (k : nat) : R :=
  Rabs (at_ (std (pca cfg)) k) *
  total (length (eigen_vectors (pca cfg))) (fun i => Rabs (comp (pca cfg) i k) * (at_ (quantization cfg) i / 2)).

(** [k] is the integer nearest to [x], the even one of two. *)
Definition nearest (x : R) (k : Z) : Prop :=
  Rabs (x - IZR k) <= / 2 /\ (Rabs (x - IZR k) = / 2 -> Z.even k = true).
Definition int32 (k : Z) : Prop := (- 2 ^ 31 <= k <= 2 ^ 31 - 1)%Z.
Definition saturated (k : Z) : Prop := k = (- 2 ^ 31)%Z \/ k = (2 ^ 31 - 1)%Z.
Definition unsaturated (c : code) : Prop := Forall (Forall (fun k => ~ saturated k)) (quantized_values c).

(** Images. *)
Definition pixel (t : tensor R) (w c y x ch : nat) : R := nth ((y * w + x) * c + ch) (telems t) 0.
Definition image (t : tensor R) (h w c : nat) : Prop := tshape t = [h; w; c] /\ length (telems t) = (h * w * c)%nat.
Definition average (t : tensor R) (h w c ch : nat) : R :=
  total (h * w) (fun p => nth (p * c + ch) (telems t) 0) / INR (h * w).
(** The place of (y, x, ch) in its tile, and the vector of the tile that starts at (y0, x0): offsets from the
    average, mirrored at the border of the image. *)
Definition place (ts c y x ch : nat) : nat := ((y mod ts * ts + x mod ts) * c + ch)%nat.
Definition tile_vector (t : tensor R) (h w c ts y0 x0 : nat) (v : nat -> R) : Prop :=
  forall y x ch r q, (y < ts)%nat -> (x < ts)%nat -> (ch < c)%nat ->
    mirrored h (y0 + y) r -> mirrored w (x0 + x) q ->
    v ((y * ts + x) * c + ch)%nat = pixel t w c r q ch - average t h w c ch.
(** An image with a constant added to every channel. *)
Definition shifted (t t' : tensor R) (h w c : nat) (by_ : nat -> R) : Prop :=
  forall y x ch, (y < h)%nat -> (x < w)%nat -> (ch < c)%nat -> pixel t' w c y x ch = pixel t w c y x ch + by_ ch.
(** The vector that a row of quantized values stands for. *)
Definition decoded_vector (cfg : codec_config) (ks : list Z) (k : nat) : R :=
  built (pca cfg) (fun i => at_ (quantization cfg) i * IZR (nth i ks 0%Z)) k.
