(** What the colors of segmentation labels talk about, without the code's helpers. *)
From Verif Require Import Base RgbModel.
Open Scope Z_scope.
Open Scope list_scope.

(** A color of bytes. *)
Definition byte (x : Z) : Prop := 0 <= x < 256.
Definition bytes (c : color) : Prop := byte (red c) /\ byte (green c) /\ byte (blue c).
(** An image of label rows, all of the given width. *)
Definition rectangular {A} (w : nat) (rows : list (list A)) : Prop := forall r, In r rows -> length r = w.
(** The pixel in row [y] and column [x]. *)
Definition pixel {A} (rows : list (list A)) (y x : nat) (a : A) : Prop :=
  exists r, nth_error rows y = Some r /\ nth_error r x = Some a.
(** The number of pixels of the rows agree. *)
Definition same_shape {A B} (a : list (list A)) (b : list (list B)) : Prop := map (@length A) a = map (@length B) b.

(** The row of the map that a label selects: labels count from the start, or from the end if negative. *)
Definition selects (m : list color) (k : Z) (c : color) : Prop :=
  exists i, nth_error m i = Some c /\ (k = Z.of_nat i \/ (k < 0 /\ k + Z.of_nat (length m) = Z.of_nat i)).
Definition in_map (m : list color) (k : Z) : Prop := - Z.of_nat (length m) <= k < Z.of_nat (length m).

(** A dictionary of classes: distinct numbers from zero up, with colors of bytes. *)
Definition class_colors (d : list (Z * color)) : Prop :=
  NoDup (map fst d) /\ forall k c, In (k, c) d -> 0 <= k /\ bytes c.

(** The green value of an instance before it is stored: between 50 below and 49 above. *)
Definition shifted_green (g i : Z) : Z := g + (41 * i) mod 100 - 50.
(** The product of the instance number and 41 is a number of the element type. *)
Definition fits (t : dtype) (x : Z) : Prop :=
  if signed t then - 2 ^ (bits t - 1) <= x < 2 ^ (bits t - 1) else 0 <= x < 2 ^ bits t.
(** The element types of NumPy. *)
Definition numpy_integer (t : dtype) : Prop := bits t = 8 \/ bits t = 16 \/ bits t = 32 \/ bits t = 64.
