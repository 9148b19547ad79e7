(** What images of occupancy and flow should show. Shared with the model: the types of pixels, flows and layers. *)
From Coq Require Import Reals List.
From Verif Require Import Base FvisModel.
Import ListNotations.
Open Scope R_scope.

Definition red (p : rgb) : R := fst (fst p).
Definition green (p : rgb) : R := snd (fst p).
Definition blue (p : rgb) : R := snd p.
Definition in01 (x : R) : Prop := 0 <= x <= 1.
Definition in01_rgb (p : rgb) : Prop := in01 (red p) /\ in01 (green p) /\ in01 (blue p).

(** The power [x] to the [1/gamma], zero at zero. *)
Definition is_power (gamma x y : R) : Prop := (x = 0 /\ y = 0) \/ (0 < x /\ 0 < y /\ gamma * ln y = ln x).

(** One layer of a color over another, without loss. *)
Definition over (color alpha below : R) : R := color * alpha + below * (1 - alpha).
(** White, then roads in black, vehicles in red, pedestrians in green and cyclists in blue; a color is as strong as its alpha. *)
Definition ideal (v p c r : R) : rgb :=
  (over 0 c (over 0 p (over v v (over 0 r 1))),
   over 0 c (over (67 / 100 * p) p (over 0 v (over 0 r 1))),
   over c c (over 0 p (over 0 v (over 0 r 1)))).
(** Four divisions by slightly more than one, at most. *)
Definition near (eps x y : R) : Prop := y / (1 + eps) ^ 4 <= x <= y / (1 + eps).

(** The value of a layer at a pixel: zero if the layer is missing. *)
Definition value_at (l : option (list R)) (i : nat) : R := match l with Some l => nth i l 0 | None => 0 end.
Definition fits (n : nat) (l : option (list R)) : Prop := match l with Some l => List.length l = n | None => True end.

(** ** Flow *)
Definition length2 (f : flow) (m : R) : Prop := 0 <= m /\ m * m = fst f * fst f + snd f * snd f.
(** [h] is the direction of [f] as a part of a full turn. *)
Definition is_direction (f : flow) (h : R) : Prop :=
  0 <= h < 1 /\ ((exists m, length2 f m /\ 0 < m /\ fst f = m * cos (2 * PI * h) /\ snd f = m * sin (2 * PI * h)) \/ (f = (0, 0) /\ h = 0)).
(** [m] is the largest length in an image. *)
Definition largest (image : list flow) (m : R) : Prop :=
  (exists f, In f image /\ length2 f m) /\ forall f n, In f image -> length2 f n -> n <= m.
Definition zoom (k : R) (f : flow) : flow := (k * fst f, k * snd f).

(** The pixel at row [b], place [i]. *)
Definition at2 {A} (l : list (list A)) (b i : nat) : option A := match nth_error l b with Some r => nth_error r i | None => None end.
Definition same_sizes {A B} (l : list (list A)) (m : list (list B)) : Prop := map (@List.length A) l = map (@List.length B) m.
Definition well_shaped (flow_shape : list nat) : Prop := (3 <= List.length flow_shape)%nat /\ exists front, flow_shape = front ++ [2%nat].

(** The color of a direction [h] on the color circle, fully saturated: red, yellow, green, cyan, blue, magenta. *)
Definition circle (h : R) (p : rgb) : Prop :=
  (0 <= 6 * h <= 1 /\ p = (1, 6 * h, 0)) \/ (1 <= 6 * h <= 2 /\ p = (2 - 6 * h, 1, 0)) \/ (2 <= 6 * h <= 3 /\ p = (0, 1, 6 * h - 2))
  \/ (3 <= 6 * h <= 4 /\ p = (0, 4 - 6 * h, 1)) \/ (4 <= 6 * h <= 5 /\ p = (6 * h - 4, 0, 1)) \/ (5 <= 6 * h <= 6 /\ p = (1, 0, 6 - 6 * h)).
(** Mixed with white, and darkened. *)
Definition tinted (s : R) (p q : rgb) : Prop := red q = 1 - s + s * red p /\ green q = 1 - s + s * green p /\ blue q = 1 - s + s * blue p.
Definition darkened (k : R) (p q : rgb) : Prop := red q = k * red p /\ green q = k * green p /\ blue q = k * blue p.
(** Along y first. *)
Definition swapped (f : flow) : flow := (snd f, fst f).
