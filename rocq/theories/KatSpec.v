(** What the properties of the keypoint and object asset tutorials talk about. *)
From Coq Require Import QArith Qabs String.
From Verif Require Import Base CombModel KatModel.
Open Scope list_scope.

(** A keypoint of the result: the joint at some place of the order, visible, with its location. *)
Definition visible_joint {L} (locs : list L) (vis : list Z) (i : nat) (k : keypoint L) : Prop :=
  nth_error CANONICAL_ORDER_LASER i = Some (k_type k) /\ nth_error locs i = Some (k_location k) /\ (exists v, nth_error vis i = Some v /\ v <> 0%Z) /\ k_occluded k = false.
(** The pose for object i of a frame. *)
Definition pose_of {L B} (f : detected L B) (i : nat) (p : pose L B) : Prop :=
  p_context p = d_context f /\ p_time p = d_time f /\ nth_error (d_boxes f) i = Some (p_box p) /\
  exists l v, nth_error (d_locations f) i = Some l /\ nth_error (d_visible f) i = Some v /\ forall k, In k (p_keypoints p) <-> exists j, visible_joint l v j k.
(** The pixel shown: unchanged, or the blend of image and colour to within one. *)
Definition blended (value : Z) (mask : bool) (color : Z) (alpha : Q) (r : Z) : Prop :=
  (mask = false -> r = value) /\
  (mask = true -> (inject_Z r <= inject_Z value * (1 - alpha) + alpha * inject_Z color)%Q /\ (inject_Z value * (1 - alpha) + alpha * inject_Z color < inject_Z r + 1)%Q).
Definition byte (z : Z) : Prop := (0 <= z <= 255)%Z.
(** A rectangle of [h] rows of [w]. *)
Definition rectangle {A} (h w : nat) (g : list (list A)) : Prop := List.length g = h /\ Forall (fun r => List.length r = w) g.
Definition pixel {A} (g : list (list A)) (y x : nat) : option A := match nth_error g y with Some r => nth_error r x | None => None end.
