(** Occupancy and flow grids in plain terms. *)
From Coq Require Import Reals List Arith ZArith Lra Bool.
From Verif Require Import Base WayModel OccModel.
Import ListNotations.
Open Scope R_scope.

(** The nearest integer; of two, the even one. *)
Definition nearest (x : R) (z : Z) : Prop :=
  Rabs (x - IZR z) <= 1 / 2 /\ (Rabs (x - IZR z) = 1 / 2 -> Z.even z = true).
(** A place in the world as seen from the autonomous vehicle: metres to its right and ahead of it, or, if the grids are
    not turned with it, metres along the axes of the world. *)
Definition seen_from_vehicle (c : render_config) (sc : scene) (p : R * R) : R * R :=
  let dx := fst p - sdc_x sc in
  let dy := snd p - sdc_y sc in
  if normalize_sdc_yaw c then
    (dx * sin (sdc_yaw sc) - dy * cos (sdc_yaw sc), dx * cos (sdc_yaw sc) + dy * sin (sdc_yaw sc))
  else (dx, dy).
(** The cell of a place: columns count to the right and rows count downwards, from the cell of the vehicle. *)
Definition falls_in (c : render_config) (sc : scene) (p : R * R) (r q : Z) : Prop :=
  let s := seen_from_vehicle c sc p in
  nearest (fst s * pixels_per_meter c) (q - sdc_x_in_grid c) /\ nearest (- (snd s * pixels_per_meter c)) (r - sdc_y_in_grid c).
Definition in_grid (c : render_config) (r q : Z) : Prop := (0 <= r < grid_height_cells c /\ 0 <= q < grid_width_cells c)%Z.

(** The fractions of a side at which a box is sampled, from one end to the other; a single one in the middle. *)
Definition fraction (n i : nat) : R := if Nat.eqb n 1 then 0 else INR i / INR (n - 1) - 1 / 2.
(** A place in a box, given by fractions of its length and of its width. *)
Definition box_place (s : state) (a b : R) : R * R :=
  (pos_x s + a * box_length s * cos (bbox_yaw s) - b * box_width s * sin (bbox_yaw s),
   pos_y s + a * box_length s * sin (bbox_yaw s) + b * box_width s * cos (bbox_yaw s)).
Definition sample_of (c : render_config) (s : state) (i j : nat) : R * R :=
  box_place s (fraction (points_per_side_length c) i) (fraction (points_per_side_width c) j).
(** A state marks a cell: one of its samples falls there. *)
Definition marks (c : render_config) (sc : scene) (s : state) (r q : Z) : Prop :=
  exists i j, (i < points_per_side_length c)%nat /\ (j < points_per_side_width c)%nat /\ falls_in c sc (sample_of c s i j) r q.

(** The states of an agent over the requested times, in the order requested. *)
Definition states (ts : list times) (a : agent) : list state :=
  concat (map (fun t => match t with Past => past a | Current => current a | Future => future a end) ts).
(** An agent counts as observed if it is valid at some time up to the present. *)
Definition observed (a : agent) : Prop := exists s, In s (past a ++ current a) /\ valid s = true.
Definition observed_now (a : agent) : Prop := exists s, In s (current a) /\ valid s = true.
Definition wanted (ts : list times) (include_observed include_occluded : bool) (a : agent) : Prop :=
  In Future ts -> (observed a -> include_observed = true) /\ (~ observed a -> include_occluded = true).

(** A class occupies a cell at a step. *)
Definition occupies (c : render_config) (sc : scene) (ts : list times) (obs occ : bool) (class : Z) (r q : Z) (t : nat) : Prop :=
  exists a s, In a (agents sc) /\ agent_type a = class /\ wanted ts obs occ a /\
    nth_error (states ts a) t = Some s /\ valid s = true /\ marks c sc s r q.

(** The requested times cover the steps they should. *)
Definition complete (c : render_config) (ts : list times) (sc : scene) : Prop :=
  forall a, In a (agents sc) -> length (states ts a) = num_steps c ts.
Definition sampled (c : render_config) : Prop := (0 < points_per_side_length c /\ 0 < points_per_side_width c)%nat.

(** The flow of a cell at a step: the displacements, back in time, of the samples that fall there, of agents valid
    at both times. *)
Record sample_id := { of_agent : nat; at_i : nat; at_j : nat }.
Definition displaced (c : render_config) (sc : scene) (before after : state) (i j : nat) (r q : Z) (d : Z * Z) : Prop :=
  falls_in c sc (sample_of c after i j) r q /\ falls_in c sc (sample_of c before i j) (r + snd d) (q + fst d).
Definition contributes (c : render_config) (sc : scene) (ts : list times) (obs occ : bool) (size : nat) (class : Z) (r q : Z) (t : nat)
  (k : sample_id) (d : Z * Z) : Prop :=
  (at_i k < points_per_side_length c)%nat /\ (at_j k < points_per_side_width c)%nat /\
  exists a before after, nth_error (agents sc) (of_agent k) = Some a /\ agent_type a = class /\ wanted ts obs occ a /\
    nth_error (states ts a) t = Some before /\ nth_error (states ts a) (t + size) = Some after /\
    valid before = true /\ valid after = true /\ displaced c sc before after (at_i k) (at_j k) r q d.
Definition mean_displacement (l : list (Z * Z)) : R * R :=
  match l with
  | [] => (0, 0)
  | _ => (IZR (fold_right Z.add 0%Z (map fst l)) / INR (length l), IZR (fold_right Z.add 0%Z (map snd l)) / INR (length l))
  end.

(** Moving the whole world. *)
Definition move_point (angle dx dy : R) (x y : R) : R * R := (cos angle * x - sin angle * y + dx, sin angle * x + cos angle * y + dy).
Definition move_state (angle dx dy : R) (s : state) : state :=
  {| pos_x := fst (move_point angle dx dy (pos_x s) (pos_y s)); pos_y := snd (move_point angle dx dy (pos_x s) (pos_y s));
     bbox_yaw := bbox_yaw s + angle; box_length := box_length s; box_width := box_width s; valid := valid s |}.
Definition move_agent (angle dx dy : R) (a : agent) : agent :=
  {| agent_type := agent_type a; past := map (move_state angle dx dy) (past a); current := map (move_state angle dx dy) (current a);
     future := map (move_state angle dx dy) (future a) |}.
Definition move_scene (angle dx dy : R) (sc : scene) : scene :=
  {| sdc_x := fst (move_point angle dx dy (sdc_x sc) (sdc_y sc)); sdc_y := snd (move_point angle dx dy (sdc_x sc) (sdc_y sc));
     sdc_yaw := sdc_yaw sc + angle; agents := map (move_agent angle dx dy) (agents sc) |}.

(** The centre of a cell lies in a box. *)
Definition in_box (c : render_config) (sc : scene) (s : state) (r q : Z) : Prop :=
  exists a b, - (1 / 2) <= a <= 1 / 2 /\ - (1 / 2) <= b <= 1 / 2 /\
    seen_from_vehicle c sc (box_place s a b) =
    (IZR (q - sdc_x_in_grid c) / pixels_per_meter c, - (IZR (r - sdc_y_in_grid c) / pixels_per_meter c)).
