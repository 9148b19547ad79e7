(** The ground truth of the occupancy flow task in plain terms. Time is counted in steps over the whole scene: the past is
    0 .. P - 1, the present P and the future P + 1 .. P + F. *)
From Coq Require Import Reals List Arith ZArith.
From Verif Require Import Base WayModel OccModel OccSpec TruthModel.
Import ListNotations.
Open Scope R_scope.

Definition timeline (a : agent) : list state := past a ++ current a ++ future a.
(** Every agent has all its steps. *)
Definition well_timed (c : render_config) (sc : scene) : Prop :=
  forall a, In a (agents sc) -> length (past a) = num_past_steps (task c) /\ length (current a) = 1%nat /\ length (future a) = num_future_steps (task c).
(** One of the agents in question is valid at a time, and one of its samples falls in the cell. *)
Definition present (c : render_config) (sc : scene) (who : agent -> Prop) (class : Z) (r q : Z) (t : nat) : Prop :=
  exists a s, In a (agents sc) /\ agent_type a = class /\ who a /\ nth_error (timeline a) t = Some s /\ valid s = true /\ marks c sc s r q.
Definition anyone (a : agent) : Prop := True.
Definition hidden (a : agent) : Prop := ~ observed a.
(** The times that waypoint [k] stands for. *)
Definition covers (c : render_config) (size k t : nat) : Prop :=
  if cumulative_waypoints (task c)
  then (num_past_steps (task c) + 1 + k * size <= t < num_past_steps (task c) + 1 + k * size + size)%nat
  else t = (num_past_steps (task c) + (k + 1) * size)%nat.
(** A value says whether something holds. *)
Definition says (v : R) (P : Prop) : Prop := (v = 1 /\ P) \/ (v = 0 /\ ~ P).
(** A sample of an agent of the class moves into the cell between a time and one waypoint later; the displacement leads back. *)
Definition moves_into (c : render_config) (sc : scene) (size : nat) (class : Z) (r q : Z) (t : nat) (k : sample_id) (d : Z * Z) : Prop :=
  (at_i k < points_per_side_length c)%nat /\ (at_j k < points_per_side_width c)%nat /\
  exists a before after, nth_error (agents sc) (of_agent k) = Some a /\ agent_type a = class /\
    nth_error (timeline a) t = Some before /\ nth_error (timeline a) (t + size) = Some after /\
    valid before = true /\ valid after = true /\ displaced c sc before after (at_i k) (at_j k) r q d.
(** A flow value is the mean displacement of all of them, each sample once. *)
Definition flow_since (c : render_config) (sc : scene) (size : nat) (class : Z) (r q : Z) (t : nat) (v : R * R) : Prop :=
  exists l, NoDup (map fst l) /\ (forall k d, In (k, d) l <-> moves_into c sc size class r q t k d) /\ v = mean_displacement (map snd l).
(** Some agent, of any of the three classes. *)
Definition present_any (c : render_config) (sc : scene) (r q : Z) (t : nat) : Prop :=
  exists class, (class = 1 \/ class = 2 \/ class = 3)%Z /\ present c sc anyone class r q t.
(** The grids of the single steps. *)
Definition steps_right (c : render_config) (sc : scene) (size : nat) (class : Z) (g : class_grids) : Prop :=
  forall r q, in_grid c r q ->
    says (current_grid g r q 0%nat) (present c sc anyone class r q (num_past_steps (task c))) /\
    (forall i, (i < num_past_steps (task c))%nat -> says (past_grid g r q i) (present c sc anyone class r q i)) /\
    (forall i, says (future_observed_grid g r q i) (present c sc observed class r q (num_past_steps (task c) + 1 + i))) /\
    (forall i, says (future_occluded_grid g r q i) (present c sc hidden class r q (num_past_steps (task c) + 1 + i))) /\
    (forall i, says (all_grid g r q i) (present c sc anyone class r q i)) /\
    (forall i, flow_since c sc size class r q i (flow_grid_all g r q i)).

(** What a class shows at a waypoint. *)
Definition occupancies_right (c : render_config) (sc : scene) (size : nat) (class : Z) (r q : Z) (w : waypoint_grids) : Prop :=
  forall k, (k < num_waypoints (task c))%nat -> exists seen occluded origin,
    nth_error (observed_occupancy w) k = Some (Some seen) /\ says seen (exists t, covers c size k t /\ present c sc observed class r q t) /\
    nth_error (occluded_occupancy w) k = Some (Some occluded) /\ says occluded (exists t, covers c size k t /\ present c sc hidden class r q t) /\
    nth_error (flow_origin_occupancy w) k = Some (Some origin) /\ says origin (exists t, covers c size k (t + size) /\ present c sc anyone class r q t).
