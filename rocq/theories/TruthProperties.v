(** C133: the ground truth of the occupancy flow task from a scene. *)
From Coq Require Import Reals List ZArith.
From Verif Require Import Base ResultLib WayModel OccModel OccSpec WaySpec TruthModel TruthSpec.
From Verif Require OccCover OccWitness TruthProofs.
Import ListNotations.
Open Scope R_scope.
(** The ground truth is made exactly when boxes are sampled, every agent has all its steps and the future splits into waypoints. *)
Theorem C133_outcome c sc r q : (0 < num_future_steps (task c))%nat ->
  ((exists w, ground_truth c sc r q = Ok w) <-> sampled c /\ well_timed c sc /\ exists size, can_split (task c) size) /\
  (~ (sampled c /\ well_timed c sc) -> ground_truth c sc r q = Err ValueError).
Proof. exact (TruthProofs.outcome c sc r q). Qed.
Print Assumptions C133_outcome.
(** The grids of the single steps say where the agents are. *)
Theorem C133_steps c sc : sampled c -> well_timed c sc -> (0 < num_waypoints (task c) <= num_future_steps (task c))%nat ->
  exists t, create_ground_truth_timestep_grids c sc = Ok t /\ forall class g, view t class = Ok g -> steps_right c sc (num_future_steps (task c) / num_waypoints (task c)) class g.
Proof. exact (TruthProofs.steps_value c sc). Qed.
Print Assumptions C133_steps.
(** Every waypoint says whether an observed agent, a hidden one, or one waypoint earlier any agent, is in the cell. *)
Theorem C133_occupancy c sc size r q w : (0 < num_future_steps (task c))%nat -> can_split (task c) size -> in_grid c r q -> ground_truth c sc r q = Ok w ->
  forall class g, view w class = Ok g ->
  length (observed_occupancy g) = num_waypoints (task c) /\ length (occluded_occupancy g) = num_waypoints (task c) /\ length (flow_origin_occupancy g) = num_waypoints (task c) /\ length (flow g) = num_waypoints (task c) /\
  occupancies_right c sc size class r q g.
Proof. exact (TruthProofs.occupancy_truth c sc size r q w). Qed.
Print Assumptions C133_occupancy.
(** The flow of a waypoint is the mean displacement of all samples since one waypoint earlier. *)
Theorem C133_flow c sc size r q w : (0 < num_future_steps (task c))%nat -> can_split (task c) size -> in_grid c r q -> ground_truth c sc r q = Ok w ->
  forall class g, view w class = Ok g -> forall k, (k < num_waypoints (task c))%nat ->
  if cumulative_waypoints (task c) then
    exists steps, length steps = size /\
      (forall i v, nth_error steps i = Some v -> flow_since c sc size class r q (num_past_steps (task c) + 1 + k * size + i - size) v) /\
      nth_error (flow g) k = Some (mean_where (fun v => nonzero (fst v)) fst steps, mean_where (fun v => nonzero (snd v)) snd steps)
  else exists v, nth_error (flow g) k = Some v /\ flow_since c sc size class r q (num_past_steps (task c) + k * size) v.
Proof. exact (TruthProofs.flow_truth c sc size r q w). Qed.
Print Assumptions C133_flow.
(** Where agents come from is where they were one waypoint earlier. *)
Theorem C133_chain c sc size r q w : (0 < num_future_steps (task c))%nat -> can_split (task c) size -> in_grid c r q -> ground_truth c sc r q = Ok w ->
  forall class g, view w class = Ok g -> forall k a b, (k + 1 < num_waypoints (task c))%nat ->
  nth_error (observed_occupancy g) k = Some (Some a) -> nth_error (occluded_occupancy g) k = Some (Some b) ->
  nth_error (flow_origin_occupancy g) (k + 1) = Some (Some (Rmax a b)).
Proof. exact (TruthProofs.chain c sc size r q w). Qed.
Print Assumptions C133_chain.
(** The road and the trails of agents. *)
Theorem C133_visualization c sc points r q : sampled c -> well_timed c sc -> (0 < num_waypoints (task c) <= num_future_steps (task c))%nat -> in_grid c r q ->
  exists road trails, vis_grids c sc points r q = Ok (road, trails) /\
    says road (exists p, In (p, true) points /\ falls_in c sc p r q) /\
    0 <= trails <= 1 /\
    (present_any c sc r q (num_past_steps (task c)) -> trails = 1) /\
    (~ present_any c sc r q (num_past_steps (task c)) ->
      (forall i, (i < num_past_steps (task c))%nat -> present_any c sc r q i -> (forall j, (i < j < num_past_steps (task c))%nat -> ~ present_any c sc r q j) -> trails = (4 / 5) ^ (num_past_steps (task c) + 1 - i)) /\
      ((forall i, (i < num_past_steps (task c))%nat -> ~ present_any c sc r q i) -> trails = 0)).
Proof. exact (TruthProofs.vis_truth c sc points r q). Qed.
Print Assumptions C133_visualization.

(** An agent that moves into a cell in the last step. *)
Example C133_nonvacuous : let c := OccCover.small_config in let sc := OccWitness.mover_scene in
  sampled c /\ well_timed c sc /\ (0 < num_future_steps (task c))%nat /\ can_split (task c) 1 /\ in_grid c 1 2 /\
  exists w, ground_truth c sc 1 2 = Ok w /\ observed_occupancy (vehicles w) = [Some 1] /\ occluded_occupancy (vehicles w) = [Some 0] /\
    observed_occupancy (pedestrians w) = [Some 0].
Proof. exact TruthProofs.mover_truth. Qed.
