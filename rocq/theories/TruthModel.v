(** The ground truth of the occupancy flow task from a scene:
    /repo/src/waymo_open_dataset/utils/occupancy_flow_grids.py 184-266 and 485-508, between the rendering of OccModel.v and the
    waypoints and trails of WayModel.v. The conventions of those two files apply. *)
From Coq Require Import Reals.
From Verif Require Import Base ResultLib WayModel OccModel.
Open Scope list_scope.
Open Scope R_scope.

(** 32-56: the grids of one class. *)
Record class_grids := {
  current_grid : grid; past_grid : grid; future_observed_grid : grid; future_occluded_grid : grid; all_grid : grid; flow_grid_all : flow_grid }.
(** 184-266: create_ground_truth_timestep_grids. *)
Definition create_ground_truth_timestep_grids (c : render_config) (sc : scene) : result (classes class_grids) :=
  do current_occupancy <- render_occupancy_from_inputs c sc [Current] true true;
  do past_occupancy <- render_occupancy_from_inputs c sc [Past] true true;
  do future_obs <- render_occupancy_from_inputs c sc [Future] true false;
  do future_occ <- render_occupancy_from_inputs c sc [Future] false true;
  do all_occupancy <- render_occupancy_from_inputs c sc [Past; Current; Future] true true;
  do all_flow <- render_flow_from_inputs c sc [Past; Current; Future] true true;
  Ok {| vehicles := {| current_grid := vehicles current_occupancy; past_grid := vehicles past_occupancy; future_observed_grid := vehicles future_obs;
                       future_occluded_grid := vehicles future_occ; all_grid := vehicles all_occupancy; flow_grid_all := vehicles all_flow |};
        pedestrians := {| current_grid := pedestrians current_occupancy; past_grid := pedestrians past_occupancy; future_observed_grid := pedestrians future_obs;
                       future_occluded_grid := pedestrians future_occ; all_grid := pedestrians all_occupancy; flow_grid_all := pedestrians all_flow |};
        cyclists := {| current_grid := cyclists current_occupancy; past_grid := cyclists past_occupancy; future_observed_grid := cyclists future_obs;
                       future_occluded_grid := cyclists future_occ; all_grid := cyclists all_occupancy; flow_grid_all := cyclists all_flow |} |}.
(** The values at one cell, over the steps of each tensor. *)
Definition series {A} (g : Z -> Z -> nat -> A) (r q : Z) (n : nat) : list A := map (g r q) (seq 0 n).
Definition at_cell (c : render_config) (r q : Z) (g : class_grids) : timestep_grids :=
  let all_steps := num_steps c [Past; Current; Future] in
  {| current_occupancy := series (current_grid g) r q (num_steps c [Current]);
     past_occupancy := series (past_grid g) r q (num_steps c [Past]);
     future_observed_occupancy := series (future_observed_grid g) r q (num_steps c [Future]);
     future_occluded_occupancy := series (future_occluded_grid g) r q (num_steps c [Future]);
     all_flow := series (flow_grid_all g) r q (all_steps - Nat.div (num_future_steps (task c)) (num_waypoints (task c)));
     all_occupancy := series (all_grid g) r q all_steps |}.
Definition cells (c : render_config) (r q : Z) (t : classes class_grids) : classes timestep_grids :=
  {| vehicles := at_cell c r q (vehicles t); pedestrians := at_cell c r q (pedestrians t); cyclists := at_cell c r q (cyclists t) |}.
(** The two steps one after the other, at a cell. *)
Definition ground_truth (c : render_config) (sc : scene) (r q : Z) : result (classes waypoint_grids) :=
  do t <- create_ground_truth_timestep_grids c sc;
  create_ground_truth_waypoint_grids (task c) (cells c r q t).
(** 485-508: create_ground_truth_vis_grids, at a cell, with the decay of 513. *)
Definition vis_grids (c : render_config) (sc : scene) (points : list (R * R * bool)) (r q : Z) : result (R * R) :=
  do t <- create_ground_truth_timestep_grids c sc;
  do roadgraph <- render_roadgraph_from_inputs c sc points;
  Ok (roadgraph r q, create_agent_trails (4 / 5) (cells c r q t)).
