(** C80: the waypoints of the occupancy flow task. *)
From Coq Require Import Reals List Arith ZArith Lra.
From Verif Require Import Base WayModel WaySpec.
From Verif Require WayProofs WayFlow WayLookup.
Import ListNotations.
Open Scope R_scope.

(** Waypoints are made exactly if the future splits into equal parts no longer than the history. *)
Theorem C80_accepts : forall c t,
  (0 < num_future_steps c)%nat -> (forall size, can_split c size -> for_all_classes (well_shaped c size) t) ->
  (exists w, create_ground_truth_waypoint_grids c t = Ok w) <-> exists size, can_split c size.
Proof. exact WayLookup.accepts_iff. Qed.
Print Assumptions C80_accepts.

(** Otherwise the task is refused, whatever the grids. *)
Theorem C80_refuses : forall c t, (forall size, ~ can_split c size) ->
  exists e, create_ground_truth_waypoint_grids c t = Err e /\ (e = if Nat.eqb (num_waypoints c) 0 then RuntimeError else ValueError).
Proof. exact WayProofs.create_refuses. Qed.
Print Assumptions C80_refuses.

(** Every future step is covered by exactly one waypoint. *)
Theorem C80_partition : forall c size s, can_split c size -> (s < num_future_steps c)%nat ->
  exists! k, (k < num_waypoints c /\ k * size <= s < k * size + size)%nat.
Proof. exact WayProofs.one_waypoint. Qed.
Print Assumptions C80_partition.

(** What each waypoint shows of the observed and the hidden future, and of the steps a waypoint earlier. *)
Theorem C80_occupancy : forall c size t w,
  can_split c size -> (0 < num_future_steps c)%nat -> for_all_classes (well_shaped c size) t ->
  create_ground_truth_waypoint_grids c t = Ok w ->
  for_each_class (fun t w =>
    (length (observed_occupancy w) = num_waypoints c /\ length (occluded_occupancy w) = num_waypoints c /\
     length (flow_origin_occupancy w) = num_waypoints c /\ length (flow w) = num_waypoints c) /\
    forall k, (k < num_waypoints c)%nat -> exists obs occ origin,
      nth_error (observed_occupancy w) k = Some obs /\ shows_waypoint c size 0 k (future_observed_occupancy t) obs /\
      nth_error (occluded_occupancy w) k = Some occ /\ shows_waypoint c size 0 k (future_occluded_occupancy t) occ /\
      nth_error (flow_origin_occupancy w) k = Some origin /\
      shows_waypoint c size (num_past_steps c + 1 - size) k (all_occupancy t) origin) t w.
Proof. exact WayFlow.occupancy_shown. Qed.
Print Assumptions C80_occupancy.

(** If the whole occupancy is that of observed and hidden agents, a waypoint flows from what the previous one shows. *)
Theorem C80_chain : forall c size obs occ all k a b origin,
  (0 < size <= num_past_steps c + 1)%nat -> num_future_steps c = (num_waypoints c * size)%nat ->
  (forall i, (i < num_future_steps c)%nat -> nth (num_past_steps c + 1 + i) all 0 = Rmax (nth i obs 0) (nth i occ 0)) ->
  (k + 1 < num_waypoints c)%nat ->
  shows_waypoint c size 0 k obs (Some a) -> shows_waypoint c size 0 k occ (Some b) ->
  shows_waypoint c size (num_past_steps c + 1 - size) (k + 1) all origin -> origin = Some (Rmax a b).
Proof. exact WayFlow.origin_chain. Qed.
Print Assumptions C80_chain.

(** The flow of a waypoint: from its last step to that of the previous one, or averaged, each component by itself. *)
Theorem C80_flow : forall c size t w,
  can_split c size -> (0 < num_future_steps c)%nat -> for_all_classes (well_shaped c size) t ->
  create_ground_truth_waypoint_grids c t = Ok w ->
  for_each_class (fun t w => forall k, (k < num_waypoints c)%nat ->
    nth_error (flow w) k = Some
      (if cumulative_waypoints c then
         let steps := window (0, 0) (all_flow t) (num_past_steps c + 1 - size + k * size) size in
         (mean_where (fun v => nonzero (fst v)) fst steps, mean_where (fun v => nonzero (snd v)) snd steps)
       else nth (num_past_steps c + k * size) (all_flow t) (0, 0))) t w.
Proof. exact WayLookup.flow_value. Qed.
Print Assumptions C80_flow.

(** It is the mean over the moving steps if none of them moves along an axis. *)
Theorem C80_flow_mean : forall steps, (forall v, In v steps -> (fst v = 0 <-> snd v = 0)) ->
  mean_flow steps = (mean_where moving fst steps, mean_where moving snd steps).
Proof. exact WayFlow.mean_flow_moving. Qed.
Print Assumptions C80_flow_mean.

(** Each component stays within the values averaged. *)
Theorem C80_flow_bounds : forall keep f steps m M,
  (exists v, In v steps /\ keep v = true) -> (forall v, In v steps -> keep v = true -> m <= f v <= M) ->
  m <= mean_where keep f steps <= M.
Proof. exact WayLookup.component_within. Qed.
Print Assumptions C80_flow_bounds.

(** But the flow can be faster than every flow averaged, and not their mean. *)
Theorem C80_flow_mean_refuted : exists steps,
  Forall (fun v => speed v < speed (mean_flow steps)) steps /\ steps <> [] /\
  mean_flow steps <> (mean_where moving fst steps, mean_where moving snd steps).
Proof. exact WayLookup.flow_mean_refuted. Qed.
Print Assumptions C80_flow_mean_refuted.

(** Reading the waypoints, and the classes. *)
Theorem C80_lookup : forall A (get : waypoint_grids -> list A) w n k, (0 < n)%nat ->
  for_all_classes (fun g => length (get g) = n) w ->
  ((k < n)%nat -> exists r, at_waypoint get w (Z.of_nat k) = Ok r /\ for_each_class (fun g x => nth_error (get g) k = x /\ x <> None) w r) /\
  ((n <= k)%nat -> at_waypoint get w (Z.of_nat k) = Err IndexError).
Proof. exact @WayLookup.lookup. Qed.
Print Assumptions C80_lookup.
Theorem C80_view : forall A (g : classes A) z, (exists x, view g z = Ok x) <-> (z = 1 \/ z = 2 \/ z = 3)%Z.
Proof. exact @WayLookup.view_ok. Qed.
Print Assumptions C80_view.

(** The trail of a cell: one if occupied now, else a power of the decay counting the steps since, else nothing. *)
Theorem C80_trails : forall gamma n t, 0 <= gamma <= 1 -> length (past_occupancy (vehicles t)) = n ->
  for_all_classes (fun g => binary (past_occupancy g) /\ binary (current_occupancy g)) t ->
  0 <= create_agent_trails gamma t <= 1 /\
  (occupied_at current_occupancy t 0 -> create_agent_trails gamma t = 1) /\
  (~ occupied_at current_occupancy t 0 ->
    (forall i, (i < n)%nat -> occupied_at past_occupancy t i -> (forall j, (i < j < n)%nat -> ~ occupied_at past_occupancy t j) ->
       create_agent_trails gamma t = gamma ^ (n + 1 - i)) /\
    ((forall i, (i < n)%nat -> ~ occupied_at past_occupancy t i) -> create_agent_trails gamma t = 0)).
Proof. exact WayFlow.trails_value. Qed.
Print Assumptions C80_trails.

Example C80_case : forall cum, can_split (WayLookup.c0 cum) 2 /\ for_all_classes (well_shaped (WayLookup.c0 cum) 2) WayLookup.all0.
Proof. exact WayLookup.case_shaped. Qed.
