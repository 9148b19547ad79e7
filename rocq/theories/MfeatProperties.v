(** C129: the features of a scene and of the rollouts of a scenario. *)
From Coq Require Import Reals ZArith List Lra Permutation.
From Verif Require Import Base ResultLib SimModel SimSpec GeomModel GeomSceneSpec TtcModel RoadModel RoadSpec.
From Verif Require Import MfeatModel MfeatSpec MfeatRows MfeatScene MfeatRollouts MfeatExample.
Import ListNotations.
Open Scope list_scope.
Open Scope R_scope.
(** The rows are the evaluated agents, each once, in increasing order of their ids. *)
Theorem C129_agents {S} (X : extractors S) (sc : full_scenario S) js (b : bool) f : scorable (agents sc) js -> listing X ->
  compute_metric_features X sc js SIM_AGENTS b = Ok f ->
  increasing (f_object_id f) /\ (forall id, In id (f_object_id f) <-> evaluated_agent (agents sc) id) /\
  (let n := length (f_object_id f) in
   one_sample (f_object_type f) n /\ one_sample (f_valid f) n /\ one_sample (f_ade f) n /\ one_sample (f_speed f) n /\
   one_sample (f_accel f) n /\ one_sample (f_turn f) n /\ one_sample (f_turn_accel f) n).
Proof. exact (ids_listed X sc js b f). Qed.
Print Assumptions C129_agents.
(** The type, the validity and the kinematic features of a row are those of its own agent, after the current step. *)
Theorem C129_own_rows {S} (X : extractors S) (sc : full_scenario S) js (b : bool) f : scorable (agents sc) js -> listing X ->
  compute_metric_features X sc js SIM_AGENTS b = Ok f ->
  forall k id o tr, nth_error (f_object_id f) k = Some id -> sim_agent (agents sc) js b id o tr ->
    agent_entry (f_object_type f) k (track_type tr) /\
    agent_entry (f_valid f) k (if b then map s_valid (skipn 11 (states tr)) else repeat true 80) /\
    exists kin, kinematic X (o_x o) (o_y o) (o_z o) (o_heading o) = Ok kin /\
      agent_entry (f_speed f) k (skipn 11 (k_speed kin)) /\ agent_entry (f_accel f) k (skipn 11 (k_accel kin)) /\
      agent_entry (f_turn f) k (skipn 11 (k_turn kin)) /\ agent_entry (f_turn_accel f) k (skipn 11 (k_turn_accel kin)).
Proof. exact (own_rows X sc js b f). Qed.
Print Assumptions C129_own_rows.
(** The displacement error: the sum over the simulated steps that are valid in the log, divided by the number of valid logged steps, history included. *)
Theorem C129_displacement {S} (X : extractors S) (sc : full_scenario S) js (b : bool) f : scorable (agents sc) js -> listing X ->
  compute_metric_features X sc js SIM_AGENTS b = Ok f ->
  forall k id s tr, nth_error (f_object_id f) k = Some id -> In s js -> sim_id s = id ->
    In tr (tracks (agents sc)) -> track_id tr = id ->
    (1 <= number_valid (firstn 11 (states tr)))%nat /\
    agent_entry (f_ade f) k
      (Some (total_error (sim_x s) (sim_y s) (sim_z s) (skipn 11 (states tr)) /
             INR (number_valid (firstn 11 (states tr)) + number_valid (skipn 11 (states tr))))).
Proof. exact (displacement_rows X sc js b f). Qed.
Print Assumptions C129_displacement.
(** It is never more than the mean over the simulated steps, and less unless both are zero. *)
Theorem C129_displacement_diluted {S} (X : extractors S) (sc : full_scenario S) js (b : bool) f : scorable (agents sc) js -> listing X ->
  compute_metric_features X sc js SIM_AGENTS b = Ok f ->
  forall k id s tr, nth_error (f_object_id f) k = Some id -> In s js -> sim_id s = id ->
    In tr (tracks (agents sc)) -> track_id tr = id ->
    exists e, agent_entry (f_ade f) k (Some e) /\ 0 <= e /\
      (let future := skipn 11 (states tr) in
       let u := total_error (sim_x s) (sim_y s) (sim_z s) future in
       (number_valid future = 0%nat -> e = 0) /\
       ((1 <= number_valid future)%nat -> e <= u / INR (number_valid future)) /\
       ((1 <= number_valid future)%nat -> 0 < u -> e < u / INR (number_valid future))).
Proof. exact (displacement_diluted X sc js b f). Qed.
Print Assumptions C129_displacement_diluted.
(** It is not that mean: an agent simulated one metre from its log at all steps has an error of 80/91. *)
Theorem C129_displacement_mean_refuted : exists (X : extractors unit) sc js f id s tr,
  listing X /\ scorable (agents sc) js /\ compute_metric_features X sc js SIM_AGENTS false = Ok f /\
  nth_error (f_object_id f) 0 = Some id /\ In s js /\ sim_id s = id /\ In tr (tracks (agents sc)) /\ track_id tr = id /\
  agent_entry (f_ade f) 0 (Some (80 / 91)) /\
  total_error (sim_x s) (sim_y s) (sim_z s) (skipn 11 (states tr)) / INR (number_valid (skipn 11 (states tr))) = 1.
Proof. exact (mean_refuted ). Qed.
Print Assumptions C129_displacement_mean_refuted.
(** The log has no displacement error. *)
Theorem C129_log_displacement {S} (X : extractors S) (sc : full_scenario S) f : loggable (agents sc) -> listing X ->
  compute_metric_features X sc (map (logged_trajectory SIM_AGENTS) (filter valid_now (tracks (agents sc)))) SIM_AGENTS true = Ok f ->
  f_ade f = [repeat (Some 0) (length (f_object_id f))].
Proof. exact (log_displacement X sc f). Qed.
Print Assumptions C129_log_displacement.
(** The distance to the nearest agent and the collisions. *)
Theorem C129_nearest {S} (X : extractors S) (sc : full_scenario S) js (b : bool) f : scorable (agents sc) js -> listing X ->
  compute_metric_features X sc js SIM_AGENTS b = Ok f ->
  one_sample (f_distance f) (length (f_object_id f)) /\ one_sample (f_collision f) (length (f_object_id f)) /\
  forall k id, nth_error (f_object_id f) k = Some id -> exists distances colliding,
    agent_entry (f_distance f) k distances /\ agent_entry (f_collision f) k colliding /\
    length distances = 80%nat /\ length colliding = 80%nat /\
    forall t, (t < 80)%nat -> exists d c, nth_error distances t = Some d /\ nth_error colliding t = Some c /\
      nearest_distance (agents sc) js b id (11 + t) d /\ (c = true <-> d < 0) /\
      (agents_sized (agents sc) js b ->
       (c = true <-> exists o tr e id' o' tr' e', sim_agent (agents sc) js b id o tr /\ object_cell o (11 + t) (e, true) /\
          id' <> id /\ sim_agent (agents sc) js b id' o' tr' /\ object_cell o' (11 + t) (e', true) /\ overlap (7 / 10) e e')).
Proof. exact (nearest_listed X sc js b f). Qed.
Print Assumptions C129_nearest.
(** The distance to the road edge and the offroad steps. *)
Theorem C129_road {S} (X : extractors S) (sc : full_scenario S) js (b : bool) f : scorable (agents sc) js -> listing X ->
  compute_metric_features X sc js SIM_AGENTS b = Ok f ->
  one_sample (f_road f) (length (f_object_id f)) /\ one_sample (f_offroad f) (length (f_object_id f)) /\
  forall k id o tr, nth_error (f_object_id f) k = Some id -> sim_agent (agents sc) js b id o tr -> exists distances offroad,
    agent_entry (f_road f) k distances /\ agent_entry (f_offroad f) k offroad /\
    length distances = 80%nat /\ length offroad = 80%nat /\
    forall t e v, object_box o (11 + t) e v -> exists d c, nth_error distances t = Some d /\ nth_error offroad t = Some c /\
      (c = true <-> 0 < d) /\ (v = false -> d = -10000000000) /\
      (v = true -> (exists q, is_bottom_corner e q /\ point_distance (road_edges (map_features sc)) q d) /\
         forall q d', is_bottom_corner e q -> point_distance (road_edges (map_features sc)) q d' -> d' <= d).
Proof. exact (road_listed X sc js b f). Qed.
Print Assumptions C129_road.
(** The time to collision and the red lights come from the table that lists the evaluated agents first. *)
Theorem C129_table {S} (X : extractors S) (sc : full_scenario S) js (b : bool) f : scorable (agents sc) js -> listing X ->
  compute_metric_features X sc js SIM_AGENTS b = Ok f ->
  exists table cells n ttc red,
    evaluated_first (agents sc) js b (f_object_id f) table /\ (length (f_object_id f) + n = length js)%nat /\
    length cells = length js /\
    (forall k id o tr, nth_error (tr_id table) k = Some id -> sim_agent (agents sc) js b id o tr ->
       exists row, nth_error cells k = Some row /\ length row = 91%nat /\ forall t c, nth_error row t = Some c <-> object_cell o t c) /\
    compute_time_to_collision (1 / 10) 91 cells (first_mask (length (f_object_id f)) n) = Ok ttc /\
    length ttc = length (f_object_id f) /\ (forall r, In r ttc -> length r = 91%nat) /\ f_ttc f = [map (skipn 11) ttc] /\
    f_red f = [map (skipn 11) red] /\
    (surface_streets (map_features sc) <> [] -> dynamic_map_states sc <> [] ->
       red_light X table (first_mask (length (f_object_id f)) n) (map snd (surface_streets (map_features sc)))
         (map fst (surface_streets (map_features sc))) (dynamic_map_states sc) = Ok red) /\
    (surface_streets (map_features sc) = [] \/ dynamic_map_states sc = [] ->
       f_red f = [repeat (repeat false 80) (length (f_object_id f))]).
Proof. exact (table_features X sc js b f). Qed.
Print Assumptions C129_table.
(** A scene with features has each agent once, no ambiguous agent, 91 logged steps, no evaluated agent that is not simulated, and a road edge. *)
Theorem C129_refused {S} (X : extractors S) (sc : full_scenario S) js (b : bool) f : listing X -> acceptable js (agents sc) SIM_AGENTS ->
  compute_metric_features X sc js SIM_AGENTS b = Ok f ->
  scorable (agents sc) js /\ (exists p, In (RoadEdge p) (map_features sc) /\ (2 <= length p)%nat) /\
  forall id o tr, evaluated_agent (agents sc) id -> sim_agent (agents sc) js b id o tr ->
    exists kin, kinematic X (o_x o) (o_y o) (o_z o) (o_heading o) = Ok kin.
Proof. exact (refused X sc js b f). Qed.
Print Assumptions C129_refused.
(** Such a scene has features. *)
Theorem C129_accepted {S} (X : extractors S) (sc : full_scenario S) js (b : bool) : listing X -> scorable (agents sc) js ->
  (exists p, In (RoadEdge p) (map_features sc) /\ (2 <= length p)%nat) ->
  (forall id o tr, evaluated_agent (agents sc) id -> sim_agent (agents sc) js b id o tr ->
     exists kin, kinematic X (o_x o) (o_y o) (o_z o) (o_heading o) = Ok kin) ->
  (surface_streets (map_features sc) = [] \/ dynamic_map_states sc = [] \/
   forall ids n table, evaluated_first (agents sc) js b ids table -> exists red,
     red_light X table (first_mask (length ids) n) (map snd (surface_streets (map_features sc)))
         (map fst (surface_streets (map_features sc))) (dynamic_map_states sc) = Ok red) ->
  exists f, compute_metric_features X sc js SIM_AGENTS b = Ok f.
Proof. exact (accepted X sc js b). Qed.
Print Assumptions C129_accepted.
(** Sample i of the rollouts holds the features of scene i, for the same agents as the log. *)
Theorem C129_rollouts {S} (X : extractors S) (sc : full_scenario S) r log all : listing X ->
  (forall js, In js (joint_scenes r) -> acceptable js (agents sc) SIM_AGENTS) ->
  compute_scenario_rollouts_features X sc r SIM_AGENTS = Ok (log, all) ->
  loggable (agents sc) /\
  compute_metric_features X sc (map (logged_trajectory SIM_AGENTS) (filter valid_now (tracks (agents sc)))) SIM_AGENTS true = Ok log /\
  joint_scenes r <> [] /\ f_object_id all = f_object_id log /\
  (let n := length (joint_scenes r) in
   length (f_object_type all) = n /\ length (f_valid all) = n /\ length (f_ade all) = n /\ length (f_speed all) = n /\
   length (f_accel all) = n /\ length (f_turn all) = n /\ length (f_turn_accel all) = n /\ length (f_distance all) = n /\
   length (f_collision all) = n /\ length (f_ttc all) = n /\ length (f_road all) = n /\ length (f_offroad all) = n /\ length (f_red all) = n) /\
  forall i js, nth_error (joint_scenes r) i = Some js ->
    exists f, compute_metric_features X sc js SIM_AGENTS false = Ok f /\ f_object_id f = f_object_id log /\ sample_is all i f.
Proof. exact (rollouts_samples X sc r log all). Qed.
Print Assumptions C129_rollouts.
(** The rollouts have features exactly when there is a scene, and the log and all the scenes have. *)
Theorem C129_rollouts_outcome {S} (X : extractors S) (sc : full_scenario S) r : listing X ->
  (forall js, In js (joint_scenes r) -> acceptable js (agents sc) SIM_AGENTS) ->
  (exists p, compute_scenario_rollouts_features X sc r SIM_AGENTS = Ok p) <->
  joint_scenes r <> [] /\ loggable (agents sc) /\
  (exists f, compute_metric_features X sc (map (logged_trajectory SIM_AGENTS) (filter valid_now (tracks (agents sc)))) SIM_AGENTS true = Ok f) /\
  forall js, In js (joint_scenes r) -> exists f, compute_metric_features X sc js SIM_AGENTS false = Ok f.
Proof. exact (rollouts_outcome X sc r). Qed.
Print Assumptions C129_rollouts_outcome.
(** No scene is an error. *)
Theorem C129_no_rollouts {S} (X : extractors S) (sc : full_scenario S) r f : joint_scenes r = [] -> loggable (agents sc) ->
  compute_metric_features X sc (map (logged_trajectory SIM_AGENTS) (filter valid_now (tracks (agents sc)))) SIM_AGENTS true = Ok f ->
  compute_scenario_rollouts_features X sc r SIM_AGENTS = Err ValueError.
Proof. exact (no_rollouts X sc r f). Qed.
Print Assumptions C129_no_rollouts.
(** For generated scenes all the steps are kept, the types and sizes are the generated ones, and the displacement error is zero. *)
Theorem C129_generated {S} (X : extractors S) (sc : full_scenario S) js (b : bool) f : loggable (agents sc) -> acceptable js (agents sc) SCENARIO_GEN ->
  NoDup (map sim_id js) ->
  (forall s, In s js -> length (sim_length s) = 91%nat /\ length (sim_width s) = 91%nat /\ length (sim_height s) = 91%nat) -> listing X ->
  compute_metric_features X sc js SCENARIO_GEN b = Ok f ->
  f_object_id f = map track_id (filter valid_now (tracks (agents sc))) /\
  forall k tr s, nth_error (filter valid_now (tracks (agents sc))) k = Some tr -> In s js -> sim_id s = track_id tr ->
    agent_entry (f_object_type f) k (sim_type s) /\ agent_entry (f_ade f) k (Some 0) /\
    agent_entry (f_valid f) k (if b then map s_valid (states tr) else repeat true 91) /\
    exists kin, kinematic X (sim_x s) (sim_y s) (sim_z s) (sim_heading s) = Ok kin /\
      agent_entry (f_speed f) k (k_speed kin) /\ agent_entry (f_accel f) k (k_accel kin) /\
      agent_entry (f_turn f) k (k_turn kin) /\ agent_entry (f_turn_accel f) k (k_turn_accel kin).
Proof. exact (generated_rows X sc js b f). Qed.
Print Assumptions C129_generated.

(** Two agents, one evaluated, and two rollouts. *)
Example C129_nonvacuous : listing ex_extractors /\ scorable (agents ex_scenario) ex_scene /\ loggable (agents ex_scenario) /\
  (exists f, compute_metric_features ex_extractors ex_scenario ex_scene SIM_AGENTS false = Ok f) /\
  exists p, compute_scenario_rollouts_features ex_extractors ex_scenario (Rollouts None [ex_scene; ex_scene]) SIM_AGENTS = Ok p.
Proof. split; [exact ex_listing|]. split; [exact ex_scorable|]. split; [exact ex_loggable|]. split; [exact (ex_features false)|exact ex_rollouts]. Qed.
