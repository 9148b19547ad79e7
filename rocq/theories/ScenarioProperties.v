(** C41, C42 and C62: conversion of a scenario to tensors. *)
From Coq Require Import String Sorting.Permutation Sorting.Sorted.
From Verif Require Import Base ResultLib ListLib ScenarioModel ScenarioSpec ScenarioAgentProofs ScenarioProofs
  ScenarioOutcomeProofs ScenarioFloatProofs ScenarioExamples.
Open Scope list_scope.
Open Scope Z_scope.

(** ** C41 *)

(** When the conversion succeeds. *)
Theorem C41_rejects_invalid pf sc cfg : ~ well_formed sc -> scenario_to_example pf sc cfg = Err ValueError.
Proof. exact (invalid_outcome pf sc cfg). Qed.
Print Assumptions C41_rejects_invalid.

Theorem C41_outcome pf sc cfg : platform_ok pf -> well_formed sc -> representable sc cfg ->
  finite_now sc cfg -> convertible sc cfg ->
  (capped cfg (predictable sc cfg) = [] -> scenario_to_example pf sc cfg = Err KeyError)
  /\ (capped cfg (predictable sc cfg) <> [] -> exists l, scenario_to_example pf sc cfg = Ok l).
Proof. exact (outcome pf sc cfg). Qed.
Print Assumptions C41_outcome.

(** Every tensor has its configured size, and there are no others. *)
Theorem C41_shapes pf sc cfg l : platform_ok pf -> representable sc cfg ->
  (0 < source_polyline_spacing cfg)%Q -> 0 <= num_future_steps cfg -> finite_now sc cfg ->
  scenario_to_example pf sc cfg = Ok l ->
  (forall k n, In (k, n) (shapes cfg) -> count (tensor k l) = n)
  /\ (forall k, ~ In k (map fst (shapes cfg)) -> tensor k l = []).
Proof.
  exact (fun PO RP SP FU FN OK =>
    conj (whole_shapes pf sc cfg l PO RP SP FU FN OK) (whole_absent pf sc cfg l PO RP SP FN OK)).
Qed.
Print Assumptions C41_shapes.

(** What the agent tensors hold, row by row. *)
Theorem C41_agents pf sc cfg l : platform_ok pf -> representable sc cfg ->
  (0 < source_polyline_spacing cfg)%Q -> 0 <= num_future_steps cfg -> finite_now sc cfg ->
  scenario_to_example pf sc cfg = Ok l ->
  exists modeled context rows, rows_ok pf sc cfg modeled context rows
  /\ (forall f name, In name state_names ->
        map Some (tensor (state_key f name) l) = state_tensor pf sc cfg rows f name)
  /\ (forall name, In name agent_names ->
        map Some (tensor ("state/" ++ name)%string l) = map (agent_field sc modeled name) rows).
Proof. exact (whole_agents pf sc cfg l). Qed.
Print Assumptions C41_agents.

(** What the road graph and traffic light tensors hold. *)
Theorem C41_roads pf sc cfg l : platform_ok pf -> representable sc cfg ->
  (0 < source_polyline_spacing cfg)%Q -> finite_now sc cfg ->
  scenario_to_example pf sc cfg = Ok l ->
  forall name, In name ["id"; "type"; "valid"; "xyz"; "dir"]%string ->
    tensor ("roadgraph_samples/" ++ name)%string l = road_tensor pf cfg (map_features sc) name.
Proof. exact (whole_road pf sc cfg l). Qed.
Print Assumptions C41_roads.

Theorem C41_lights pf sc cfg l : platform_ok pf -> representable sc cfg ->
  (0 < source_polyline_spacing cfg)%Q -> 0 <= num_future_steps cfg -> finite_now sc cfg ->
  scenario_to_example pf sc cfg = Ok l ->
  (forall f name, In name light_names -> map Some (tensor (light_key f name) l) = light_tensor sc cfg f name)
  /\ (forall f, tensor (light_key f "timestamp_micros") l = map (light_time sc) (frame_steps cfg f))
  /\ tensor "scenario/id" l = [VBytes (scenario_id sc)].
Proof.
  exact (fun PO RP SP FU FN OK =>
    conj (whole_lights pf sc cfg l PO RP SP FU FN OK)
      (conj (whole_light_times pf sc cfg l PO RP SP FU FN OK) (whole_id pf sc cfg l PO RP SP FN OK))).
Qed.
Print Assumptions C41_lights.

(** Which tracks get a row: all of them when there is room, and otherwise the
    modeled ones and the context ones nothing dropped has priority over. *)
Theorem C41_kept_tracks pf sc cfg modeled context rows : rows_ok pf sc cfg modeled context rows ->
  NoDup (modeled ++ context)
  /\ (forall i, In (Some i) rows -> (i < List.length (tracks sc))%nat)
  /\ (count (tracks sc) <= max_num_agents cfg ->
        forall i, (i < List.length (tracks sc))%nat -> In (Some i) rows)
  /\ (max_num_agents cfg <= count (tracks sc) -> ~ In None rows)
  /\ (forall j, (j < List.length (tracks sc))%nat -> ~ In (Some j) rows ->
        ~ In j (capped cfg (predictable sc cfg))
        /\ forall i, In i context -> ~ priority pf sc cfg j i).
Proof. exact (rows_cover pf sc cfg modeled context rows). Qed.
Print Assumptions C41_kept_tracks.

(** The counters agree with the tensors. *)
Theorem C41_agent_counters pf sc cfg l : platform_ok pf -> representable sc cfg ->
  (0 < source_polyline_spacing cfg)%Q -> finite_now sc cfg ->
  scenario_to_example pf sc cfg = Ok l ->
  let m := count (capped cfg (predictable sc cfg)) in
  counter "Num_Modeled_Agents" l = m
  /\ counter "Num_Context_Agents" l = Z.min (max_num_agents cfg) (count (tracks sc)) - m
  /\ counter "Agents_State_Feature" l = Z.min (max_num_agents cfg) (count (tracks sc))
  /\ counter "Padded_State_Feature" l = Z.max 0 (max_num_agents cfg - count (tracks sc)).
Proof. exact (whole_agent_counters pf sc cfg l). Qed.
Print Assumptions C41_agent_counters.

Theorem C41_other_counters pf sc cfg l : platform_ok pf -> representable sc cfg ->
  (0 < source_polyline_spacing cfg)%Q -> 0 <= num_future_steps cfg -> finite_now sc cfg ->
  scenario_to_example pf sc cfg = Ok l ->
  (counter "Road_Graph_Samples_Valid_Points" l = count (kept_samples pf cfg (map_features sc))
   /\ counter "Road_Graph_Samples_Valid_Points" l + counter "Road_Graph_Samples_Padded_Points" l
      = max_roadgraph_samples cfg)
  /\ (counter "Actual_Traffic_Light_State_Features" l = lights_seen sc cfg
   /\ counter "Actual_Traffic_Light_State_Features" l + counter "Padded_Traffic_Light_State_Features" l
      = max_traffic_light_control_points_per_step cfg * (num_past_steps cfg + num_future_steps cfg)).
Proof.
  exact (fun PO RP SP FU FN OK =>
    conj (whole_road_counters pf sc cfg l PO RP SP FN OK)
         (whole_light_counters pf sc cfg l PO RP SP FU FN OK)).
Qed.
Print Assumptions C41_other_counters.

Example C41_example : platform_ok ref_pf /\ well_formed sc1 /\ representable sc1 cfg1
  /\ finite_now sc1 cfg1 /\ convertible sc1 cfg1 /\ capped cfg1 (predictable sc1 cfg1) = [1; 3]%nat.
Proof. exact (conj ref_ok sc1_ok). Qed.
Example C41_example_tensors : exists l, scenario_to_example ref_pf sc1 cfg1 = Ok l
  /\ tensor "state/tracks_to_predict" l = [VInt 1; VInt 1; VInt 0; VInt 0; VInt (-1)]
  /\ map (fun v => match v with VFloat (Fin q) => Qred q | _ => 0%Q end) (tensor "state/id" l)
     = [8; 42; 7; 9; -1]%Q
  /\ tensor "roadgraph_samples/id" l = map VInt [101; 101; 101; 102; 100; 100]
  /\ tensor "traffic_light_state/current/id" l = [VInt 77; VInt (-1)]
  /\ tensor "state/current/timestamp_micros" l
     = [VInt 100000; VInt 100000; VInt 100000; VInt 100000; VInt (-1)].
Proof. exact sc1_converts. Qed.

(** Inputs the validation accepts and the conversion does not survive. *)
Theorem C41_few_slots_refuted : exists pf sc cfg, platform_ok pf /\ well_formed sc
  /\ scenario_to_example pf sc cfg = Err RuntimeError.
Proof. exact (ex_intro _ ref_pf (ex_intro _ sc1 (ex_intro _ _ (conj ref_ok (conj (proj1 sc1_ok) few_slots))))). Qed.
Print Assumptions C41_few_slots_refuted.
Theorem C41_empty_polygon_refuted : exists pf sc cfg, platform_ok pf /\ well_formed sc
  /\ scenario_to_example pf sc cfg = Err IndexError.
Proof. exact (ex_intro _ ref_pf (ex_intro _ sc_poly (ex_intro _ cfg1 (conj ref_ok empty_polygon)))). Qed.
Print Assumptions C41_empty_polygon_refuted.
Theorem C41_required_track_refuted : exists pf sc cfg, platform_ok pf /\ well_formed sc
  /\ scenario_to_example pf sc cfg = Err CheckFailed.
Proof. exact (ex_intro _ ref_pf (ex_intro _ sc_req (ex_intro _ cfg1 (conj ref_ok required_missing)))). Qed.
Print Assumptions C41_required_track_refuted.
(** A traffic light step after the last timestamp is stored as minus one second
    (-1000000), not as the -1 of missing values, with its lights marked valid. *)
Theorem C41_late_lights_refuted : exists pf sc cfg l, platform_ok pf /\ scenario_to_example pf sc cfg = Ok l
  /\ tensor "traffic_light_state/future/timestamp_micros" l = [VInt 699999; VInt (-1000000)]
  /\ tensor "traffic_light_state/future/valid" l = [VInt 1; VInt 0; VInt 1; VInt 0].
Proof.
  exact (match late_lights with ex_intro _ l H =>
    ex_intro _ ref_pf (ex_intro _ sc_lights (ex_intro _ _ (ex_intro _ l (conj ref_ok H)))) end).
Qed.
Print Assumptions C41_late_lights_refuted.
Theorem C41_padding_count_refuted : exists pf sc cfg l, platform_ok pf /\ scenario_to_example pf sc cfg = Ok l
  /\ counter "Padded_Traffic_Light_State_Features" l = -4.
Proof.
  exact (match padded_negative with ex_intro _ l H =>
    ex_intro _ ref_pf (ex_intro _ sc_lights (ex_intro _ _ (ex_intro _ l (conj ref_ok H)))) end).
Qed.
Print Assumptions C41_padding_count_refuted.

(** ** C42 *)

Theorem C42_modeled_order sc P : strict_weak P (modeled_before sc).
Proof. exact (modeled_before_swo sc P). Qed.
Print Assumptions C42_modeled_order.
Theorem C42_context_order pf sc cfg : well_formed sc -> 1 <= num_past_steps cfg ->
  num_past_steps cfg <= count (timestamps_seconds sc) -> finite_now sc cfg ->
  strict_weak (fun i => (i < List.length (tracks sc))%nat)
    (context_before pf sc (num_past_steps cfg - 1) (sdc sc)).
Proof. exact (context_before_swo pf sc cfg). Qed.
Print Assumptions C42_context_order.
Theorem C42_context_order_nan_refuted : exists pf sc, platform_ok pf /\
  ~ strict_weak (fun i => (i < List.length (tracks sc))%nat) (context_before pf sc 0 0).
Proof. exact (ex_intro _ ref_pf (ex_intro _ sc_nan (conj ref_ok nan_not_weak))). Qed.
Print Assumptions C42_context_order_nan_refuted.
(** The context comparator is the documented priority. *)
Theorem C42_context_meaning pf sc cfg a b : well_formed sc -> 1 <= num_past_steps cfg ->
  (a < List.length (tracks sc))%nat -> (b < List.length (tracks sc))%nat ->
  context_before pf sc (num_past_steps cfg - 1) (sdc sc) a b = true <-> priority pf sc cfg a b.
Proof. exact (context_before_priority pf sc cfg a b). Qed.
Print Assumptions C42_context_meaning.
(** The order of the modeled agents does not depend on the hash set when their ids differ. *)
Theorem C42_deterministic pf pf' sc cfg m c r m' c' r' :
  rows_ok pf sc cfg m c r -> rows_ok pf' sc cfg m' c' r' ->
  (forall i j, In i (capped cfg (predictable sc cfg)) -> In j (capped cfg (predictable sc cfg)) ->
     id_of sc i = id_of sc j -> i = j) -> m = m'.
Proof. exact (modeled_order_unique pf pf' sc cfg m c r m' c' r'). Qed.
Print Assumptions C42_deterministic.
Theorem C42_deterministic_refuted : exists pf pf' sc cfg l l', platform_ok pf /\ platform_ok pf'
  /\ scenario_to_example pf sc cfg = Ok l /\ scenario_to_example pf' sc cfg = Ok l'
  /\ tensor "state/current/x" l <> tensor "state/current/x" l'.
Proof.
  exact (match dup_order with ex_intro _ l (ex_intro _ l' H) =>
    ex_intro _ ref_pf (ex_intro _ rev_pf (ex_intro _ sc_dup (ex_intro _ cfg1 (ex_intro _ l (ex_intro _ l'
      (conj ref_ok (conj rev_ok H))))))) end).
Qed.
Print Assumptions C42_deterministic_refuted.
(** A negative limit on modeled agents is no limit. *)
Theorem C42_negative_limit_refuted : exists pf sc cfg l, platform_ok pf /\ max_num_modeled_agents cfg < 0
  /\ scenario_to_example pf sc cfg = Ok l /\ counter "Num_Modeled_Agents" l = 3.
Proof.
  exact (match negative_cap with ex_intro _ l H =>
    ex_intro _ ref_pf (ex_intro _ sc1 (ex_intro _ (cfg_with 5 (-1) 2 2 6 2)
      (ex_intro _ l (conj ref_ok (conj eq_refl H))))) end).
Qed.
Print Assumptions C42_negative_limit_refuted.

(** ** C62 *)

Theorem C62_conversion q : is_float (f32 q) /\ (forall y, is_float y -> (Qabs (q - f32 q) <= Qabs (q - y))%Q).
Proof. exact (conj (f32_is_float q) (f32_nearest q)). Qed.
Print Assumptions C62_conversion.
Theorem C62_ids sc modeled i : Z.abs (id_of sc i) <= 2 ^ 24 ->
  exists v, agent_field sc modeled "id" (Some i) = Some (VFloat (Fin v)) /\ (v == inject_Z (id_of sc i))%Q.
Proof. exact (fun H => ex_intro _ _ (conj eq_refl (f32_int _ H))). Qed.
Print Assumptions C62_ids.
Theorem C62_ids_distinct a b : Z.abs a <= 2 ^ 24 -> Z.abs b <= 2 ^ 24 ->
  (f32 (inject_Z a) == f32 (inject_Z b))%Q -> a = b.
Proof. exact (f32_distinct a b). Qed.
Print Assumptions C62_ids_distinct.
Theorem C62_ids_refuted : exists pf sc cfg l v, platform_ok pf
  /\ map tr_id (tracks sc) = [16777216; 16777217]
  /\ scenario_to_example pf sc cfg = Ok l /\ tensor "state/id" l = [v; v].
Proof.
  exact (match ids_collide with ex_intro _ l (ex_intro _ v H) =>
    ex_intro _ ref_pf (ex_intro _ sc_ids (ex_intro _ _ (ex_intro _ l (ex_intro _ v
      (conj ref_ok (conj eq_refl H)))))) end).
Qed.
Print Assumptions C62_ids_refuted.
Theorem C62_relative q : (Qpower 2 (-126) <= Qabs q)%Q \/ (q == 0)%Q ->
  (Qabs (q - f32 q) <= Qabs q * Qpower 2 (-24))%Q.
Proof. exact (f32_relative q). Qed.
Print Assumptions C62_relative.
Theorem C62_times s : (Qpower 2 (-126) <= s)%Q \/ (s == 0)%Q ->
  (Qabs (s * 1000000 - inject_Z (micros s)) < 1 + s * 1000000 * Qpower 2 (-24))%Q.
Proof. exact (micros_error s). Qed.
Print Assumptions C62_times.
Theorem C62_times_order a b : (0 <= a)%Q -> (b <= 16)%Q -> (a + (4#1000000) <= b)%Q ->
  (Qpower 2 (-126) <= a)%Q \/ (a == 0)%Q -> micros a < micros b.
Proof. exact (micros_order a b). Qed.
Print Assumptions C62_times_order.
(** Seven tenths of a second are stored as 699999 microseconds. *)
Theorem C62_times_refuted : exists s, (s * 1000000 == 700000)%Q /\ micros s = 699999.
Proof. exact (ex_intro _ (7#10)%Q (conj eq_refl eq_refl)). Qed.
Print Assumptions C62_times_refuted.
