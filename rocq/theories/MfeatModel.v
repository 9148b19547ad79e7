(** The features of a scene and of the rollouts of a scenario:
    /repo/src/waymo_open_dataset/wdl_limited/sim_agents_metrics/metric_features.py 97-396.

    Simplifications that apply to the whole file:
    - numbers are real numbers; the missing number (NaN) of a mean over no step is [None];
    - the kinematic features of one object (trajectory_features.py, modelled over fractions in
      KinematicModel) and the red light features (traffic_light_features.py, modelled over fractions
      in LightModel) are parameters;
    - Python gives no order for the elements of a set: [order] lists them;
    - comparing tensors of a different number of steps is an error; the case where one of them has a
      single step, which TensorFlow repeats, is an error too. *)
From Coq Require Import Reals.
From Verif Require Import Base ResultLib SimModel GeomModel TtcModel RoadModel.
Open Scope list_scope.
Open Scope R_scope.

(** protos/map.proto MapFeature: the features read here; [P] is the type of the points. *)
Inductive map_feature (P : Type) :=
| RoadEdge (polyline : list P)
| Lane (id : Z) (type : Z) (polyline : list P)
| OtherFeature.
Arguments RoadEdge {P}. Arguments Lane {P}. Arguments OtherFeature {P}.
(** protos/map.proto LaneCenter.LaneType. *)
Definition TYPE_SURFACE_STREET : Z := 2.

(** protos/scenario.proto Scenario, with its map and the lane states of each of its dynamic map
    states. *)
Record full_scenario (S : Type) := FullScenario {
  agents : scenario R; map_features : list (map_feature pt3); dynamic_map_states : list (list S) }.
Arguments FullScenario {S}. Arguments agents {S}. Arguments map_features {S}. Arguments dynamic_map_states {S}.

(** The four kinematic features of one object. *)
Record kinematics := Kinematics {
  k_speed : list (option R); k_accel : list (option R); k_turn : list (option R); k_turn_accel : list (option R) }.

(** The parameters: the kinematic features of x, y, z and heading; the red light features of all the
    objects for the mask, the lane polylines, the lane ids and the signals; the order of a set. *)
Record extractors (S : Type) := Extractors {
  kinematic : list R -> list R -> list R -> list R -> result kinematics;
  red_light : trajectories R -> list bool -> list (list pt3) -> list Z -> list (list S) -> result (list (list bool));
  order : list Z -> list Z }.
Arguments Extractors {S}. Arguments kinematic {S}. Arguments red_light {S}. Arguments order {S}.

(** metric_features.py 30-95 MetricFeatures: [object_id] is not batched, the other tensors have a
    leading samples axis. *)
Record features := {
  f_object_id : list Z;
  f_object_type : list (list Z);
  f_valid : list (list (list bool));
  f_ade : list (list (option R));
  f_speed : list (list (list (option R)));
  f_accel : list (list (list (option R)));
  f_turn : list (list (list (option R)));
  f_turn_accel : list (list (list (option R)));
  f_distance : list (list (list R));
  f_collision : list (list (list bool));
  f_ttc : list (list (list R));
  f_road : list (list (list R));
  f_offroad : list (list (list bool));
  f_red : list (list (list bool)) }.

(** The tensors of a table of trajectories as boxes, row by row. *)
Fixpoint row_cells (x y l w h : list R) (v : list bool) : list (obox * bool) :=
  match x, y, l, w, h, v with
  | a :: x, b :: y, c :: l, d :: w, e :: h, u :: v =>
      ({| bx := a; by_ := b; blength := c; bwidth := d; bheading := e |}, u) :: row_cells x y l w h v
  | _, _, _, _, _, _ => []
  end.
Fixpoint table_cells (x y l w h : list (list R)) (v : list (list bool)) : list (list (obox * bool)) :=
  match x, y, l, w, h, v with
  | a :: x, b :: y, c :: l, d :: w, e :: h, u :: v => row_cells a b c d e u :: table_cells x y l w h v
  | _, _, _, _, _, _ => []
  end.
Definition cells_of (t : trajectories R) : list (list (obox * bool)) :=
  table_cells (tr_x t) (tr_y t) (tr_length t) (tr_width t) (tr_heading t) (tr_valid t).
(** The same boxes with their height above the ground. *)
Fixpoint row_boxes (cells : list (obox * bool)) (z ht : list R) : list (box3 * bool) :=
  match cells, z, ht with
  | c :: cells, a :: z, b :: ht => ({| b_box := fst c; b_z := a; b_height := b |}, snd c) :: row_boxes cells z ht
  | _, _, _ => []
  end.
Fixpoint table_boxes (cells : list (list (obox * bool))) (z ht : list (list R)) : list (list (box3 * bool)) :=
  match cells, z, ht with
  | c :: cells, a :: z, b :: ht => row_boxes c a b :: table_boxes cells z ht
  | _, _, _ => []
  end.
Definition boxes_of (t : trajectories R) : list (list (box3 * bool)) :=
  table_boxes (cells_of t) (tr_z t) (tr_height t).

(** interaction_features.py 28 and submission_specs.py 80, 90: the default arguments and the step. *)
Definition CORNER_ROUNDING_FACTOR : R := 7 / 10.
Definition STEP_DURATION : R := 1 / 10.

(** metric_features.py 203-228: the interactive features of the table. *)
Definition nearest_feature (t : trajectories R) (mask : list bool) : result (list (list R)) :=
  distance_to_nearest_object CORNER_ROUNDING_FACTOR (last_dim (tr_x t)) (cells_of t) mask.
Definition ttc_feature (t : trajectories R) (mask : list bool) : result (list (list R)) :=
  compute_time_to_collision STEP_DURATION (last_dim (tr_x t)) (cells_of t) mask.
(** 230-246: the road edges in the order of the map. *)
Definition road_edges_of (l : list (map_feature pt3)) : list (list pt3) :=
  fold_left (fun acc f => match f with RoadEdge p => acc ++ [p] | _ => acc end) l [].
Definition road_feature (t : trajectories R) (mask : list bool) (edges : list (list pt3)) : result (list (list R)) :=
  distance_to_road_edge (boxes_of t) mask edges.
(** 248-255: the surface street lanes, ids and polylines. *)
Definition street_lanes (l : list (map_feature pt3)) : list Z * list (list pt3) :=
  fold_left (fun acc f => match f with
                          | Lane i ty p => if Z.eqb ty TYPE_SURFACE_STREET then (fst acc ++ [i], snd acc ++ [p]) else acc
                          | _ => acc
                          end) l ([], []).
(** 256-280. *)
Definition red_feature {S} (X : extractors S) (sc : full_scenario S) (n_evaluated : nat) (t : trajectories R)
    (mask : list bool) : result (list (list bool)) :=
  let lanes := street_lanes (map_features sc) in
  match snd lanes, dynamic_map_states sc with
  | _ :: _, _ :: _ => red_light X t mask (snd lanes) (fst lanes) (dynamic_map_states sc)
  | _, _ => Ok (repeat (repeat false (last_dim (tr_valid t))) n_evaluated)
  end.

(** trajectory_features.py 63-84 compute_displacement_error, one row. *)
Fixpoint displacement (x y z rx ry rz : list R) : list R :=
  match x, y, z, rx, ry, rz with
  | a :: x, b :: y, c :: z, d :: rx, e :: ry, f :: rz =>
      sqrt ((a - d) * (a - d) + (b - e) * (b - e) + (c - f) * (c - f)) :: displacement x y z rx ry rz
  | _, _, _, _, _, _ => []
  end.
(** 292-306: tf.where of the logged validity, the sum and the mean of one row. *)
Fixpoint masked_sum (valid : list bool) (d : list R) : R :=
  match valid, d with
  | v :: valid, a :: d => (if v : bool then a else 0) + masked_sum valid d
  | _, _ => 0
  end.
Definition valid_steps (valid : list bool) : R := fold_right (fun v : bool => Rplus (if v then 1 else 0)) 0 valid.
Definition mean_error (valid : list bool) (d : list R) : option R :=
  if Req_EM_T (valid_steps valid) 0 then None else Some (masked_sum valid d / valid_steps valid).
(** 284-306, all the evaluated objects. *)
Fixpoint ade_rows (x y z rx ry rz : list (list R)) (valid : list (list bool)) : list (option R) :=
  match x, y, z, rx, ry, rz, valid with
  | a :: x, b :: y, c :: z, d :: rx, e :: ry, f :: rz, v :: valid =>
      mean_error v (displacement a b c d e f) :: ade_rows x y z rx ry rz valid
  | _, _, _, _, _, _, _ => []
  end.
Definition ade_feature (simulated logged : trajectories R) : result (list (option R)) :=
  if negb (Nat.eqb (last_dim (tr_x simulated)) (last_dim (tr_x logged))) then Err RuntimeError
  else Ok (ade_rows (tr_x simulated) (tr_y simulated) (tr_z simulated)
                    (tr_x logged) (tr_y logged) (tr_z logged) (tr_valid logged)).

(** 180-190: the kinematic features of all the evaluated objects. *)
Fixpoint kinematic_rows (f : list R -> list R -> list R -> list R -> result kinematics)
    (x y z h : list (list R)) : result (list kinematics) :=
  match x, y, z, h with
  | a :: x, b :: y, c :: z, d :: h => do k <- f a b c d; do ks <- kinematic_rows f x y z h; Ok (k :: ks)
  | _, _, _, _ => Ok []
  end.

(** 282-321: for the sim agents challenge only the steps after the current one are kept. *)
Definition after_current {A} (ct : challenge) (rows : list (list A)) : list (list A) :=
  match ct with
  | SIM_AGENTS => map (py_slice (current_time_index (submission_config ct) + 1) None) rows
  | SCENARIO_GEN => rows
  end.

(** 97-348 compute_metric_features. *)
Definition compute_metric_features {S} (X : extractors S) (sc : full_scenario S) (js : list (sim_trajectory R))
    (ct : challenge) (use_log_validity : bool) : result features :=
  do simulated <- match ct with
                  | SIM_AGENTS => joint_scene_to_trajectories js (agents sc) use_log_validity
                  | SCENARIO_GEN => simulated_scenariogen_to_trajectories js (agents sc) ct
                  end;
  do logged <- from_scenario (agents sc);
  do logged <- gather_objects_by_id logged (tr_id simulated);
  do evaluated_ids <- get_evaluation_sim_agent_ids (agents sc) ct;
  do evaluated_ids <- id_tensor evaluated_ids;
  do evaluated <- gather_objects_by_id simulated evaluated_ids;
  let others := order X (filter (fun i => negb (zmem i evaluated_ids)) (nodup Z.eq_dec (tr_id simulated))) in
  do simulated <- gather_objects_by_id simulated (evaluated_ids ++ others);
  do evaluated_logged <- gather_objects_by_id logged evaluated_ids;
  let validity := if use_log_validity then tr_valid evaluated_logged else tr_valid evaluated in
  do kin <- kinematic_rows (kinematic X) (tr_x evaluated) (tr_y evaluated) (tr_z evaluated) (tr_heading evaluated);
  let mask := map (fun i => zmem i evaluated_ids) (tr_id simulated) in
  do distances <- nearest_feature simulated mask;
  do ttc <- ttc_feature simulated mask;
  do road <- road_feature simulated mask (road_edges_of (map_features sc));
  do red <- red_feature X sc (length evaluated_ids) simulated mask;
  do ade <- match ct with
            | SIM_AGENTS => ade_feature evaluated evaluated_logged
            | SCENARIO_GEN => Ok (repeat (Some 0) (length validity))
            end;
  let distances := after_current ct distances in
  let road := after_current ct road in
  Ok {| f_object_id := tr_id evaluated; f_object_type := [tr_type evaluated];
        f_valid := [after_current ct validity]; f_ade := [ade];
        f_speed := [after_current ct (map k_speed kin)]; f_accel := [after_current ct (map k_accel kin)];
        f_turn := [after_current ct (map k_turn kin)]; f_turn_accel := [after_current ct (map k_turn_accel kin)];
        f_distance := [distances]; f_collision := [map (map is_colliding) distances];
        f_ttc := [after_current ct ttc];
        f_road := [road]; f_offroad := [map (map is_offroad) road];
        f_red := [after_current ct red] |}.

(** The number of steps of the tensors of a scene. *)
Definition feature_steps (f : features) : nat := last_dim (concat (f_valid f)).
(** 385-391: the tensors of the rollouts one after the other; tf.concat of no tensor raises ValueError,
    of tensors of different numbers of steps InvalidArgumentError (RuntimeError here).  The numbers of
    evaluated objects agree as the ids do. *)
Definition concat_samples (l : list features) (ids : list Z) : result features :=
  match l with
  | [] => Err ValueError
  | f0 :: _ =>
    if negb (forallb (fun f => Nat.eqb (feature_steps f) (feature_steps f0)) l) then Err RuntimeError else
    Ok {| f_object_id := ids;
          f_object_type := concat (map f_object_type l);
          f_valid := concat (map f_valid l); f_ade := concat (map f_ade l);
          f_speed := concat (map f_speed l); f_accel := concat (map f_accel l);
          f_turn := concat (map f_turn l); f_turn_accel := concat (map f_turn_accel l);
          f_distance := concat (map f_distance l); f_collision := concat (map f_collision l);
          f_ttc := concat (map f_ttc l); f_road := concat (map f_road l);
          f_offroad := concat (map f_offroad l); f_red := concat (map f_red l) |}
  end.

(** tf.reduce_any(a != b): tensors of different lengths compare as different (a single True). *)
Fixpoint any_different (a b : list Z) : bool :=
  match a, b with
  | [], [] => false
  | x :: a, y :: b => negb (Z.eqb x y) || any_different a b
  | _, _ => true
  end.

(** 375-383: the loop over the joint scenes. *)
Definition add_rollout {S} (X : extractors S) (sc : full_scenario S) (ct : challenge) (log_ids : list Z)
    (acc : list features) (js : list (sim_trajectory R)) : result (list features) :=
  do f <- compute_metric_features X sc js ct false;
  if any_different log_ids (f_object_id f) then Err ValueError else Ok (acc ++ [f]).

(** 351-396 compute_scenario_rollouts_features. *)
Definition compute_scenario_rollouts_features {S} (X : extractors S) (sc : full_scenario S) (r : rollouts R)
    (ct : challenge) : result (features * features) :=
  do log_scene <- scenario_to_joint_scene (agents sc) ct;
  do log_features <- compute_metric_features X sc log_scene ct true;
  do l <- foldM (add_rollout X sc ct (f_object_id log_features)) (joint_scenes r) [];
  do sim_features <- concat_samples l (f_object_id log_features);
  Ok (log_features, sim_features).
