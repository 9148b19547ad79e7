(** Conversion of a motion Scenario proto into the tensors of a tf.Example:
    src/waymo_open_dataset/data_conversion/scenario_conversion.cc (and .h).

    Conventions.
    - Doubles are rationals; the centre coordinates of an object state, which
      decide the order of the agents, may also be NaN.  Infinities, rounding of
      double arithmetic and int overflow are not modelled; the conversion to
      float of every stored value is (f32 below).
    - The hash map from feature names to growing lists and the map of counters
      are represented by the log of what is appended to them, in order;
      [tensor] and [counter] read one entry back.
    - Error values: ValueError is the absl InternalError status, KeyError the
      absl FailedPrecondition status, CheckFailed a failed CHECK, IndexError
      undefined behaviour (an index outside a repeated field, a division by
      zero cast to int), RuntimeError the std::length_error thrown by a vector
      asked for a negative size.  What is logged before an error is dropped
      (the caller still sees the counters; the model does not say so). *)
From Coq Require Import String.
From Verif Require Import Base ResultLib.
Open Scope list_scope.
Open Scope Z_scope.

Definition undefined {A : Type} : result A := Err IndexError.

(** A repeated field indexed by an int. *)
Definition at_index {A} (l : list A) (i : Z) : result A :=
  if i <? 0 then undefined
  else match nth_error l (Z.to_nat i) with Some x => Ok x | None => undefined end.

Definition size {A} (l : list A) : Z := Z.of_nat (List.length l).

(** static_cast<int> of a double: towards zero. *)
Definition trunc (q : Q) : Z := if Qle_bool 0 q then Qfloor q else - Qfloor (- q).

(** static_cast<float>: nearest multiple of the spacing of floats at that
    magnitude, ties to even; overflow to infinity is not modelled. *)
Definition pow2 (e : Z) : Q := Qpower 2 e.
Definition exponent (q : Q) : Z :=
  let e := Z.log2 (Z.abs (Qnum q)) - Z.log2 (Zpos (Qden q)) in
  if Qle_bool (pow2 e) (Qabs q) then e else e - 1.
Definition f32 (q : Q) : Q :=
  let u := pow2 (Z.max (exponent q) (-126) - 23) in
  (inject_Z (round_half_even (q / u)) * u)%Q.

(** A double that may be NaN. *)
Inductive fl : Set := Fin (q : Q) | NaN.

(** Vec3d, math/vec3d.h 28-61. *)
Record vec3 := V3 { px : Q; py : Q; pz : Q }.
Definition vadd (a b : vec3) : vec3 := V3 (px a + px b) (py a + py b) (pz a + pz b).
Definition vsub (a b : vec3) : vec3 := V3 (px a - px b) (py a - py b) (pz a - pz b).
Definition vscale (k : Q) (a : vec3) : vec3 := V3 (k * px a) (k * py a) (k * pz a).
Definition vdiv (a : vec3) (k : Q) : vec3 := V3 (px a / k) (py a / k) (pz a / k).
Definition vsqr (a : vec3) : Q := (px a * px a + py a * py a + pz a * pz a)%Q.

(** What the platform leaves open: the C library functions sqrt (of vx²+vy²),
    atan2, hypot and Vec3d::Length, the order in which std::sort leaves its
    input, and the order in which a hash set of pointers is enumerated. *)
Record platform := {
  speed_of : Q -> Q -> Q;
  yaw_of : Q -> Q -> Q;
  hypot_of : Q -> Q -> Q;
  length_of : vec3 -> Q;
  std_sort : (nat -> nat -> bool) -> list nat -> list nat;
  hash_order : list nat -> list nat
}.

(** Vec3d::Normalized, math/vec3d.h 55-61. *)
Definition normalized (pf : platform) (a : vec3) : vec3 :=
  if Qle_bool (length_of pf a) 0 then V3 0 0 0 else vdiv a (length_of pf a).

(** protos/conversion_config.proto. *)
Record config := {
  max_num_agents : Z;
  max_num_modeled_agents : Z;
  num_past_steps : Z;
  num_future_steps : Z;
  max_roadgraph_samples : Z;
  source_polyline_spacing : Q;
  polyline_sample_spacing : Q;
  polygon_sample_spacing : Q;
  max_traffic_light_control_points_per_step : Z
}.

(** protos/scenario.proto ObjectState. *)
Record object_state := {
  center_x : fl; center_y : fl; center_z : Q;
  st_length : Q; st_width : Q; st_height : Q;
  heading : Q; velocity_x : Q; velocity_y : Q;
  valid : bool
}.

(** protos/scenario.proto Track; [object_type] is the enum number, 0 is TYPE_UNSET. *)
Record track := { tr_id : Z; object_type : Z; states : list object_state }.

(** protos/map.proto TrafficSignalLaneState. *)
Record lane_state := { ls_lane : Z; ls_state : Z; stop_point : vec3 }.

(** protos/map.proto MapFeature and its oneof; sub-types are enum numbers. *)
Inductive feature_data :=
| Lane (type : Z) (polyline : list vec3)
| RoadLine (type : Z) (polyline : list vec3)
| RoadEdge (type : Z) (polyline : list vec3)
| StopSign (position : vec3)
| Crosswalk (polygon : list vec3)
| SpeedBump (polygon : list vec3)
| Driveway (polygon : list vec3)
| FeatureNotSet.
Record map_feature := { mf_id : Z; mf_data : feature_data }.

(** feature_data_case(): the field numbers of the oneof. *)
Definition kLane := 3.
Definition kRoadLine := 4.
Definition kRoadEdge := 5.
Definition kStopSign := 7.
Definition kCrosswalk := 8.
Definition kSpeedBump := 9.
Definition kDriveway := 10.
Definition feature_data_case (m : map_feature) : Z :=
  match mf_data m with
  | Lane _ _ => kLane | RoadLine _ _ => kRoadLine | RoadEdge _ _ => kRoadEdge
  | StopSign _ => kStopSign | Crosswalk _ => kCrosswalk | SpeedBump _ => kSpeedBump
  | Driveway _ => kDriveway | FeatureNotSet => 0
  end.

(** protos/scenario.proto RequiredPrediction and Scenario (the fields used). *)
Record required := { track_index : Z; difficulty : Z }.
Record scenario := {
  scenario_id : string;
  timestamps_seconds : list Q;
  tracks : list track;
  dynamic_map_states : list (list lane_state);
  map_features : list map_feature;
  sdc_track_index : Z;
  interest_ids : list Z;
  tracks_to_predict : list required
}.

Inductive value : Type := VInt (z : Z) | VFloat (f : fl) | VBytes (s : string).
Inductive event : Type := Feature (key : string) (v : value) | Counter (key : string) (n : Z).
Notation log := (list event).

(** The list stored under a feature name; the value of a counter. *)
Definition tensor (k : string) (l : log) : list value :=
  flat_map (fun e => match e with
                     | Feature k' v => if String.eqb k' k then [v] else []
                     | Counter _ _ => []
                     end) l.
Fixpoint counter (k : string) (l : log) : Z :=
  match l with
  | [] => 0
  | Counter k' n :: l' => if String.eqb k' k then n + counter k l' else counter k l'
  | Feature _ _ :: l' => counter k l'
  end.

(** kInvalidFieldValue, scenario_conversion.h 36. *)
Definition invalid_float : value := VFloat (Fin (-1)).
Definition invalid_int : value := VInt (-1).
Definition vfloat (q : Q) : value := VFloat (Fin (f32 q)).
Definition vfl (f : fl) : value :=
  match f with Fin q => vfloat q | NaN => VFloat NaN end.

(** GetLaneType 42-56, GetRoadLineType 58-82, GetRoadEdgeType 84-97. *)
Definition get_lane_type (t : Z) : Z :=
  if (0 <=? t) && (t <=? 3) then t else -1.
Definition get_road_line_type (t : Z) : Z :=
  if (0 <=? t) && (t <=? 8) then t + 5 else -1.
Definition get_road_edge_type (t : Z) : Z :=
  if (0 <=? t) && (t <=? 2) then t + 14 else -1.

(** GetMapFeatureType 195-224 and the constants of 99-102. *)
Definition get_map_feature_type (base sub : Z) : Z :=
  if base =? kLane then get_lane_type sub
  else if base =? kRoadLine then get_road_line_type sub
  else if base =? kRoadEdge then get_road_edge_type sub
  else if base =? kStopSign then 17
  else if base =? kCrosswalk then 18
  else if base =? kSpeedBump then 19
  else if base =? kDriveway then 20
  else -1.

(** GetFeaturePriorityList 229-233. *)
Definition priority_list : list Z :=
  [kLane; kRoadLine; kStopSign; kCrosswalk; kSpeedBump; kRoadEdge].

(** InterpolatePoint 159-163. *)
Definition interpolate_point (l r : vec3) (alpha : Q) : vec3 :=
  vadd l (vscale alpha (vsub r l)).

(** InterpolateCubicSpline 183-190. *)
Definition interpolate_cubic_spline (p0 p1 p2 p3 : vec3) (alpha : Q) : vec3 :=
  let a := vscale (1#2) (vadd (vadd (vadd (vscale (-1) p0) (vscale 3 p1)) (vscale (-3) p2)) p3) in
  let b := vscale (1#2) (vsub (vadd (vsub (vscale 2 p0) (vscale 5 p1)) (vscale 4 p2)) p3) in
  let c := vscale (1#2) (vadd (vscale (-1) p0) p2) in
  vadd p1 (vscale alpha (vadd c (vscale alpha (vadd b (vscale alpha a))))).

(** ComputeDirectionVectors 166-177: the loop bound size()-1 is unsigned, so no
    points at all is undefined behaviour. *)
Fixpoint direction_loop (pf : platform) (points : list vec3) : list vec3 :=
  match points with
  | [] => []
  | p :: rest => match rest with
                 | [] => [V3 0 0 0]
                 | q :: _ => normalized pf (vsub q p) :: direction_loop pf rest
                 end
  end.
Definition compute_direction_vectors (pf : platform) (points : list vec3) : result (list vec3) :=
  match points with [] => undefined | _ => Ok (direction_loop pf points) end.

(** AddRoadgraphData 364-392 for the prefix roadgraph_samples/ (the only one
    used); its two CHECKs hold at both call sites. *)
Definition vec_features (key : string) (v : vec3) : log :=
  [Feature key (vfloat (px v)); Feature key (vfloat (py v)); Feature key (vfloat (pz v))].
Definition add_roadgraph_data (id type : Z) (points dirs : list vec3) : log :=
  flat_map (fun pd =>
    [Feature "roadgraph_samples/id" (VInt id);
     Feature "roadgraph_samples/type" (VInt type);
     Feature "roadgraph_samples/valid" (VInt 1)]
    ++ vec_features "roadgraph_samples/xyz" (fst pd)
    ++ vec_features "roadgraph_samples/dir" (snd pd)) (combine points dirs).

(** AddSampledPolygonSegment 531-553; [room] is max_roadgraph_samples minus
    *num_points.  Returns the points pushed (as many as *num_points grows). *)
Fixpoint segment_loop (room : nat) (start ray : vec3) (num_samples j : Z) : list vec3 :=
  match room with
  | O => []
  | S room' =>
      if j <? num_samples - 1 then
        vadd start (vdiv (vscale (inject_Z j) ray) (inject_Z (num_samples - 1)))
        :: segment_loop room' start ray num_samples (j + 1)
      else []
  end.
Definition add_sampled_polygon_segment (pf : platform) (cfg : config) (room : nat)
    (start stop : vec3) : list vec3 :=
  match room with
  | O => []
  | _ =>
      if Qle_bool (polygon_sample_spacing cfg) 0 then [start]
      else
        let ray := vsub stop start in
        let num_samples := Z.max (trunc (1 + length_of pf ray / polygon_sample_spacing cfg)) 2 in
        segment_loop room start ray num_samples 0
  end.

(** AddPolygonSamples 792-825.  First the loop over the sides but the last
    (800-808), then the closing side, then the first point again. *)
Fixpoint polygon_sides (pf : platform) (cfg : config) (room : nat) (l : list vec3) : list vec3 :=
  match l with
  | [] => []
  | p :: rest =>
      match rest with
      | [] => []
      | q :: _ =>
          let points := add_sampled_polygon_segment pf cfg room p q in
          let room' := (room - List.length points)%nat in
          match room' with
          | O => points
          | _ => points ++ polygon_sides pf cfg room' rest
          end
      end
  end.
Definition add_polygon_samples (pf : platform) (cfg : config) (id type : Z)
    (map_points : list vec3) (num_points : Z) : result (Z * log) :=
  let room := Z.to_nat (max_roadgraph_samples cfg - num_points) in
  let sides := polygon_sides pf cfg room map_points in
  let room1 := (room - List.length sides)%nat in
  do last <- at_index map_points (size map_points - 1);
  do first <- at_index map_points 0;
  let closing := add_sampled_polygon_segment pf cfg room1 last first in
  let room2 := (room1 - List.length closing)%nat in
  let final := match room2 with O => [] | _ => [first] end in
  let points := sides ++ closing ++ final in
  do dirs <- compute_direction_vectors pf points;
  Ok (num_points + size points, add_roadgraph_data id type points dirs).

(** The spacing of the samples, AddInterpolatedRoadGraphSamples 833-835. *)
Definition sample_spacing (cfg : config) : Q :=
  if Qle_bool (polyline_sample_spacing cfg) 0 then source_polyline_spacing cfg
  else polyline_sample_spacing cfg.

(** The while loop 848-872. *)
Fixpoint polyline_loop (cfg : config) (room : nat) (map_points : list vec3) (point_index : Z)
  : result (list vec3) :=
  match room with
  | O => Ok []
  | S room' =>
      let source := source_polyline_spacing cfg in
      let distance := (inject_Z point_index * sample_spacing cfg)%Q in
      if Qeq_bool source 0 then undefined else
      let left := trunc (distance / source) in
      if size map_points - 1 <=? left then Ok []
      else
        let alpha := ((distance - inject_Z left * source) / source)%Q in
        do p <- (if (left <? 1) || (size map_points - 3 <? left) then
                   do l <- at_index map_points left;
                   do r <- at_index map_points (left + 1);
                   Ok (interpolate_point l r alpha)
                 else
                   do p0 <- at_index map_points (left - 1);
                   do p1 <- at_index map_points left;
                   do p2 <- at_index map_points (left + 1);
                   do p3 <- at_index map_points (left + 2);
                   Ok (interpolate_cubic_spline p0 p1 p2 p3 alpha));
        do rest <- polyline_loop cfg room' map_points (point_index + 1);
        Ok (p :: rest)
  end.

(** AddInterpolatedRoadGraphSamples 827-889. *)
Definition add_interpolated_samples (pf : platform) (cfg : config) (id type : Z)
    (map_points : list vec3) (num_points : Z) : result (Z * log) :=
  match map_points with
  | [] => Ok (num_points, [])
  | first :: _ =>
      if Qeq_bool (sample_spacing cfg) 0 then undefined else
      let approx := trunc (inject_Z (size map_points) * source_polyline_spacing cfg
                           / sample_spacing cfg) in
      if approx <? 0 then Err RuntimeError else
      let room := Z.to_nat (max_roadgraph_samples cfg - num_points) in
      do loop <- polyline_loop cfg room map_points 0;
      let last := List.last map_points first in
      let threshold := 1#100 in
      let points :=
        if (List.length loop <? room)%nat
           && match loop with
              | [] => true
              | p :: _ => negb (Qle_bool (vsqr (vsub last (List.last loop p))) (threshold * threshold))
              end
        then loop ++ [last] else loop in
      do dirs <- compute_direction_vectors pf points;
      Ok (num_points + size points, add_roadgraph_data id type points dirs)
  end.

(** AddRoadgraphSample 394-464: every case but the last starts with the same
    early exit. *)
Definition add_roadgraph_sample (pf : platform) (cfg : config) (acc : Z * log) (m : map_feature)
  : result (Z * log) :=
  let '(num_points, l) := acc in
  let full := max_roadgraph_samples cfg <=? num_points in
  let keep (r : result (Z * log)) : result (Z * log) :=
    if full then Ok (num_points, l)
    else do (n, more) <- r; Ok (n, l ++ more) in
  let id := mf_id m in
  match mf_data m with
  | Lane t pts =>
      keep (add_interpolated_samples pf cfg id (get_map_feature_type kLane t) pts num_points)
  | RoadLine t pts =>
      keep (add_interpolated_samples pf cfg id (get_map_feature_type kRoadLine t) pts num_points)
  | RoadEdge t pts =>
      keep (add_interpolated_samples pf cfg id (get_map_feature_type kRoadEdge t) pts num_points)
  | StopSign p =>
      keep (add_interpolated_samples pf cfg id (get_map_feature_type kStopSign (-1)) [p] num_points)
  | Crosswalk pts =>
      keep (add_polygon_samples pf cfg id (get_map_feature_type kCrosswalk (-1)) pts num_points)
  | SpeedBump pts =>
      keep (add_polygon_samples pf cfg id (get_map_feature_type kSpeedBump (-1)) pts num_points)
  | Driveway pts =>
      keep (add_polygon_samples pf cfg id (get_map_feature_type kDriveway (-1)) pts num_points)
  | FeatureNotSet => Ok (num_points, l)
  end.

Fixpoint zmem (x : Z) (l : list Z) : bool :=
  match l with [] => false | y :: l' => (x =? y) || zmem x l' end.

(** The padding of AddRoadGraphSamples, 516-525. *)
Definition road_padding : log :=
  [Feature "roadgraph_samples/id" invalid_int;
   Feature "roadgraph_samples/type" invalid_int;
   Feature "roadgraph_samples/xyz" invalid_float;
   Feature "roadgraph_samples/xyz" invalid_float;
   Feature "roadgraph_samples/xyz" invalid_float;
   Feature "roadgraph_samples/dir" invalid_float;
   Feature "roadgraph_samples/dir" invalid_float;
   Feature "roadgraph_samples/dir" invalid_float;
   Feature "roadgraph_samples/valid" (VInt 0)].

(** AddRoadGraphSamples 473-526. *)
Definition add_roadgraph_samples (pf : platform) (cfg : config) (features : list map_feature)
  : result log :=
  do acc <- foldM (fun acc priority =>
              foldM (fun acc m =>
                if negb (feature_data_case m =? priority) then Ok acc
                else add_roadgraph_sample pf cfg acc m) features acc)
            priority_list (0, []);
  do acc <- foldM (fun acc m =>
              if zmem (feature_data_case m) priority_list then Ok acc
              else add_roadgraph_sample pf cfg acc m) features acc;
  let '(num_points, l) := acc in
  let num_padding := max_roadgraph_samples cfg - num_points in
  Ok (l ++ [Counter "Road_Graph_Samples_Valid_Points" num_points;
            Counter "Road_Graph_Samples_Padded_Points" num_padding]
        ++ List.concat (repeat road_padding (Z.to_nat num_padding))).

(** The name of the time frame of step [t], 661-668 and 907-914. *)
Definition time_frame (cfg : config) (t : Z) : string :=
  if t <? num_past_steps cfg - 1 then "past"
  else if t =? num_past_steps cfg - 1 then "current"
  else "future".
Definition num_steps (cfg : config) : Z := num_future_steps cfg + num_past_steps cfg.
Definition steps (cfg : config) : list Z := map Z.of_nat (seq 0 (Z.to_nat (num_steps cfg))).

(** t_timestamps_seconds * 1e6 stored as int64 (the seconds are a float),
    688-695 and 928-937. *)
Definition micros_at (ts : list Q) (step : Z) : result Z :=
  if step <? size ts then
    do s <- at_index ts step;
    Ok (trunc (f32 s * 1000000))
  else Ok (trunc (-1 * 1000000)).

(** The body of the loop over the points, 939-966. *)
Definition lane_features (prefix : string) (ls : option lane_state) : log :=
  let f (key : string) (v : value) := Feature (prefix ++ key)%string v in
  match ls with
  | None =>
      [f "x" invalid_float; f "y" invalid_float; f "z" invalid_float;
       f "state" invalid_int; f "id" invalid_int; f "valid" (VInt 0)]
  | Some s =>
      [f "x" (vfloat (px (stop_point s))); f "y" (vfloat (py (stop_point s)));
       f "z" (vfloat (pz (stop_point s)));
       f "state" (VInt (ls_state s)); f "id" (VInt (ls_lane s)); f "valid" (VInt 1)]
  end%string.

(** One step of AddTrafficLightStateFeatures 891-981. *)
Definition traffic_step (cfg : config) (sc : scenario) (last_step t : Z) : result log :=
  let max_points := max_traffic_light_control_points_per_step cfg in
  let prefix := ("traffic_light_state/" ++ time_frame cfg t ++ "/")%string in
  let step := last_step - (num_steps cfg - 1 - t) in
  let dyn := dynamic_map_states sc in
  let warn := if size dyn <=? step
              then [Counter "Traffic_Light_State_Not_Enough_Steps" 1] else [] in
  do state <- (if size dyn <=? step then Ok None
               else do s <- at_index dyn step; Ok (Some s));
  do micros <- micros_at (timestamps_seconds sc) step;
  let time := [Feature (prefix ++ "timestamp_micros")%string
                 (match state with None => invalid_int | Some _ => VInt micros end)] in
  let points := flat_map (fun i =>
        lane_features prefix (match state with None => None | Some s => nth_error s i end))
      (seq 0 (Z.to_nat max_points)) in
  let counts := match state with
                | None => [Counter "Padded_Traffic_Light_State_Features" max_points]
                | Some s => [Counter "Actual_Traffic_Light_State_Features" (size s);
                             Counter "Padded_Traffic_Light_State_Features" (max_points - size s)]
                end in
  Ok (warn ++ time ++ points ++ counts).
Definition add_traffic_light_features (cfg : config) (sc : scenario) (last_step : Z)
  : result log :=
  do ls <- mapM (traffic_step cfg sc last_step) (steps cfg);
  Ok (List.concat ls).

(** GetObjectsOfInterest 134-150; a track pointer is its index.  Without
    keep_invalid_tracks the state at the current step of a track with the
    wanted id is read. *)
Fixpoint find_interest (keep : bool) (step id : Z) (i : nat) (l : list track)
  : result (option nat) :=
  match l with
  | [] => Ok None
  | tr :: l' =>
      if tr_id tr =? id then
        do hit <- (if keep then Ok true
                   else do s <- at_index (states tr) step; Ok (valid s));
        if (hit : bool) then Ok (Some i) else find_interest keep step id (S i) l'
      else find_interest keep step id (S i) l'
  end.
Definition get_objects_of_interest (sc : scenario) (step : Z) (keep : bool)
  : result (list nat) :=
  do found <- mapM (fun id => find_interest keep step id 0 (tracks sc)) (interest_ids sc);
  Ok (flat_map (fun o => match o with Some i => [i] | None => [] end) found).

Definition mem (i : nat) (l : list nat) : bool := existsb (Nat.eqb i) l.

(** A comparison with size_t: a negative int becomes huge. *)
Definition to_size_t (z : Z) : Z := if z <? 0 then z + 18446744073709551616 else z.

(** GetModeledAgents 582-611.  The set is a list without repetition in order of
    insertion. *)
Definition get_modeled_agents (cfg : config) (sc : scenario) (last_step : Z)
  : result (list nat) :=
  let current := last_step - num_future_steps cfg in
  do _ <- get_objects_of_interest sc current false;
  foldM (fun agents r =>
    if size (tracks sc) <=? track_index r then Err CheckFailed
    else
      do tr <- at_index (tracks sc) (track_index r);
      do st <- at_index (states tr) current;
      let i := Z.to_nat (track_index r) in
      if valid st && (size agents <? to_size_t (max_num_modeled_agents cfg))
      then Ok (if mem i agents then agents else agents ++ [i])
      else Ok agents) (tracks_to_predict sc) [].

(** DifficultyLevel 569-580. *)
Definition difficulty_level (sc : scenario) (agent : option nat) : Z :=
  match agent with
  | None => -1
  | Some i =>
      match find (fun r => track_index r =? Z.of_nat i) (tracks_to_predict sc) with
      | Some r => difficulty r
      | None => 0
      end
  end.

Definition no_track : track := {| tr_id := 0; object_type := 0; states := [] |}.
Definition no_state : object_state :=
  {| center_x := NaN; center_y := NaN; center_z := 0; st_length := 0; st_width := 0;
     st_height := 0; heading := 0; velocity_x := 0; velocity_y := 0; valid := false |}.
Definition track_of (sc : scenario) (i : nat) : track := nth i (tracks sc) no_track.
Definition state_of (sc : scenario) (step : Z) (i : nat) : object_state :=
  nth (Z.to_nat step) (states (track_of sc i)) no_state.

(** compare_modeled_agents 274-276. *)
Definition modeled_before (sc : scenario) (a b : nat) : bool :=
  tr_id (track_of sc a) <? tr_id (track_of sc b).

(** a - b, hypot and < on doubles that may be NaN. *)
Definition distance (pf : platform) (a b : object_state) : fl :=
  match center_x a, center_x b, center_y a, center_y b with
  | Fin ax, Fin bx, Fin ay, Fin by_ => Fin (hypot_of pf (ax - bx) (ay - by_))
  | _, _, _, _ => NaN
  end.
Definition less (a b : fl) : bool :=
  match a, b with Fin x, Fin y => negb (Qle_bool y x) | _, _ => false end.
Definition valid_states (tr : track) : Z := size (filter valid (states tr)).

(** compare_context_agents 304-344. *)
Definition context_before (pf : platform) (sc : scenario) (step : Z) (sdc a b : nat) : bool :=
  let sa := state_of sc step a in
  let sb := state_of sc step b in
  if valid sa || valid sb then
    if valid sa && valid sb then
      let ss := state_of sc step sdc in
      less (distance pf sa ss) (distance pf sb ss)
    else valid sa
  else valid_states (track_of sc b) <? valid_states (track_of sc a).

Definition object_type_counter (t : Z) : string :=
  match t with
  | 0 => "Object_Type_0" | 1 => "Object_Type_1" | 2 => "Object_Type_2" | 3 => "Object_Type_3"
  | _ => "Object_Type_4"
  end%string.

(** The per-step body of AddStateFeatures, 661-759. *)
Definition state_values (pf : platform) (st : option object_state) : list (string * value) :=
  match st with
  | None =>
      map (fun key => (key, invalid_float))
        ["x"; "y"; "z"; "width"; "length"; "height"; "velocity_x"; "velocity_y"; "speed";
         "bbox_yaw"; "vel_yaw"]
  | Some s =>
      [("x", vfl (center_x s)); ("y", vfl (center_y s)); ("z", vfloat (center_z s));
       ("width", vfloat (st_width s)); ("length", vfloat (st_length s));
       ("height", vfloat (st_height s));
       ("velocity_x", vfloat (velocity_x s)); ("velocity_y", vfloat (velocity_y s));
       ("speed", vfloat (speed_of pf (velocity_x s) (velocity_y s)));
       ("bbox_yaw", vfloat (heading s));
       ("vel_yaw", vfloat (yaw_of pf (velocity_x s) (velocity_y s)))]
  end%string.
Definition state_step (pf : platform) (cfg : config) (ts : list Q) (last_step : Z)
    (tr : option track) (t : Z) : result log :=
  let prefix := ("state/" ++ time_frame cfg t ++ "/")%string in
  let step := last_step - (num_steps cfg - 1 - t) in
  let warn := match tr with
              | Some tr => if size (states tr) <=? step
                           then [Counter "Track_State_Not_Enough_Steps" 1] else []
              | None => []
              end in
  do st <- match tr with
           | None => Ok None
           | Some tr =>
               if (object_type tr =? 0) || (size (states tr) <=? step) then Ok None
               else do s <- at_index (states tr) step;
                    Ok (if valid s then Some s else None)
           end;
  do micros <- micros_at ts step;
  Ok (warn
      ++ [Feature (prefix ++ "timestamp_micros")%string
            (match st with None => invalid_int | Some _ => VInt micros end);
          Feature (prefix ++ "valid")%string
            (VInt (match st with None => 0 | Some s => Z.b2z (valid s) end))]
      ++ (match st with None => [] | Some _ => [Counter "Valid_Object_State" 1] end)
      ++ map (fun kv => Feature (prefix ++ fst kv)%string (snd kv)) (state_values pf st)).

(** AddStateFeatures 613-760 for the prefix state/ (the only one used). *)
Definition add_state_features (pf : platform) (cfg : config) (ts : list Q) (last_step : Z)
    (tr : option track) (is_sdc is_context interest : bool) (level : Z) : result log :=
  let header :=
    match tr with
    | None =>
        [Feature "state/id" invalid_float; Feature "state/type" invalid_float;
         Feature "state/objects_of_interest" invalid_int; Feature "state/is_sdc" invalid_int;
         Feature "state/is_context" invalid_int; Feature "state/tracks_to_predict" invalid_int;
         Feature "state/difficulty_level" invalid_int; Counter "Padded_State_Feature" 1]
    | Some tr =>
        [Feature "state/id" (vfloat (inject_Z (tr_id tr)));
         Feature "state/type" (vfloat (inject_Z (object_type tr)));
         Feature "state/is_sdc" (VInt (Z.b2z is_sdc));
         Feature "state/is_context" (VInt (Z.b2z is_context));
         Feature "state/tracks_to_predict" (VInt (Z.b2z (negb is_context)));
         Feature "state/difficulty_level" (VInt level);
         Feature "state/objects_of_interest" (VInt (Z.b2z interest));
         Counter "Agents_State_Feature" 1; Counter (object_type_counter (object_type tr)) 1]
    end%string in
  do body <- mapM (state_step pf cfg ts last_step tr) (steps cfg);
  Ok (header ++ List.concat body).

(** vector::resize(n, nullptr) of a list of track pointers. *)
Definition resize (n : nat) (l : list nat) : list (option nat) :=
  let kept := map Some (firstn n l) in
  kept ++ repeat None (n - List.length kept).

(** AddSdcAndAgentsStateFeatures 235-361.  std::sort applies the comparator to
    every element as soon as there are two, which reads the current state of
    each; the model reads them, and that of the SDC, up front. *)
Definition agent_features (pf : platform) (cfg : config) (sc : scenario) (last_step : Z)
    (sdc : nat) (interest : list nat) (is_context : bool) (agent : option nat) : result log :=
  add_state_features pf cfg (timestamps_seconds sc) last_step
    (option_map (track_of sc) agent)
    (match agent with Some i => Nat.eqb i sdc | None => false end)
    is_context
    (match agent with Some i => mem i interest | None => false end)
    (difficulty_level sc agent).
Definition add_sdc_and_agents_features (pf : platform) (cfg : config) (sc : scenario)
    (last_step : Z) : result log :=
  let current := last_step - num_future_steps cfg in
  do interest <- get_objects_of_interest sc current true;
  if (sdc_track_index sc <? 0) || (size (tracks sc) <=? sdc_track_index sc)
  then Err KeyError else
  let sdc := Z.to_nat (sdc_track_index sc) in
  do modeled <- get_modeled_agents cfg sc last_step;
  match modeled with
  | [] => Err KeyError
  | _ =>
      let sorted := std_sort pf (modeled_before sc) (hash_order pf modeled) in
      do modeled_logs <- mapM (fun i =>
          agent_features pf cfg sc last_step sdc interest false (Some i)) sorted;
      let context := filter (fun i => negb (mem i modeled)) (seq 0 (List.length (tracks sc))) in
      do _ <- (if (2 <=? List.length context)%nat
               then mapM (fun i => at_index (states (track_of sc i)) current) (sdc :: context)
               else Ok []);
      let ordered := std_sort pf (context_before pf sc current sdc) context in
      let max_context := max_num_agents cfg - size modeled in
      if max_context <? 0 then Err RuntimeError else
      let slots := resize (Z.to_nat max_context) ordered in
      do context_logs <- mapM (agent_features pf cfg sc last_step sdc interest true) slots;
      Ok ([Counter "Num_Modeled_Agents" (size modeled)]
          ++ List.concat modeled_logs
          ++ [Counter "Num_Context_Agents" (Z.min max_context (size context))]
          ++ List.concat context_logs)
  end.

(** ValidateScenarioProto 983-1010. *)
Definition validate_scenario (sc : scenario) : bool :=
  negb (size (timestamps_seconds sc) =? 0)
  && negb ((size (tracks sc) <=? sdc_track_index sc) || (sdc_track_index sc <? 0))
  && forallb (fun tr => size (timestamps_seconds sc) =? size (states tr)) (tracks sc).

(** AddTfFeatures 1012-1037. *)
Definition add_tf_features (pf : platform) (sc : scenario) (cfg : config) (last_step : Z)
  : result log :=
  do road <- add_roadgraph_samples pf cfg (map_features sc);
  do lights <- add_traffic_light_features cfg sc last_step;
  do agents <- add_sdc_and_agents_features pf cfg sc last_step;
  Ok ([Feature "scenario/id" (VBytes (scenario_id sc))] ++ road ++ lights ++ agents).

(** ScenarioToExample 1041-1069. *)
Definition scenario_to_example (pf : platform) (sc : scenario) (cfg : config) : result log :=
  if negb (validate_scenario sc) then Err ValueError
  else
    do features <- add_tf_features pf sc cfg (num_steps cfg - 1);
    Ok ([Counter "Num_Attempted_TF_Examples" 1; Counter "Valid_Scenario" 1]
        ++ features ++ [Counter "Num_Success_Generate_TF_Examples" 1]).
