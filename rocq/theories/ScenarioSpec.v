(** What a converted scenario should contain, written from the field comments of
    conversion_config.proto, scenario_conversion.h and the published tensor
    format, without the helper functions of the model.  Shared with the model:
    the data types, the conversion to float [f32], truncation [trunc], the
    vector operations, and the readers [tensor] and [counter]. *)
From Coq Require Import String Sorting.Permutation Sorting.Sorted.
From Verif Require Import Base ScenarioModel.
Open Scope list_scope.
Open Scope Z_scope.

Definition count {A} (l : list A) : Z := Z.of_nat (List.length l).
Definition num (q : Q) : value := VFloat (Fin (f32 q)).
Definition num_or_nan (x : fl) : value := match x with Fin q => num q | NaN => VFloat NaN end.
Definition minus_one : value := VFloat (Fin (-1)).
Definition flag (b : bool) : value := VInt (if b then 1 else 0).

(** ** The platform *)

(** A strict weak order on the elements satisfying [P]. *)
Definition strict_weak (P : nat -> Prop) (lt : nat -> nat -> bool) : Prop :=
  (forall a, P a -> lt a a = false)
  /\ (forall a b c, P a -> P b -> P c -> lt a b = true -> lt b c = true -> lt a c = true)
  /\ (forall a b c, P a -> P b -> P c ->
        lt a b = false -> lt b a = false -> lt b c = false -> lt c b = false ->
        lt a c = false /\ lt c a = false).

(** The contract of std::sort (the result is a permutation in which nothing
    precedes something it is greater than, provided the comparator is a strict
    weak order), and of the enumeration of a hash set. *)
Definition platform_ok (pf : platform) : Prop :=
  (forall lt l, strict_weak (fun x => In x l) lt ->
     Permutation (std_sort pf lt l) l
     /\ StronglySorted (fun a b => lt b a = false) (std_sort pf lt l))
  /\ (forall l, Permutation (hash_order pf l) l).

(** ** Agents *)

Definition current_step (cfg : config) : nat := Z.to_nat (num_past_steps cfg - 1).
Definition the_track (sc : scenario) (i : nat) : option track := nth_error (tracks sc) i.

(** The state of track [i] at step [t], if the track has one and it is valid. *)
Definition valid_state (sc : scenario) (i t : nat) : option object_state :=
  match nth_error (tracks sc) i with
  | Some tr => match nth_error (states tr) t with
               | Some s => if valid s then Some s else None
               | None => None
               end
  | None => None
  end.
Definition is_some {A} (o : option A) : bool := match o with Some _ => true | None => false end.
Definition valid_now (sc : scenario) (cfg : config) (i : nat) : bool :=
  is_some (valid_state sc i (current_step cfg)).

(** First occurrences only. *)
Fixpoint distinct (l : list nat) : list nat :=
  match l with
  | [] => []
  | x :: l' => x :: filter (fun y => negb (Nat.eqb y x)) (distinct l')
  end.

(** The tracks that must be predicted and are valid now, in the order listed. *)
Definition predictable (sc : scenario) (cfg : config) : list nat :=
  distinct (filter (valid_now sc cfg) (map (fun r => Z.to_nat (track_index r)) (tracks_to_predict sc))).

(** At most [max_num_modeled_agents] of them, unless that is negative. *)
Definition capped (cfg : config) (l : list nat) : list nat :=
  if max_num_modeled_agents cfg <? 0 then l
  else firstn (Z.to_nat (max_num_modeled_agents cfg)) l.

Definition id_of (sc : scenario) (i : nat) : Z :=
  match the_track sc i with Some tr => tr_id tr | None => 0 end.

(** Distance between the centres of two states, when their coordinates are numbers. *)
Definition center_distance (pf : platform) (a b : object_state) : option Q :=
  match center_x a, center_y a, center_x b, center_y b with
  | Fin ax, Fin ay, Fin bx, Fin by_ => Some (hypot_of pf (ax - bx) (ay - by_))
  | _, _, _, _ => None
  end.

Definition sdc (sc : scenario) : nat := Z.to_nat (sdc_track_index sc).
Definition sdc_state (sc : scenario) (cfg : config) : option object_state :=
  match the_track sc (sdc sc) with
  | Some tr => nth_error (states tr) (current_step cfg)
  | None => None
  end.

Definition closer (pf : platform) (sc : scenario) (cfg : config) (a b : object_state) : Prop :=
  exists s da db, sdc_state sc cfg = Some s
    /\ center_distance pf a s = Some da /\ center_distance pf b s = Some db /\ (da < db)%Q.
Definition valid_count (sc : scenario) (i : nat) : Z :=
  match the_track sc i with Some tr => count (filter valid (states tr)) | None => 0 end.

(** Context agent [a] has priority over [b]. *)
Definition priority (pf : platform) (sc : scenario) (cfg : config) (a b : nat) : Prop :=
  match valid_state sc a (current_step cfg), valid_state sc b (current_step cfg) with
  | Some sa, Some sb => closer pf sc cfg sa sb
  | Some _, None => True
  | None, Some _ => False
  | None, None => valid_count sc b < valid_count sc a
  end.

(** The rows of the state tensors: modeled agents by id, then context agents by
    priority, then padding. *)
Record rows_ok (pf : platform) (sc : scenario) (cfg : config)
    (modeled context : list nat) (rows : list (option nat)) : Prop := {
  ro_rows : rows = map Some modeled ++ map Some context
                   ++ repeat None (Z.to_nat (max_num_agents cfg - count modeled - count context));
  ro_length : count rows = max_num_agents cfg;
  ro_modeled : Permutation modeled (capped cfg (predictable sc cfg));
  ro_sorted : StronglySorted (fun a b => id_of sc a <= id_of sc b) modeled;
  ro_context : exists ordered,
      (forall i, In i ordered <-> (i < List.length (tracks sc))%nat /\ ~ In i modeled)
      /\ NoDup ordered
      /\ StronglySorted (fun a b => ~ priority pf sc cfg b a) ordered
      /\ context = firstn (Z.to_nat (max_num_agents cfg - count modeled)) ordered
}.

(** ** State tensors *)

Inductive frame : Set := Past | Current | Future.
Definition frame_name (f : frame) : string :=
  match f with Past => "past" | Current => "current" | Future => "future" end%string.
Definition frame_steps (cfg : config) (f : frame) : list nat :=
  match f with
  | Past => seq 0 (Z.to_nat (num_past_steps cfg - 1))
  | Current => [Z.to_nat (num_past_steps cfg - 1)]
  | Future => seq (Z.to_nat (num_past_steps cfg)) (Z.to_nat (num_future_steps cfg))
  end.

(** The state shown for a row at a step: padding, tracks without a type,
    missing and invalid states show nothing. *)
Definition shown (sc : scenario) (row : option nat) (t : nat) : option object_state :=
  match row with
  | Some i => match the_track sc i with
              | Some tr => if object_type tr =? 0 then None else valid_state sc i t
              | None => None
              end
  | None => None
  end.

(** Seconds to microseconds, through a float. *)
Definition micros (s : Q) : Z := trunc (f32 s * 1000000).

Definition state_field (pf : platform) (sc : scenario) (name : string) (t : nat)
    (s : option object_state) : option value :=
  let shown_as (f : object_state -> value) : option value :=
    Some (match s with Some st => f st | None => minus_one end) in
  match name with
  | "x" => shown_as (fun st => num_or_nan (center_x st))
  | "y" => shown_as (fun st => num_or_nan (center_y st))
  | "z" => shown_as (fun st => num (center_z st))
  | "width" => shown_as (fun st => num (st_width st))
  | "length" => shown_as (fun st => num (st_length st))
  | "height" => shown_as (fun st => num (st_height st))
  | "velocity_x" => shown_as (fun st => num (velocity_x st))
  | "velocity_y" => shown_as (fun st => num (velocity_y st))
  | "speed" => shown_as (fun st => num (speed_of pf (velocity_x st) (velocity_y st)))
  | "bbox_yaw" => shown_as (fun st => num (heading st))
  | "vel_yaw" => shown_as (fun st => num (yaw_of pf (velocity_x st) (velocity_y st)))
  | "valid" => Some (flag (is_some s))
  | "timestamp_micros" =>
      Some (VInt (match s with Some _ => micros (nth t (timestamps_seconds sc) 0%Q) | None => -1 end))
  | _ => None
  end%string.

Definition state_key (f : frame) (name : string) : string :=
  ("state/" ++ frame_name f ++ "/" ++ name)%string.

(** One value per row and step, row after row. *)
Definition state_tensor (pf : platform) (sc : scenario) (cfg : config)
    (rows : list (option nat)) (f : frame) (name : string) : list (option value) :=
  flat_map (fun row => map (fun t => state_field pf sc name t (shown sc row t))
                           (frame_steps cfg f)) rows.

(** The per-agent tensors. *)
Definition of_interest (sc : scenario) (i : nat) : bool :=
  existsb (fun id =>
    match find (fun j => id_of sc j =? id) (seq 0 (List.length (tracks sc))) with
    | Some j => Nat.eqb j i
    | None => false
    end) (interest_ids sc).
Definition difficulty_of (sc : scenario) (i : nat) : Z :=
  match find (fun r => track_index r =? Z.of_nat i) (tracks_to_predict sc) with
  | Some r => difficulty r
  | None => 0
  end.
Definition agent_field (sc : scenario) (modeled : list nat) (name : string) (row : option nat)
  : option value :=
  let per (pad : value) (f : nat -> value) : option value :=
    Some (match row with Some i => f i | None => pad end) in
  let predicted (i : nat) : bool := existsb (Nat.eqb i) modeled in
  match name with
  | "id" => per minus_one (fun i => num (inject_Z (id_of sc i)))
  | "type" => per minus_one (fun i =>
      num (inject_Z (match the_track sc i with Some tr => object_type tr | None => 0 end)))
  | "is_sdc" => per (VInt (-1)) (fun i => flag (Nat.eqb i (sdc sc)))
  | "is_context" => per (VInt (-1)) (fun i => flag (negb (predicted i)))
  | "tracks_to_predict" => per (VInt (-1)) (fun i => flag (predicted i))
  | "difficulty_level" => per (VInt (-1)) (fun i => VInt (difficulty_of sc i))
  | "objects_of_interest" => per (VInt (-1)) (fun i => flag (of_interest sc i))
  | _ => None
  end%string.

(** ** Traffic lights *)

(** The lane states of a step, if the scenario has that step. *)
Definition lights_at (sc : scenario) (t : nat) : option (list lane_state) :=
  nth_error (dynamic_map_states sc) t.
Definition light (sc : scenario) (t i : nat) : option lane_state :=
  match lights_at sc t with Some l => nth_error l i | None => None end.
Definition light_field (name : string) (s : option lane_state) : option value :=
  let shown_as (pad : value) (f : lane_state -> value) : option value :=
    Some (match s with Some l => f l | None => pad end) in
  match name with
  | "x" => shown_as minus_one (fun l => num (px (stop_point l)))
  | "y" => shown_as minus_one (fun l => num (py (stop_point l)))
  | "z" => shown_as minus_one (fun l => num (pz (stop_point l)))
  | "state" => shown_as (VInt (-1)) (fun l => VInt (ls_state l))
  | "id" => shown_as (VInt (-1)) (fun l => VInt (ls_lane l))
  | "valid" => Some (flag (is_some s))
  | _ => None
  end%string.
Definition light_key (f : frame) (name : string) : string :=
  ("traffic_light_state/" ++ frame_name f ++ "/" ++ name)%string.
Definition light_tensor (sc : scenario) (cfg : config) (f : frame) (name : string)
  : list (option value) :=
  flat_map (fun t => map (fun i => light_field name (light sc t i))
                         (seq 0 (Z.to_nat (max_traffic_light_control_points_per_step cfg))))
           (frame_steps cfg f).
(** A step beyond the timestamps (which the scenario may have) shows -1 second. *)
Definition light_time (sc : scenario) (t : nat) : value :=
  VInt (match lights_at sc t with
        | None => -1
        | Some _ => match nth_error (timestamps_seconds sc) t with
                    | Some s => micros s
                    | None => -1000000
                    end
        end).

(** ** Road graph samples *)

Definition spacing (cfg : config) : Q :=
  if Qle_bool (polyline_sample_spacing cfg) 0 then source_polyline_spacing cfg
  else polyline_sample_spacing cfg.

(** Sample [i] of a polyline: distance i * spacing along it, between source
    points [left] and [left + 1], by a cubic spline where it has two neighbours
    on either side and linearly elsewhere. *)
Definition polyline_sample (cfg : config) (pts : list vec3) (i : nat) : vec3 :=
  let source := source_polyline_spacing cfg in
  let d := (inject_Z (Z.of_nat i) * spacing cfg)%Q in
  let left := Z.to_nat (Qfloor (d / source)) in
  let alpha := ((d - inject_Z (Z.of_nat left) * source) / source)%Q in
  let p k := nth k pts (V3 0 0 0) in
  if (1 <=? left)%nat && (left + 2 <? List.length pts)%nat
  then interpolate_cubic_spline (p (left - 1)%nat) (p left) (p (left + 1)%nat) (p (left + 2)%nat) alpha
  else interpolate_point (p left) (p (left + 1)%nat) alpha.

(** How many samples lie strictly before the last source point. *)
Definition polyline_count (cfg : config) (pts : list vec3) : nat :=
  Z.to_nat (Qceiling (inject_Z (count pts - 1) * source_polyline_spacing cfg / spacing cfg)).

(** All samples of a polyline: those, and the last point unless the last of
    them is within a centimetre of it. *)
Definition polyline_samples (cfg : config) (pts : list vec3) : list vec3 :=
  let samples := map (polyline_sample cfg pts) (seq 0 (polyline_count cfg pts)) in
  match rev pts, rev samples with
  | [], _ => []
  | lastp :: _, [] => [lastp]
  | lastp :: _, s :: _ =>
      if Qle_bool (vsqr (vsub lastp s)) ((1#100) * (1#100)) then samples else samples ++ [lastp]
  end.

(** Equally spaced samples of a side, without its end point. *)
Definition side_samples (pf : platform) (cfg : config) (side : vec3 * vec3) : list vec3 :=
  let '(a, b) := side in
  if Qle_bool (polygon_sample_spacing cfg) 0 then [a]
  else
    let parts := Z.max (trunc (1 + length_of pf (vsub b a) / polygon_sample_spacing cfg)) 2 - 1 in
    map (fun j => vadd a (vdiv (vscale (inject_Z (Z.of_nat j)) (vsub b a)) (inject_Z parts)))
        (seq 0 (Z.to_nat parts)).
(** All sides of a polygon in turn and its first point again. *)
Definition polygon_samples (pf : platform) (cfg : config) (pts : list vec3) : list vec3 :=
  match pts with
  | [] => []
  | first :: rest => flat_map (side_samples pf cfg) (combine pts (rest ++ [first])) ++ [first]
  end.

Definition road_samples (pf : platform) (cfg : config) (m : map_feature) : list vec3 :=
  match mf_data m with
  | Lane _ pts | RoadLine _ pts | RoadEdge _ pts => polyline_samples cfg pts
  | StopSign p => [p]
  | Crosswalk pts | SpeedBump pts | Driveway pts => polygon_samples pf cfg pts
  | FeatureNotSet => []
  end.

(** The published feature type codes. *)
Definition road_type (m : map_feature) : Z :=
  let code (known : Z) (base : Z) (t : Z) := if (0 <=? t) && (t <? known) then base + t else -1 in
  match mf_data m with
  | Lane t _ => code 4 0 t
  | RoadLine t _ => code 9 5 t
  | RoadEdge t _ => code 3 14 t
  | StopSign _ => 17
  | Crosswalk _ => 18
  | SpeedBump _ => 19
  | Driveway _ => 20
  | FeatureNotSet => -1
  end.

Definition is_lane m := match mf_data m with Lane _ _ => true | _ => false end.
Definition is_line m := match mf_data m with RoadLine _ _ => true | _ => false end.
Definition is_edge m := match mf_data m with RoadEdge _ _ => true | _ => false end.
Definition is_stop m := match mf_data m with StopSign _ => true | _ => false end.
Definition is_crosswalk m := match mf_data m with Crosswalk _ => true | _ => false end.
Definition is_bump m := match mf_data m with SpeedBump _ => true | _ => false end.
Definition is_driveway m := match mf_data m with Driveway _ => true | _ => false end.

(** Lanes, road lines, stop signs, crosswalks, speed bumps, road edges, driveways. *)
Definition road_order (fs : list map_feature) : list map_feature :=
  filter is_lane fs ++ filter is_line fs ++ filter is_stop fs ++ filter is_crosswalk fs
  ++ filter is_bump fs ++ filter is_edge fs ++ filter is_driveway fs.

(** Every sample of every feature, with the position of its feature in that order. *)
Definition all_samples (pf : platform) (cfg : config) (fs : list map_feature)
  : list (nat * map_feature * vec3) :=
  flat_map (fun jm => map (fun p => (jm, p)) (road_samples pf cfg (snd jm)))
           (combine (seq 0 (List.length (road_order fs))) (road_order fs)).
Definition kept_samples (pf : platform) (cfg : config) (fs : list map_feature)
  : list (nat * map_feature * vec3) :=
  firstn (Z.to_nat (max_roadgraph_samples cfg)) (all_samples pf cfg fs).

(** The direction at a sample: towards the next kept sample of the same feature. *)
Fixpoint directions (pf : platform) (l : list (nat * map_feature * vec3)) : list vec3 :=
  match l with
  | [] => []
  | (j, _, p) :: rest =>
      match rest with
      | (j', _, q) :: _ => if Nat.eqb j j' then normalized pf (vsub q p) else V3 0 0 0
      | [] => V3 0 0 0
      end :: directions pf rest
  end.

Definition coords (v : vec3) : list value := [num (px v); num (py v); num (pz v)].
Definition road_tensor (pf : platform) (cfg : config) (fs : list map_feature) (name : string)
  : list value :=
  let kept := kept_samples pf cfg fs in
  let padding := (Z.to_nat (max_roadgraph_samples cfg) - List.length kept)%nat in
  match name with
  | "id"%string => map (fun s => VInt (mf_id (snd (fst s)))) kept ++ repeat (VInt (-1)) padding
  | "type"%string => map (fun s => VInt (road_type (snd (fst s)))) kept ++ repeat (VInt (-1)) padding
  | "valid"%string => map (fun _ => VInt 1) kept ++ repeat (VInt 0) padding
  | "xyz"%string => flat_map (fun s => coords (snd s)) kept ++ repeat minus_one (3 * padding)
  | "dir"%string => flat_map coords (directions pf kept) ++ repeat minus_one (3 * padding)
  | _ => []
  end.

(** ** The published shapes *)
Definition frame_length (cfg : config) (f : frame) : Z :=
  match f with
  | Past => num_past_steps cfg - 1
  | Current => 1
  | Future => num_future_steps cfg
  end.
Definition agent_names : list string :=
  ["id"; "type"; "is_sdc"; "is_context"; "tracks_to_predict"; "difficulty_level";
   "objects_of_interest"]%string.
Definition state_names : list string :=
  ["x"; "y"; "z"; "width"; "length"; "height"; "velocity_x"; "velocity_y"; "speed"; "bbox_yaw";
   "vel_yaw"; "valid"; "timestamp_micros"]%string.
Definition light_names : list string := ["x"; "y"; "z"; "state"; "id"; "valid"]%string.
Definition frames : list frame := [Past; Current; Future].
Definition shapes (cfg : config) : list (string * Z) :=
  [("scenario/id"%string, 1)]
  ++ map (fun n => (("roadgraph_samples/" ++ n)%string, Z.max 0 (max_roadgraph_samples cfg)))
         ["id"; "type"; "valid"]%string
  ++ map (fun n => (("roadgraph_samples/" ++ n)%string, 3 * Z.max 0 (max_roadgraph_samples cfg)))
         ["xyz"; "dir"]%string
  ++ flat_map (fun f => map (fun n =>
       (light_key f n, frame_length cfg f
                       * Z.max 0 (max_traffic_light_control_points_per_step cfg)))
       light_names) frames
  ++ map (fun f => (light_key f "timestamp_micros", frame_length cfg f)) frames
  ++ map (fun n => (("state/" ++ n)%string, max_num_agents cfg)) agent_names
  ++ flat_map (fun f => map (fun n => (state_key f n, max_num_agents cfg * frame_length cfg f))
       state_names) frames.

(** Every coordinate that is compared is a number. *)
Definition finite_now (sc : scenario) (cfg : config) : Prop :=
  forall i s, valid_state sc i (current_step cfg) = Some s \/ sdc_state sc cfg = Some s ->
    center_x s <> NaN /\ center_y s <> NaN.

(** A scenario the validation accepts. *)
Definition well_formed (sc : scenario) : Prop :=
  timestamps_seconds sc <> []
  /\ 0 <= sdc_track_index sc < count (tracks sc)
  /\ forall tr, In tr (tracks sc) -> List.length (states tr) = List.length (timestamps_seconds sc).

(** The sizes fit in an int, as they do in the protos. *)
Definition representable (sc : scenario) (cfg : config) : Prop :=
  -2147483648 <= max_num_modeled_agents cfg < 2147483648
  /\ count (tracks_to_predict sc) < 2147483648.

(** A configuration and scenario that fit together. *)
Record convertible (sc : scenario) (cfg : config) : Prop := {
  cv_past : 1 <= num_past_steps cfg <= count (timestamps_seconds sc);
  cv_agents : 0 <= max_num_modeled_agents cfg <= max_num_agents cfg;
  cv_source : (0 < source_polyline_spacing cfg)%Q;
  cv_tracks : forall r, In r (tracks_to_predict sc) -> 0 <= track_index r < count (tracks sc);
  cv_polygons : forall m, In m (map_features sc) ->
      match mf_data m with
      | Crosswalk pts | SpeedBump pts | Driveway pts => pts <> []
      | _ => True
      end
}.

(** Lane states of all converted steps. *)
Definition lights_seen (sc : scenario) (cfg : config) : Z :=
  fold_right Z.add 0 (map (fun t => match lights_at sc t with Some s => count s | None => 0 end)
                          (seq 0 (Z.to_nat (num_past_steps cfg + num_future_steps cfg)))).

(** ** Single precision: the numbers a float holds, without an upper bound. *)
Definition is_float (x : Q) : Prop :=
  exists m e, Z.abs m < 2 ^ 24 /\ -149 <= e /\ (x == inject_Z m * Qpower 2 e)%Q.
