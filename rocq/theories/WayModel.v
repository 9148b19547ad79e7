(** Waypoints of the occupancy flow task, /repo/src/waymo_open_dataset/utils/occupancy_flow_grids.py.

    Conventions.
    - Numbers are real numbers; rounding is not modelled.
    - Every operation works on the time axis of the tensors, cell by cell, so a tensor is given by its values
      at one cell of one example, in the order of time.
    - The grids of all three classes are present. *)
From Coq Require Import Reals.
From Verif Require Import Base ResultLib.
Open Scope list_scope.
Open Scope R_scope.

(** protos/occupancy_flow_metrics.proto:25-55, the fields used here; counts are not negative. *)
Record config := { num_past_steps : nat; num_future_steps : nat; num_waypoints : nat; cumulative_waypoints : bool }.
(** 32-56: _TimestepGridsOneType, at a cell. *)
Record timestep_grids := {
  current_occupancy : list R; past_occupancy : list R; future_observed_occupancy : list R; future_occluded_occupancy : list R;
  all_flow : list (R * R); all_occupancy : list R }.
(** 90-106: _WaypointGridsOneType, at a cell; [None] stands for the maximum of no value and for an empty slice. *)
Record waypoint_grids := {
  observed_occupancy : list (option R); occluded_occupancy : list (option R); flow : list (R * R);
  flow_origin_occupancy : list (option R) }.
(** 60-87, 111-133 and occupancy_flow_data.py:33-50: a value for each class, and view. *)
Record classes (A : Type) := { vehicles : A; pedestrians : A; cyclists : A }.
Arguments vehicles {A}. Arguments pedestrians {A}. Arguments cyclists {A}.
Definition view {A} (g : classes A) (agent_type : Z) : result A :=
  if Z.eqb agent_type 1 then Ok (vehicles g)
  else if Z.eqb agent_type 2 then Ok (pedestrians g)
  else if Z.eqb agent_type 3 then Ok (cyclists g)
  else Err ValueError.

(** Slices and indices of Python. *)
Definition bound (n : nat) (i : Z) : nat :=
  if Z.ltb i 0 then Z.to_nat (i + Z.of_nat n) else Nat.min (Z.to_nat i) n.
Definition slice {A} (l : list A) (start stop : Z) : list A :=
  let a := bound (length l) start in
  firstn (bound (length l) stop - a) (skipn a l).
Definition slice_to {A} (l : list A) (stop : Z) : list A := firstn (bound (length l) stop) l.
Definition slice_from {A} (l : list A) (start : Z) : list A := skipn (bound (length l) start) l.
Definition index {A} (e : error) (l : list A) (i : Z) : result A :=
  let j := if Z.ltb i 0 then (i + Z.of_nat (length l))%Z else i in
  if Z.ltb j 0 then Err e else
  match nth_error l (Z.to_nat j) with Some x => Ok x | None => Err e end.

(** tf.reduce_max, tf.reduce_sum and tf.math.divide_no_nan. *)
Fixpoint reduce_max (l : list R) : option R :=
  match l with
  | [] => None
  | x :: l' => match reduce_max l' with Some y => Some (Rmax x y) | None => Some x end
  end.
Definition reduce_sum (l : list R) : R := fold_right Rplus 0 l.
Definition divide_no_nan (a b : R) : R := if Req_EM_T b 0 then 0 else a / b.
Definition not_equal_zero (x : R) : R := if Req_EM_T x 0 then 0 else 1.

(** 342-357, 374-389, 420-437: the loop over the waypoints, the same for the three occupancies. *)
Definition occupancy_waypoints (c : config) (waypoint_size : nat) (steps : list R) : list (option R) :=
  map (fun k =>
    let waypoint_end := Z.of_nat ((k + 1) * waypoint_size) in
    if cumulative_waypoints c then
      let waypoint_start := (waypoint_end - Z.of_nat waypoint_size)%Z in
      reduce_max (slice steps waypoint_start waypoint_end)
    else hd_error (slice steps (waypoint_end - 1) waypoint_end))
    (seq 0 (num_waypoints c)).
(** 411-419: the steps of the flow origins. *)
Definition flow_origin_steps (c : config) (waypoint_size : nat) (all : list R) : list R :=
  slice_from (slice_to all (- Z.of_nat waypoint_size)) (- Z.of_nat (num_future_steps c)).
(** 470-479: the mean flow of a segment, component by component. *)
Definition mean_flow (segment : list (R * R)) : R * R :=
  let component (get : R * R -> R) :=
    divide_no_nan (reduce_sum (map get segment)) (reduce_sum (map (fun v => not_equal_zero (get v)) segment)) in
  (component fst, component snd).
(** 440-482: the flow of the waypoints; an index out of range is refused by TensorFlow. *)
Definition flow_waypoints (c : config) (waypoint_size : nat) (all : list (R * R)) : result (list (R * R)) :=
  let steps := slice_from all (- Z.of_nat (num_future_steps c)) in
  mapM (fun k =>
    let waypoint_end := Z.of_nat ((k + 1) * waypoint_size) in
    if cumulative_waypoints c then
      let waypoint_start := (waypoint_end - Z.of_nat waypoint_size)%Z in
      Ok (mean_flow (slice steps waypoint_start waypoint_end))
    else index RuntimeError steps (waypoint_end - 1))
    (seq 0 (num_waypoints c)).

(** 269-325: create_ground_truth_waypoint_grids.  The remainder of a division by zero raises ZeroDivisionError,
    written RuntimeError; the classes are treated alike, one after the other. *)
Definition one_class (c : config) (waypoint_size : nat) (t : timestep_grids) : result waypoint_grids :=
  do f <- flow_waypoints c waypoint_size (all_flow t);
  Ok {| observed_occupancy := occupancy_waypoints c waypoint_size (future_observed_occupancy t);
        occluded_occupancy := occupancy_waypoints c waypoint_size (future_occluded_occupancy t);
        flow := f;
        flow_origin_occupancy := occupancy_waypoints c waypoint_size (flow_origin_steps c waypoint_size (all_occupancy t)) |}.
Definition create_ground_truth_waypoint_grids (c : config) (t : classes timestep_grids) : result (classes waypoint_grids) :=
  if Nat.eqb (num_waypoints c) 0 then Err RuntimeError else
  if negb (Nat.eqb (Nat.modulo (num_future_steps c) (num_waypoints c)) 0) then Err ValueError else
  let waypoint_size := Nat.div (num_future_steps c) (num_waypoints c) in
  let num_history_steps := (num_past_steps c + 1)%nat in
  if Nat.ltb num_history_steps waypoint_size then Err ValueError else
  do v <- one_class c waypoint_size (vehicles t);
  do p <- one_class c waypoint_size (pedestrians t);
  do y <- one_class c waypoint_size (cyclists t);
  Ok {| vehicles := v; pedestrians := p; cyclists := y |}.

(** 135-171: get_observed_occupancy_at_waypoint, get_occluded_occupancy_at_waypoint and get_flow_at_waypoint;
    [get] is the field read. *)
Definition at_waypoint {A} (get : waypoint_grids -> list A) (w : classes waypoint_grids) (k : Z) : result (classes (option A)) :=
  let one (g : waypoint_grids) :=
    match get g with [] => Ok None | l => do x <- index IndexError l k; Ok (Some x) end in
  do v <- one (vehicles w);
  do p <- one (pedestrians w);
  do y <- one (cyclists w);
  Ok {| vehicles := v; pedestrians := p; cyclists := y |}.

(** 511-545: _create_agent_trails; the occupancy of the current time is one step. *)
Definition clip01 (x : R) : R := Rmin (Rmax x 0) 1.
Definition sum_at (get : timestep_grids -> list R) (t : classes timestep_grids) (i : nat) : R :=
  nth i (get (vehicles t)) 0 + nth i (get (pedestrians t)) 0 + nth i (get (cyclists t)) 0.
Definition create_agent_trails (gamma : R) (t : classes timestep_grids) : R :=
  let num_past := length (past_occupancy (vehicles t)) in
  let trails := fold_left (fun trails i => clip01 (trails * gamma + sum_at past_occupancy t i)) (seq 0 num_past) 0 in
  clip01 (trails * gamma * gamma + sum_at current_occupancy t 0).
