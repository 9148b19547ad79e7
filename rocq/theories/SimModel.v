(** Model of the sim agents submission checks and conversions:
    /repo/src/waymo_open_dataset/utils/sim_agents/submission_specs.py,
    /repo/src/waymo_open_dataset/utils/sim_agents/converters.py and
    /repo/src/waymo_open_dataset/utils/trajectory_utils.py.

    Simplifications that apply to the whole file:
    - [F] is the type of the float32 numbers held by the tensors.  Scenario
      coordinates are stored as doubles and rounded to float32 when they are
      first put in a tensor; the model starts from the rounded values.  No
      function here does arithmetic on them.
    - a tensor of shape (n, m) is a list of n rows of m numbers;
    - object ids, types and track indices are unbounded integers [Z];
    - log messages of the exceptions are dropped. *)
From Verif Require Import Base ResultLib.

(** submission_specs.py 24-36: the two challenges. *)
Inductive challenge := SIM_AGENTS | SCENARIO_GEN.

(** submission_specs.py 40-53: the numbers used by the checks (the step
    duration is not used by any check and is left out). *)
Record config := { current_time_index : nat; n_simulation_steps : nat; n_rollouts : nat }.

(** submission_specs.py 72-100: the configuration of each challenge.  The
    ValueError for an unknown challenge cannot happen with an enumeration of
    two members. *)
Definition submission_config (c : challenge) : config :=
  match c with
  | SIM_AGENTS => {| current_time_index := 10; n_simulation_steps := 80; n_rollouts := 32 |}
  | SCENARIO_GEN => {| current_time_index := 10; n_simulation_steps := 91; n_rollouts := 32 |}
  end.

(** protos/scenario.proto ObjectState: the fields read by the conversions. *)
Record state (F : Type) := State {
  center_x : F; center_y : F; center_z : F; s_heading : F;
  s_length : F; s_width : F; s_height : F; s_valid : bool }.
Arguments State {F}. Arguments center_x {F}. Arguments center_y {F}.
Arguments center_z {F}. Arguments s_heading {F}. Arguments s_length {F}.
Arguments s_width {F}. Arguments s_height {F}. Arguments s_valid {F}.

(** protos/scenario.proto Track. *)
Record track (F : Type) := Track { track_id : Z; track_type : Z; states : list (state F) }.
Arguments Track {F}. Arguments track_id {F}. Arguments track_type {F}. Arguments states {F}.

(** protos/scenario.proto Scenario: [tracks_to_predict] holds the track_index
    of each RequiredPrediction. *)
Record scenario (F : Type) := Scenario {
  tracks : list (track F); sdc_track_index : Z; tracks_to_predict : list Z }.
Arguments Scenario {F}. Arguments tracks {F}. Arguments sdc_track_index {F}.
Arguments tracks_to_predict {F}.

(** protos/sim_agents_submission.proto 24-63 SimulatedTrajectory. *)
Record sim_trajectory (F : Type) := SimTrajectory {
  sim_x : list F; sim_y : list F; sim_z : list F; sim_heading : list F;
  sim_length : list F; sim_width : list F; sim_height : list F;
  sim_valid : list bool; sim_id : Z; sim_type : Z }.
Arguments SimTrajectory {F}. Arguments sim_x {F}. Arguments sim_y {F}.
Arguments sim_z {F}. Arguments sim_heading {F}. Arguments sim_length {F}.
Arguments sim_width {F}. Arguments sim_height {F}. Arguments sim_valid {F}.
Arguments sim_id {F}. Arguments sim_type {F}.

(** protos/sim_agents_submission.proto 74-81 ScenarioRollouts; a JointScene is
    a list of trajectories. The identifier is a number, [None] when unset. *)
Record rollouts (F : Type) := Rollouts {
  rollouts_id : option Z; joint_scenes : list (list (sim_trajectory F)) }.
Arguments Rollouts {F}. Arguments rollouts_id {F}. Arguments joint_scenes {F}.

(** Python list indexing: a negative index counts from the end. *)
Definition py_nth {A} (l : list A) (i : Z) : result A :=
  let j := if i <? 0 then i + Z.of_nat (length l) else i in
  if j <? 0 then Err IndexError
  else match nth_error l (Z.to_nat j) with Some a => Ok a | None => Err IndexError end.

(** submission_specs.py 55-69 SubmissionConfig.is_valid_sim_agent. *)
Definition is_valid_sim_agent {F} (c : config) (t : track F) : result bool :=
  match nth_error (states t) (current_time_index c) with
  | Some s => Ok (s_valid s)
  | None => Err IndexError
  end.

(** submission_specs.py 119-124: the loop of get_sim_agent_ids. *)
Definition add_sim_agent {F} (c : config) (object_ids : list Z) (t : track F) : result (list Z) :=
  do b <- is_valid_sim_agent c t;
  Ok (if b : bool then object_ids ++ [track_id t] else object_ids).

(** submission_specs.py 104-124 get_sim_agent_ids. *)
Definition get_sim_agent_ids {F} (sc : scenario F) (ct : challenge) : result (list Z) :=
  foldM (add_sim_agent (submission_config ct)) (tracks sc) [].

(** Python set.add and sorted on a set of ints, as insertion in an increasing
    list without repetitions. *)
Fixpoint set_add (z : Z) (l : list Z) : list Z :=
  match l with
  | [] => [z]
  | y :: l' => if z <? y then z :: l else if z =? y then l else y :: set_add z l'
  end.

(** submission_specs.py 127-165 get_evaluation_sim_agent_ids. *)
Definition get_evaluation_sim_agent_ids {F} (sc : scenario F) (ct : challenge) : result (list Z) :=
  match ct with
  | SIM_AGENTS =>
      do av <- py_nth (tracks sc) (sdc_track_index sc);
      foldM (fun ids i => do t <- py_nth (tracks sc) i; Ok (set_add (track_id t) ids))
            (tracks_to_predict sc) (set_add (track_id av) [])
  | SCENARIO_GEN => get_sim_agent_ids sc ct
  end.

(** submission_specs.py 254-264 _raise_if_wrong_length. *)
Definition raise_if_wrong_length {A} (field : list A) (n : nat) : result unit :=
  if Nat.eqb (length field) n then Ok tt else Err ValueError.

Definition zmem (z : Z) (l : list Z) : bool := existsb (Z.eqb z) l.

(** submission_specs.py 193-212: the checks of one simulated trajectory. *)
Definition check_trajectory {F} (c : config) (sim_agent_ids : list Z)
    (simulated_ids : list Z) (t : sim_trajectory F) : result (list Z) :=
  do _ <- raise_if_wrong_length (sim_x t) (n_simulation_steps c);
  do _ <- raise_if_wrong_length (sim_y t) (n_simulation_steps c);
  do _ <- raise_if_wrong_length (sim_z t) (n_simulation_steps c);
  do _ <- raise_if_wrong_length (sim_heading t) (n_simulation_steps c);
  if negb (zmem (sim_id t) sim_agent_ids) then Err ValueError
  else Ok (simulated_ids ++ [sim_id t]).

(** submission_specs.py 168-219 validate_joint_scene. *)
Definition validate_joint_scene {F} (js : list (sim_trajectory F)) (sc : scenario F)
    (ct : challenge) : result unit :=
  let c := submission_config ct in
  do sim_agent_ids <- get_sim_agent_ids sc ct;
  do simulated_ids <- foldM (check_trajectory c sim_agent_ids) js [];
  let missing := filter (fun i => negb (zmem i simulated_ids)) sim_agent_ids in
  match missing with [] => Ok tt | _ => Err ValueError end.

(** submission_specs.py 222-251 validate_scenario_rollouts. *)
Definition validate_scenario_rollouts {F} (r : rollouts F) (sc : scenario F)
    (ct : challenge) : result unit :=
  match rollouts_id r with
  | None => Err ValueError
  | Some _ =>
      if negb (Nat.eqb (length (joint_scenes r)) (n_rollouts (submission_config ct)))
      then Err ValueError
      else foldM (fun _ js => validate_joint_scene js sc ct) (joint_scenes r) tt
  end.

(** trajectory_utils.py 26-68 ObjectTrajectories. *)
Record trajectories (F : Type) := Trajectories {
  tr_x : list (list F); tr_y : list (list F); tr_z : list (list F);
  tr_heading : list (list F);
  tr_length : list (list F); tr_width : list (list F); tr_height : list (list F);
  tr_valid : list (list bool); tr_id : list Z; tr_type : list Z }.
Arguments Trajectories {F}. Arguments tr_x {F}. Arguments tr_y {F}. Arguments tr_z {F}.
Arguments tr_heading {F}. Arguments tr_length {F}. Arguments tr_width {F}.
Arguments tr_height {F}. Arguments tr_valid {F}. Arguments tr_id {F}. Arguments tr_type {F}.

(** tf.convert_to_tensor on a list of rows: rows of different lengths raise
    ValueError. *)
Definition to_tensor {A} (rows : list (list A)) : result (list (list A)) :=
  match rows with
  | [] => Ok []
  | r :: rs => if forallb (fun q => Nat.eqb (length q) (length r)) rs then Ok rows
               else Err ValueError
  end.

(** trajectory_utils.py 146-178 from_scenario.  [zip( *states)] yields nothing
    when there is no track or some track has no state, so that the unpacking of
    lines 172-173 raises ValueError. *)
Definition from_scenario {F} (sc : scenario F) : result (trajectories F) :=
  let col {A} (f : state F -> A) := map (fun t => map f (states t)) (tracks sc) in
  if match tracks sc with [] => true | _ => false end then Err ValueError
  else if existsb (fun t => match states t with [] => true | _ => false end) (tracks sc)
  then Err ValueError
  else
    do x <- to_tensor (col center_x);
    do y <- to_tensor (col center_y);
    do z <- to_tensor (col center_z);
    do heading <- to_tensor (col s_heading);
    do valid <- to_tensor (col s_valid);
    do length <- to_tensor (col s_length);
    do width <- to_tensor (col s_width);
    do height <- to_tensor (col s_height);
    Ok {| tr_x := x; tr_y := y; tr_z := z; tr_heading := heading;
          tr_length := length; tr_width := width; tr_height := height;
          tr_valid := valid; tr_id := map track_id (tracks sc);
          tr_type := map track_type (tracks sc) |}.

(** The Python slice [start:end] of one row, for non-negative bounds. *)
Definition py_slice {A} (start : nat) (stop : option nat) (row : list A) : list A :=
  match stop with
  | None => skipn start row
  | Some e => firstn (e - start) (skipn start row)
  end.

(** trajectory_utils.py 70-96 slice_time. *)
Definition slice_time {F} (t : trajectories F) (start : nat) (stop : option nat) : trajectories F :=
  {| tr_x := map (py_slice start stop) (tr_x t);
     tr_y := map (py_slice start stop) (tr_y t);
     tr_z := map (py_slice start stop) (tr_z t);
     tr_heading := map (py_slice start stop) (tr_heading t);
     tr_length := map (py_slice start stop) (tr_length t);
     tr_width := map (py_slice start stop) (tr_width t);
     tr_height := map (py_slice start stop) (tr_height t);
     tr_valid := map (py_slice start stop) (tr_valid t);
     tr_id := tr_id t; tr_type := tr_type t |}.

(** tf.gather on the object axis: an index out of range is an error (on CPU). *)
Definition gather {A} (rows : list A) (indices : list Z) : result (list A) :=
  mapM (fun i => if i <? 0 then Err IndexError
                 else match nth_error rows (Z.to_nat i) with
                      | Some r => Ok r
                      | None => Err IndexError
                      end) indices.

(** trajectory_utils.py 98-125 gather_objects. *)
Definition gather_objects {F} (t : trajectories F) (indices : list Z) : result (trajectories F) :=
  do x <- gather (tr_x t) indices;
  do y <- gather (tr_y t) indices;
  do z <- gather (tr_z t) indices;
  do heading <- gather (tr_heading t) indices;
  do length <- gather (tr_length t) indices;
  do width <- gather (tr_width t) indices;
  do height <- gather (tr_height t) indices;
  do valid <- gather (tr_valid t) indices;
  do ids <- gather (tr_id t) indices;
  do types <- gather (tr_type t) indices;
  Ok {| tr_x := x; tr_y := y; tr_z := z; tr_heading := heading;
        tr_length := length; tr_width := width; tr_height := height;
        tr_valid := valid; tr_id := ids; tr_type := types |}.

Definition sumZ (l : list Z) : Z := fold_right Z.add 0 l.

(** trajectory_utils.py 208: one row of the comparison matrix, as 0/1. *)
Definition bit_mask (tensor : list Z) (r : Z) : list Z :=
  map (fun t => if t =? r then 1 else 0) tensor.

(** trajectory_utils.py 217-219: the product of one row with 0, 1, 2, ... *)
Definition mask_index (tensor : list Z) (r : Z) : Z :=
  sumZ (map (fun p => fst p * snd p)
            (combine (bit_mask tensor r) (map Z.of_nat (seq 0 (length tensor))))).

(** trajectory_utils.py 181-219 _arg_gather. *)
Definition arg_gather (tensor reference : list Z) : result (list Z) :=
  if existsb (fun r => sumZ (bit_mask tensor r) <? 1) reference then Err ValueError
  else if existsb (fun r => 1 <? sumZ (bit_mask tensor r)) reference then Err ValueError
  else Ok (map (mask_index tensor) reference).

(** trajectory_utils.py 127-144 gather_objects_by_id. *)
Definition gather_objects_by_id {F} (t : trajectories F) (ids : list Z) : result (trajectories F) :=
  do indices <- arg_gather (tr_id t) ids;
  gather_objects t indices.

(** tf.convert_to_tensor on a list of ids.  The empty list becomes a float32
    tensor, and comparing it with the int32 ids raises (TensorFlow's
    InvalidArgumentError, here RuntimeError). *)
Definition id_tensor (ids : list Z) : result (list Z) :=
  match ids with [] => Err RuntimeError | _ => Ok ids end.

(** The last dimension of a tensor. *)
Definition last_dim {A} (rows : list (list A)) : nat :=
  match rows with [] => 0 | r :: _ => length r end.

(** converters.py 27-54 _all_tensor_length_equal. *)
Definition all_tensor_length_equal {F} (t : trajectories F) : bool :=
  forallb (Nat.eqb (length (tr_x t)))
    [length (tr_x t); length (tr_y t); length (tr_z t); length (tr_heading t);
     length (tr_length t); length (tr_width t); length (tr_height t);
     length (tr_valid t); length (tr_id t); length (tr_type t)].

Definition row {A} (rows : list A) (i : nat) : result A :=
  match nth_error rows i with Some r => Ok r | None => Err IndexError end.

(** converters.py 110-124: the trajectory of object [idx]. *)
Definition make_sim_trajectory {F} (t : trajectories F) (idx : nat) : result (sim_trajectory F) :=
  do x <- row (tr_x t) idx;
  do y <- row (tr_y t) idx;
  do z <- row (tr_z t) idx;
  do heading <- row (tr_heading t) idx;
  do id <- row (tr_id t) idx;
  do length <- row (tr_length t) idx;
  do width <- row (tr_width t) idx;
  do height <- row (tr_height t) idx;
  do type <- row (tr_type t) idx;
  do valid <- row (tr_valid t) idx;
  Ok {| sim_x := x; sim_y := y; sim_z := z; sim_heading := heading;
        sim_length := length; sim_width := width; sim_height := height;
        sim_valid := valid; sim_id := id; sim_type := type |}.

(** converters.py 57-127 scenario_to_joint_scene. *)
Definition scenario_to_joint_scene {F} (sc : scenario F) (ct : challenge)
    : result (list (sim_trajectory F)) :=
  do t <- from_scenario sc;
  do sim_agent_ids <- get_sim_agent_ids sc ct;
  do ids <- id_tensor sim_agent_ids;
  do t <- gather_objects_by_id t ids;
  let c := submission_config ct in
  let t := match ct with
           | SIM_AGENTS => slice_time t (current_time_index c + 1) None
           | SCENARIO_GEN => t
           end in
  if negb (Nat.eqb (last_dim (tr_valid t)) (n_simulation_steps c)) then Err ValueError
  else if negb (all_tensor_length_equal t) then Err ValueError
  else mapM (make_sim_trajectory t) (seq 0 (length (tr_id t))).

(** tf.concat on the time axis: the number of rows must agree. *)
Definition concat_time {A} (a b : list (list A)) : result (list (list A)) :=
  if Nat.eqb (length a) (length b) then Ok (map (fun p => fst p ++ snd p) (combine a b))
  else Err RuntimeError.

(** The last element of every row, [rows[:, -1]]. *)
Definition last_column {A} (rows : list (list A)) : result (list A) :=
  mapM (fun r => match rev r with [] => Err IndexError | a :: _ => Ok a end) rows.

(** converters.py 192-206: tf.repeat of the last known value. *)
Definition repeat_last {A} (rows : list (list A)) (n : nat) : result (list (list A)) :=
  do l <- last_column rows;
  Ok (map (fun a => repeat a n) l).

(** converters.py 130-225 joint_scene_to_trajectories. *)
Definition joint_scene_to_trajectories {F} (js : list (sim_trajectory F)) (sc : scenario F)
    (use_log_validity : bool) : result (trajectories F) :=
  do full <- from_scenario sc;
  let c := submission_config SIM_AGENTS in
  let history := slice_time full 0 (Some (current_time_index c + 1)%nat) in
  do x <- to_tensor (map sim_x js);
  do y <- to_tensor (map sim_y js);
  do z <- to_tensor (map sim_z js);
  do heading <- to_tensor (map sim_heading js);
  do ids <- id_tensor (map sim_id js);
  do history <- gather_objects_by_id history ids;
  do valid <-
    (if use_log_validity
     then do full <- gather_objects_by_id full ids;
          Ok (tr_valid (slice_time full (current_time_index c + 1) None))
     else Ok (map (fun r => repeat true (length r)) x));
  do length <- repeat_last (tr_length history) (last_dim x);
  do width <- repeat_last (tr_width history) (last_dim x);
  do height <- repeat_last (tr_height history) (last_dim x);
  do cx <- concat_time (tr_x history) x;
  do cy <- concat_time (tr_y history) y;
  do cz <- concat_time (tr_z history) z;
  do ch <- concat_time (tr_heading history) heading;
  do cl <- concat_time (tr_length history) length;
  do cw <- concat_time (tr_width history) width;
  do cht <- concat_time (tr_height history) height;
  do cv <- concat_time (tr_valid history) valid;
  Ok {| tr_x := cx; tr_y := cy; tr_z := cz; tr_heading := ch;
        tr_length := cl; tr_width := cw; tr_height := cht;
        tr_valid := cv; tr_id := ids; tr_type := tr_type history |}.

(** converters.py 228-315 simulated_scenariogen_to_trajectories. *)
Definition simulated_scenariogen_to_trajectories {F} (js : list (sim_trajectory F))
    (sc : scenario F) (ct : challenge) : result (trajectories F) :=
  do x <- to_tensor (map sim_x js);
  do y <- to_tensor (map sim_y js);
  do z <- to_tensor (map sim_z js);
  do heading <- to_tensor (map sim_heading js);
  do length <- to_tensor (map sim_length js);
  do width <- to_tensor (map sim_width js);
  do height <- to_tensor (map sim_height js);
  do full <- from_scenario sc;
  do ids <- id_tensor (map sim_id js);
  do full <- gather_objects_by_id full ids;
  do current <- mapM (fun r => row r (current_time_index (submission_config ct))) (tr_valid full);
  Ok {| tr_x := x; tr_y := y; tr_z := z; tr_heading := heading;
        tr_length := length; tr_width := width; tr_height := height;
        tr_valid := map (fun b => repeat b (last_dim x)) current;
        tr_id := ids; tr_type := map sim_type js |}.
