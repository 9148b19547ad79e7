(** The baseline of the sim agents tutorial, from a scenario to the rollouts that are submitted:
    /repo/tutorial/tutorial_sim_agents.ipynb 308-416, 502-522 and 533-548 (lines of the notebook file), over SimModel.v.

    Numbers are real numbers instead of float32. The random noise of line 398 is an argument. *)
From Coq Require Import Reals.
From Verif Require Import Base ResultLib SimModel.
Open Scope list_scope.
Open Scope R_scope.

(** The last axis of the states: x, y, z and heading. *)
Record vec4 := V4 { qx : R; qy : R; qz : R; qh : R }.
Definition zero4 : vec4 := V4 0 0 0 0.
Definition add4 (a b : vec4) : vec4 := V4 (qx a + qx b) (qy a + qy b) (qz a + qz b) (qh a + qh b).
Definition mul4 (a b : vec4) : vec4 := V4 (qx a * qx b) (qy a * qy b) (qz a * qz b) (qh a * qh b).

Fixpoint zip2 {A B C} (f : A -> B -> C) (a : list A) (b : list B) : list C :=
  match a, b with x :: a', y :: b' => f x y :: zip2 f a' b' | _, _ => [] end.
Fixpoint zip4 {A B} (f : A -> A -> A -> A -> B) (a b c d : list A) : list B :=
  match a, b, c, d with
  | x :: a', y :: b', z :: c', w :: d' => f x y z w :: zip4 f a' b' c' d'
  | _, _, _, _ => []
  end.
Definition mapi {A B} (f : nat -> A -> B) (l : list A) : list B := zip2 f (seq 0 (length l)) l.

(** 344-352: tf.stack; the tensors have the same shape. *)
Definition stacked (t : trajectories R) : list (list vec4) := zip4 (zip4 V4) (tr_x t) (tr_y t) (tr_z t) (tr_heading t).
(** Element -1 - k of an axis. *)
Definition from_end {A} (l : list A) (k : nat) : result A :=
  match nth_error (rev l) k with Some a => Ok a | None => Err IndexError end.
(** 354-377: the last velocity of one object; zero for the heading, and all zero if one of the two states is not valid. *)
Definition last_velocity (row : list vec4) (valid : list bool) : result vec4 :=
  do s1 <- from_end row 0;
  do s2 <- from_end row 1;
  do v1 <- from_end valid 0;
  do v2 <- from_end valid 1;
  Ok (if v1 && v2 then V4 (qx s1 - qx s2) (qy s1 - qy s2) (qz s1 - qz s2) 0 else zero4).
(** 388: tf.reduce_max over the objects, of which there is at least one. *)
Definition largest_of (l : list R) : R := match l with [] => 0 | a :: l' => fold_left Rmax l' a end.
Definition max_action (vs : list vec4) : vec4 :=
  V4 (largest_of (map qx vs)) (largest_of (map qy vs)) (largest_of (map qz vs)) (largest_of (map qh vs)).
(** 396-405: the next state of one object in one rollout. *)
Definition next_state (velocity max noise current : vec4) : vec4 := add4 current (add4 velocity (mul4 noise max)).
(** 395-408: one turn of the loop; [noise r k o] is for rollout [r], turn [k] and object [o]. Histories are never empty. *)
Definition turn (vs : list vec4) (noise : nat -> nat -> nat -> vec4) (sim : list (list (list vec4))) (k : nat) : list (list (list vec4)) :=
  mapi (fun r objects => mapi (fun o history =>
    history ++ [next_state (nth o vs zero4) (max_action vs) (noise r k o) (last history zero4)]) objects) sim.
(** 308-416: simulate_with_extrapolation. *)
Definition simulate (noise : nat -> nat -> nat -> vec4) (sc : scenario R) : result (trajectories R * list (list (list vec4))) :=
  let c := submission_config SIM_AGENTS in
  do t <- from_scenario sc;
  do agents <- get_sim_agent_ids sc SIM_AGENTS;
  do ids <- id_tensor agents;
  do t <- gather_objects_by_id t ids;
  let t := slice_time t 0 (Some (current_time_index c + 1)%nat) in
  let states := stacked t in
  do vs <- mapM (fun p => last_velocity (fst p) (snd p)) (combine states (tr_valid t));
  do starts <- mapM (fun row => from_end row 0) states;
  let start := repeat (map (fun s => [s]) starts) (n_rollouts c) in
  let all := fold_left (turn vs noise) (seq 0 (n_simulation_steps c)) start in
  Ok (t, map (map (skipn 1)) all).

(** 502-522: joint_scene_from_states; sizes, validity and type are not set. *)
Definition joint_scene_from_states (states : list (list vec4)) (ids : list Z) : result (list (sim_trajectory R)) :=
  mapM (fun i =>
    do row <- row states i;
    do id <- SimModel.row ids i;
    Ok (SimTrajectory (map qx row) (map qy row) (map qz row) (map qh row) [] [] [] [] id 0)) (seq 0 (length ids)).
(** 533-548: scenario_rollouts_from_states; [name] is the scenario_id. *)
Definition scenario_rollouts_from_states (name : Z) (states : list (list (list vec4))) (ids : list Z) : result (rollouts R) :=
  do scenes <- mapM (fun s => joint_scene_from_states s ids) states;
  Ok (Rollouts (Some name) scenes).
(** 817-825: what is made of a scenario, before it is validated. *)
Definition tutorial_rollouts (noise : nat -> nat -> nat -> vec4) (name : Z) (sc : scenario R) : result (rollouts R) :=
  do (t, states) <- simulate noise sc;
  scenario_rollouts_from_states name states (tr_id t).
