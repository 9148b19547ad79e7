(** The baseline of the scenario generation tutorial, from a scenario to the rollouts that are submitted:
    /repo/tutorial/tutorial_scenario_gen.ipynb 300-350, 392-546, 627-652 and 674-690 (lines of the notebook file), over
    SimModel.v and the helpers of ExtrapModel.v.

    Numbers are real numbers instead of float32. The random numbers of lines 441-443 and 449-451 are arguments. The numpy
    alias np.bool of line 323, which recent versions of numpy do not have, is taken to be bool. *)
From Coq Require Import Reals.
From Verif Require Import Base ResultLib SimModel ExtrapModel.
Open Scope list_scope.
Open Scope R_scope.

(** 316-335: all numbers are zero but those of object 0 up to the current step. *)
Definition strip_rows {A} (zero : A) (stop : nat) (rows : list (list A)) : list (list A) :=
  mapi (fun i row => mapi (fun k a => if (i =? 0)%nat && (k <? stop)%nat then a else zero) row) rows.
(** 323, 335 and 337: as above, but the validity at the current step is kept for all objects. *)
Definition strip_valid (now : nat) (rows : list (list bool)) : list (list bool) :=
  mapi (fun i row => mapi (fun k v => if ((i =? 0)%nat && (k <? now + 1)%nat) || (k =? now)%nat then v else false) row) rows.
(** 300-350 strip_logged_trajectories. Line 328 fails without objects, and line 337 if there is no current step. *)
Definition strip (c : config) (t : trajectories R) : result (trajectories R) :=
  let now := current_time_index c in
  match tr_x t with
  | [] => Err IndexError
  | _ :: _ =>
    if (last_dim (tr_valid t) <=? now)%nat then Err IndexError else
    Ok (Trajectories (strip_rows 0 (now + 1) (tr_x t)) (strip_rows 0 (now + 1) (tr_y t)) (strip_rows 0 (now + 1) (tr_z t))
      (strip_rows 0 (now + 1) (tr_heading t)) (strip_rows 0 (now + 1) (tr_length t)) (strip_rows 0 (now + 1) (tr_width t))
      (strip_rows 0 (now + 1) (tr_height t)) (strip_valid now (tr_valid t)) (tr_id t) (tr_type t))
  end.

(** 400-413: how far object 0 goes in the first step; zero for the heading. *)
Definition first_velocity (row : list vec4) : result vec4 :=
  do s1 <- from_end (firstn 2 row) 0;
  do s2 <- from_end (firstn 2 row) 1;
  Ok (V4 (qx s1 - qx s2) (qy s1 - qy s2) (qz s1 - qz s2) 0).
(** 421. *)
Definition action_scale : vec4 := V4 5 5 5 0.
(** 447-459: one turn of the loop; [noise r k o] is for rollout [r], turn [k] and object [o]. *)
Definition gen_turn (velocity : vec4) (noise : nat -> nat -> nat -> vec4) (sim : list (list (list vec4))) (k : nat) : list (list (list vec4)) :=
  mapi (fun r objects => mapi (fun o history =>
    history ++ [next_state velocity action_scale (noise r k o) (last history zero4)]) objects) sim.
(** 392-462 _generate_trajectories; [init r o] is the noise of lines 441-444 for rollout [r] and object [o]. *)
Definition generate_trajectories (c : config) (init : nat -> nat -> vec4) (noise : nat -> nat -> nat -> vec4) (t : trajectories R)
    : result (list (list (list vec4))) :=
  do row <- row (stacked t) 0;
  do velocity <- first_velocity row;
  do start <- SimModel.row row 0;
  let sim := map (fun r => map (fun o => [add4 start (init r o)]) (seq 0 (length (tr_valid t)))) (seq 0 (n_rollouts c)) in
  Ok (fold_left (gen_turn velocity noise) (seq 0 (n_simulation_steps c - 1)) sim).

(** Length, width and height. *)
Record vec3 := V3 { bl : R; bw : R; bh : R }.
Definition scale3 (a : R) (v : vec3) : vec3 := V3 (bl v * a) (bw v * a) (bh v * a).
Definition add3 (a b : vec3) : vec3 := V3 (bl a + bl b) (bw a + bw b) (bh a + bh b).
(** 476-480: 1 for objects of a type, 0 for the others. *)
Definition is_type (ty wanted : Z) : R := if (ty =? wanted)%Z then 1 else 0.
(** 470-505: the size of an object of a type; vehicles are 1, pedestrians 2 and cyclists 3. *)
Definition size_of (ty : Z) : vec3 :=
  add3 (add3 (scale3 (is_type ty 1) (V3 (478 / 100) (207 / 100) (153 / 100)))
             (scale3 (is_type ty 2) (V3 (92 / 100) (82 / 100) (152 / 100))))
       (scale3 (is_type ty 3) (V3 (170 / 100) (82 / 100) (176 / 100))).
(** 465-506 _generate_sizes: a size for each rollout, object and logged step. *)
Definition generate_sizes (c : config) (t : trajectories R) : list (list (list vec3)) :=
  repeat (map (fun ty => repeat (size_of ty) (last_dim (tr_valid t))) (tr_type t)) (n_rollouts c).
(** 509-546 generate_with_random_policy; what is printed is left out. *)
Definition generate (init : nat -> nat -> vec4) (noise : nat -> nat -> nat -> vec4) (sc : scenario R)
    : result (trajectories R * (list (list (list vec4)) * list (list (list vec3)))) :=
  let c := submission_config SCENARIO_GEN in
  do full <- from_scenario sc;
  do t <- strip c full;
  do agents <- get_sim_agent_ids sc SCENARIO_GEN;
  do ids <- id_tensor agents;
  do t <- gather_objects_by_id t ids;
  do states <- generate_trajectories c init noise t;
  Ok (t, (states, generate_sizes c t)).

(** 627-652 joint_scene_from_states; validity and type are not set. *)
Definition gen_scene (states : list (list vec4)) (sizes : list (list vec3)) (ids : list Z) : result (list (sim_trajectory R)) :=
  mapM (fun i =>
    do row <- row states i;
    do size <- SimModel.row sizes i;
    do id <- SimModel.row ids i;
    Ok (SimTrajectory (map qx row) (map qy row) (map qz row) (map qh row) (map bl size) (map bw size) (map bh size) [] id 0))
    (seq 0 (length ids)).
(** 674-690 scenario_rollouts_from_states; [name] is the scenario_id. *)
Definition gen_rollouts (name : Z) (states : list (list (list vec4))) (sizes : list (list (list vec3))) (ids : list Z) : result (rollouts R) :=
  do scenes <- mapM (fun i =>
    do s <- SimModel.row states i;
    do z <- SimModel.row sizes i;
    gen_scene s z ids) (seq 0 (length states));
  Ok (Rollouts (Some name) scenes).
(** 966-974: what is made of a scenario, before it is validated. *)
Definition generated (init : nat -> nat -> vec4) (noise : nat -> nat -> nat -> vec4) (name : Z) (sc : scenario R) : result (rollouts R) :=
  do (t, r) <- generate init noise sc;
  gen_rollouts name (fst r) (snd r) (tr_id t).
