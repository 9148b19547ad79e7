(** Sim agents: submission checks (C29), gathering by id (C30), conversions (C31). *)
From Verif Require Import Base SimModel SimSpec SimProofs.

(** A scenario with three tracks of [n] steps: object 7 is valid at the current
    step, object 4 is not, object 5 (the AV) is; the box of object 7 grows. *)
Definition demo_state (v : bool) (i : nat) : state Z :=
  let z := Z.of_nat i in State z (z + 1) 0 0 (4 + z) 2 1 v.
Definition demo_track (n : nat) (id : Z) (f : nat -> bool) : track Z :=
  Track id 1 (map (fun i => demo_state (f i) i) (seq 0 n)).
Definition demo (n : nat) : scenario Z :=
  Scenario [demo_track n 7 (fun _ => true); demo_track n 4 (fun i => Nat.ltb i 5);
            demo_track n 5 (fun i => Nat.ltb 3 i)] 2 [0; 1].

Definition demo_sim (n : nat) (id : Z) : sim_trajectory Z :=
  SimTrajectory (repeat 1 n) (repeat 2 n) (repeat 3 n) (repeat 4 n) [] [] [] [] id 0.

(** * C29 *)

(** Exactly the scenes with complete trajectories for exactly the required ids
    are accepted; everything else raises ValueError, except that a scenario with
    a track that ends before the current step raises IndexError. *)
Theorem C29_validate_joint_scene_exact : forall F (js : list (sim_trajectory F)) sc ct,
  (validate_joint_scene js sc ct = Ok tt <-> reaches_current sc /\ acceptable js sc ct) /\
  (validate_joint_scene js sc ct = Err IndexError <-> ~ reaches_current sc) /\
  (validate_joint_scene js sc ct = Err ValueError <-> reaches_current sc /\ ~ acceptable js sc ct).
Proof. exact @validate_exact. Qed.
Print Assumptions C29_validate_joint_scene_exact.

Theorem C29_validate_scenario_rollouts_exact : forall F (r : rollouts F) sc ct,
  (validate_scenario_rollouts r sc ct = Ok tt <->
   (exists id, rollouts_id r = Some id) /\ length (joint_scenes r) = 32%nat /\
   reaches_current sc /\ forall js, In js (joint_scenes r) -> acceptable js sc ct) /\
  (forall e, validate_scenario_rollouts r sc ct = Err e -> reaches_current sc -> e = ValueError).
Proof.
  exact (fun F r sc ct => conj (validate_rollouts_exact r sc ct) (validate_rollouts_errors r sc ct)).
Qed.
Print Assumptions C29_validate_scenario_rollouts_exact.

Theorem C29_sim_agent_ids_exact : forall F (sc : scenario F) ct, reaches_current sc ->
  exists ids, get_sim_agent_ids sc ct = Ok ids /\ (forall id, In id ids <-> required sc id).
Proof. exact @sim_ids_exact. Qed.
Print Assumptions C29_sim_agent_ids_exact.

(** The evaluated agents are the AV and the tracks to predict, sorted, once each. *)
Theorem C29_evaluation_ids_exact : forall F (sc : scenario F),
  ((exists ids, get_evaluation_sim_agent_ids sc SIM_AGENTS = Ok ids) <->
   (forall i, i = sdc_track_index sc \/ In i (tracks_to_predict sc) -> exists t, track_at sc i t)) /\
  (forall ids, get_evaluation_sim_agent_ids sc SIM_AGENTS = Ok ids ->
     increasing ids /\
     forall id, In id ids <->
       exists i t, (i = sdc_track_index sc \/ In i (tracks_to_predict sc)) /\
                   track_at sc i t /\ track_id t = id).
Proof. exact (fun F sc => conj (eval_ids_total sc) (eval_ids_exact sc)). Qed.
Print Assumptions C29_evaluation_ids_exact.

(** A scene that simulates an agent twice is accepted. *)
Theorem C29_each_agent_once_refuted : exists (js : list (sim_trajectory Z)) sc,
  validate_joint_scene js sc SIM_AGENTS = Ok tt /\ ~ NoDup (map sim_id js).
Proof.
  exists [demo_sim 80 5; demo_sim 80 7; demo_sim 80 5], (demo 91). split; [vm_compute; reflexivity|].
  intros N. inversion N as [|a l H _]. apply H. cbn. auto.
Qed.
Print Assumptions C29_each_agent_once_refuted.

(** A generated scene without any box size is accepted. *)
Theorem C29_generated_sizes_refuted : exists (js : list (sim_trajectory Z)) sc s,
  validate_joint_scene js sc SCENARIO_GEN = Ok tt /\ In s js /\ sim_length s = [].
Proof.
  exists [demo_sim 91 5; demo_sim 91 7], (demo 91), (demo_sim 91 5).
  split; [vm_compute; reflexivity|]. split; [now left|reflexivity].
Qed.
Print Assumptions C29_generated_sizes_refuted.

(** An evaluated agent need not be one that is simulated. *)
Theorem C29_evaluated_agents_simulated_refuted : exists (sc : scenario Z) ids id,
  get_evaluation_sim_agent_ids sc SIM_AGENTS = Ok ids /\ In id ids /\ ~ required sc id.
Proof.
  exists (demo 91), [4; 5; 7], 4. split; [vm_compute; reflexivity|]. split; [now left|].
  intros H. apply in_sim_ids in H. vm_compute in H.
  destruct H as [H|[H|[]]]; discriminate.
Qed.
Print Assumptions C29_evaluated_agents_simulated_refuted.

Example C29_demo :
  get_sim_agent_ids (demo 91) SIM_AGENTS = Ok [7; 5] /\
  get_evaluation_sim_agent_ids (demo 91) SIM_AGENTS = Ok [4; 5; 7] /\
  validate_joint_scene [demo_sim 80 5; demo_sim 80 7] (demo 91) SIM_AGENTS = Ok tt /\
  validate_joint_scene [demo_sim 79 5; demo_sim 80 7] (demo 91) SIM_AGENTS = Err ValueError /\
  validate_joint_scene [demo_sim 80 7] (demo 91) SIM_AGENTS = Err ValueError /\
  validate_joint_scene [demo_sim 80 4; demo_sim 80 5; demo_sim 80 7] (demo 91) SIM_AGENTS = Err ValueError /\
  validate_joint_scene [] (demo 10) SIM_AGENTS = Err IndexError /\
  validate_scenario_rollouts (Rollouts (Some 1) (repeat [demo_sim 80 5; demo_sim 80 7] 32))
    (demo 91) SIM_AGENTS = Ok tt /\
  validate_scenario_rollouts (Rollouts (Some 1) (repeat [demo_sim 80 5; demo_sim 80 7] 31))
    (demo 91) SIM_AGENTS = Err ValueError /\
  validate_scenario_rollouts (Rollouts None (repeat [demo_sim 80 5; demo_sim 80 7] 32))
    (demo 91) SIM_AGENTS = Err ValueError.
Proof. vm_compute. repeat split. Qed.

(** * C30 *)

(** Gathering succeeds exactly when every requested id is the id of exactly one
    object, and then returns these objects, complete, in the requested order. *)
Theorem C30_gather_by_id_exact : forall F (t : trajectories F) n ids, n_objects t n ->
  ((exists t', gather_objects_by_id t ids = Ok t') <->
   forall id, In id ids -> occurs_once (tr_id t) id) /\
  (forall e, gather_objects_by_id t ids = Err e -> e = ValueError) /\
  (forall t', gather_objects_by_id t ids = Ok t' ->
     n_objects t' (length ids) /\ tr_id t' = ids /\
     forall k i id o, nth_error ids k = Some id -> nth_error (tr_id t) i = Some id ->
       nth_object t i o -> nth_object t' k o).
Proof. exact @gather_exact. Qed.
Print Assumptions C30_gather_by_id_exact.

Definition demo_table : trajectories Z :=
  Trajectories [[1]; [2]; [3]] [[4]; [5]; [6]] [[7]; [8]; [9]] [[10]; [11]; [12]]
    [[13]; [14]; [15]] [[16]; [17]; [18]] [[19]; [20]; [21]] [[true]; [false]; [true]]
    [30; 40; 30] [1; 2; 3].

Example C30_demo :
  n_objects demo_table 3 /\
  gather_objects_by_id demo_table [40; 40] =
    Ok (Trajectories [[2]; [2]] [[5]; [5]] [[8]; [8]] [[11]; [11]] [[14]; [14]] [[17]; [17]]
          [[20]; [20]] [[false]; [false]] [40; 40] [2; 2]) /\
  gather_objects_by_id demo_table [40; 30] = Err ValueError /\
  gather_objects_by_id demo_table [50] = Err ValueError /\
  gather_objects_by_id demo_table [] = Ok (Trajectories [] [] [] [] [] [] [] [] [] []).
Proof. vm_compute. repeat split. Qed.

(** * C31 *)

(** Which logs can be turned into a submission, and what the submission is. *)
Theorem C31_log_to_joint_scene_exact : forall F (sc : scenario F) ct,
  ((exists js, scenario_to_joint_scene sc ct = Ok js) <-> loggable sc) /\
  (forall js, scenario_to_joint_scene sc ct = Ok js ->
     js = map (logged_trajectory ct) (filter valid_now (tracks sc)) /\
     validate_joint_scene js sc ct = Ok tt).
Proof.
  intros F sc ct. split; [split|].
  - intros (js & H). exact (to_joint_scene_inv sc ct js H).
  - intros H. eexists. exact (to_joint_scene_ok sc ct H).
  - intros js H. pose proof (to_joint_scene_inv sc ct js H) as L.
    rewrite (to_joint_scene_ok sc ct L) in H. injection H as <-. split; [reflexivity|].
    apply validate_exact. split; [now apply loggable_reaches|now apply logged_acceptable].
Qed.
Print Assumptions C31_log_to_joint_scene_exact.

(** A log of the wrong duration (for example of the test set) raises ValueError. *)
Theorem C31_wrong_duration_rejected : forall F (sc : scenario F) ct n,
  uniform sc n -> (10 < n)%nat -> n <> 91%nat -> (exists id, required sc id) ->
  (forall id, required sc id -> occurs_once (map track_id (tracks sc)) id) ->
  scenario_to_joint_scene sc ct = Err ValueError.
Proof. exact @to_joint_scene_wrong_steps. Qed.
Print Assumptions C31_wrong_duration_rejected.

(** Any accepted scene becomes the logged history followed by the submitted
    future, object by object. *)
Theorem C31_joint_scene_to_trajectories : forall F (js : list (sim_trajectory F)) sc n b,
  uniform sc n -> reaches_current sc -> acceptable js sc SIM_AGENTS -> js <> [] ->
  (forall id, required sc id -> occurs_once (map track_id (tracks sc)) id) ->
  exists t, joint_scene_to_trajectories js sc b = Ok t /\
    n_objects t (length js) /\ tr_id t = map sim_id js /\
    forall k s tr cur, nth_error js k = Some s -> In tr (tracks sc) ->
      track_id tr = sim_id s -> nth_error (states tr) 10 = Some cur ->
      nth_object t k (simulated_object tr cur s
        (if b then map s_valid (skipn 11 (states tr)) else repeat true 80)).
Proof. exact @joint_scene_ok. Qed.
Print Assumptions C31_joint_scene_to_trajectories.

(** The log, converted to a scene and back, is the log (with the sizes of the
    boxes frozen at the current step). *)
Theorem C31_log_round_trip : forall F (sc : scenario F), loggable sc ->
  exists js t, scenario_to_joint_scene sc SIM_AGENTS = Ok js /\
    validate_joint_scene js sc SIM_AGENTS = Ok tt /\
    joint_scene_to_trajectories js sc true = Ok t /\
    n_objects t (length (filter valid_now (tracks sc))) /\
    forall k tr cur, nth_error (filter valid_now (tracks sc)) k = Some tr ->
      nth_error (states tr) 10 = Some cur -> nth_object t k (logged_object tr cur).
Proof. exact @log_round_trip. Qed.
Print Assumptions C31_log_round_trip.

(** The logged sizes of the boxes are not kept. *)
Theorem C31_sizes_kept_refuted : exists (sc : scenario Z) js t tr,
  loggable sc /\ scenario_to_joint_scene sc SIM_AGENTS = Ok js /\
  joint_scene_to_trajectories js sc true = Ok t /\
  nth_error (filter valid_now (tracks sc)) 0 = Some tr /\
  nth_error (tr_length t) 0 <> Some (map s_length (states tr)).
Proof.
  exists (demo 91).
  destruct (scenario_to_joint_scene (demo 91) SIM_AGENTS) as [js|e] eqn:E; [|vm_compute in E; discriminate].
  exists js. pose proof (to_joint_scene_inv _ _ _ E) as L.
  destruct (joint_scene_to_trajectories js (demo 91) true) as [t|e] eqn:Et;
    [|rewrite (to_joint_scene_ok _ _ L) in E; injection E as <-; vm_compute in Et; discriminate].
  exists t, (demo_track 91 7 (fun _ => true)).
  split; [exact L|]. split; [reflexivity|]. split; [reflexivity|]. split; [reflexivity|].
  rewrite (to_joint_scene_ok _ _ L) in E. injection E as <-.
  vm_compute in Et. injection Et as <-. vm_compute. discriminate.
Qed.
Print Assumptions C31_sizes_kept_refuted.

(** Generated scenes become trajectories that are valid at every step. *)
Theorem C31_generated_scene_to_trajectories : forall F (js : list (sim_trajectory F)) sc n,
  uniform sc n -> reaches_current sc -> acceptable js sc SCENARIO_GEN -> js <> [] ->
  (forall s, In s js -> length (sim_length s) = 91%nat /\ length (sim_width s) = 91%nat /\
                        length (sim_height s) = 91%nat) ->
  (forall id, required sc id -> occurs_once (map track_id (tracks sc)) id) ->
  exists t, simulated_scenariogen_to_trajectories js sc SCENARIO_GEN = Ok t /\
    n_objects t (length js) /\
    forall k s, nth_error js k = Some s -> nth_object t k (generated_object s).
Proof. exact @generated_ok. Qed.
Print Assumptions C31_generated_scene_to_trajectories.

(** An accepted scene that simulates an agent twice is converted without error,
    but the agent can then not be selected for evaluation. *)
Theorem C31_repeated_agent_fails_later : forall F (js : list (sim_trajectory F)) sc n b i j s s',
  uniform sc n -> reaches_current sc -> acceptable js sc SIM_AGENTS -> js <> [] ->
  (forall id, required sc id -> occurs_once (map track_id (tracks sc)) id) ->
  nth_error js i = Some s -> nth_error js j = Some s' -> i <> j -> sim_id s = sim_id s' ->
  exists t, joint_scene_to_trajectories js sc b = Ok t /\
            gather_objects_by_id t [sim_id s] = Err ValueError.
Proof. exact @repeated_agent_ambiguous. Qed.
Print Assumptions C31_repeated_agent_fails_later.

Example C31_demo_loggable : loggable (demo 91).
Proof.
  destruct (scenario_to_joint_scene (demo 91) SIM_AGENTS) as [js|e] eqn:E;
    [exact (to_joint_scene_inv _ _ _ E)|vm_compute in E; discriminate].
Qed.

Example C31_demo :
  is_ok (scenario_to_joint_scene (demo 91) SIM_AGENTS) = true /\
  scenario_to_joint_scene (demo 11) SIM_AGENTS = Err ValueError /\
  (do t <- joint_scene_to_trajectories [demo_sim 80 5; demo_sim 80 7] (demo 91) false;
   Ok (tr_id t, nth_error (tr_x t) 0, nth_error (tr_length t) 1)) =
  Ok ([5; 7], Some ([0; 1; 2; 3; 4; 5; 6; 7; 8; 9; 10] ++ repeat 1 80),
      Some ([4; 5; 6; 7; 8; 9; 10; 11; 12; 13; 14] ++ repeat 14 80)).
Proof. vm_compute. repeat split. Qed.

(** Slicing in time keeps exactly the steps from [start] to [stop], excluded, of
    every time series, and leaves the ids and types alone. *)
Theorem C31_slice_time : forall F (t : trajectories F) start stop,
  let t' := slice_time t start stop in
  sliced start stop (tr_x t) (tr_x t') /\ sliced start stop (tr_y t) (tr_y t') /\
  sliced start stop (tr_z t) (tr_z t') /\ sliced start stop (tr_heading t) (tr_heading t') /\
  sliced start stop (tr_length t) (tr_length t') /\ sliced start stop (tr_width t) (tr_width t') /\
  sliced start stop (tr_height t) (tr_height t') /\ sliced start stop (tr_valid t) (tr_valid t') /\
  tr_id t' = tr_id t /\ tr_type t' = tr_type t.
Proof. exact @slice_time_spec. Qed.
Print Assumptions C31_slice_time.
