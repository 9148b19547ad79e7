(** The realism scores of a scenario from its features, with the estimators inside:
    /repo/src/waymo_open_dataset/wdl_limited/sim_agents_metrics/metrics.py 45-62 and 80-292 over EstimatorModel.v, KinematicModel.v
    and MetametricModel.v, and the configuration files loaded for the two challenges.

    Simplifications: likelihoods are exact fractions (as in EstimatorModel.v), their logarithms and everything after them are real
    numbers, with NaN and minus infinity; the values of features are never NaN; the first axis of the logged features, of size
    one, is left out. *)
From Coq Require Import QArith Reals Qreals.
From Verif Require Import Base ResultLib EstimatorModel MetametricModel KinematicModel.
Open Scope list_scope.

(** tf.math.log of a likelihood, and sums of such. *)
Inductive log_value := NaN | MinusInfinity | Finite (x : R).
Definition log_of (q : option Q) : log_value :=
  match q with None => NaN | Some q => if Qeq_bool q 0 then MinusInfinity else Finite (ln (Q2R q)) end.
Definition add (a b : log_value) : log_value :=
  match a, b with
  | NaN, _ | _, NaN => NaN
  | MinusInfinity, _ | _, MinusInfinity => MinusInfinity
  | Finite x, Finite y => Finite (x + y)
  end.
Definition sum_of (l : list log_value) : log_value := fold_left add l (Finite 0).
(** Division of a sum of n numbers by n; of none it is 0 / 0. *)
Definition over (a : log_value) (n : nat) : log_value :=
  if Nat.eqb n 0 then NaN else match a with Finite x => Finite (x / INR n) | _ => a end.
(** tf.exp; [None] is NaN. *)
Definition exp_of (a : log_value) : option R :=
  match a with NaN => None | MinusInfinity => Some 0%R | Finite x => Some (exp x) end.
(** 345-362: _reduce_average_with_validity. *)
Definition average_with_validity (tensor : list log_value) (validity : list bool) : result log_value :=
  if negb (Nat.eqb (length tensor) (length validity)) then Err ValueError else
  Ok (over (sum_of (map (fun p : log_value * bool => if snd p then fst p else Finite 0) (combine tensor validity)))
           (length (filter (fun b : bool => b) validity))).

(** metric_features.py 55-110: the features; [events] are collision_per_step, offroad_per_step and
    traffic_light_violation_per_step, of the log by object and step, of the simulations by rollout, object and step. *)
Record features := {
  log_values : metric -> tensor; sim_values : metric -> tensor;
  log_events : metric -> list (list bool); sim_events : metric -> list (list (list bool));
  valid : list (list bool); is_vehicle : list bool }.
(** The mask of the time series and of the events: 117-119, 134-139, 155-159, 186-190, 226-232. *)
Definition series_mask (ft : features) (m : metric) : list (list bool) :=
  match m with
  | LinearSpeed | AngularSpeed => map (fun v => fst (compute_kinematic_validity v)) (valid ft)
  | LinearAcceleration | AngularAcceleration => map (fun v => snd (compute_kinematic_validity v)) (valid ft)
  | TimeToCollision | TrafficLightViolation => vehicle_validity (valid ft) (is_vehicle ft)
  | _ => valid ft
  end.
Definition bit (b : bool) : Q := if b then 1%Q else 0%Q.
(** 134-139, 197-202, 226-239: the indications as tensors. *)
Definition log_indication (ft : features) (m : metric) : tensor :=
  let l := concat (indication (series_mask ft m) [log_events ft m]) in
  {| t_dtype := DBool; t_shape := [length (valid ft)]; t_data := map bit l |}.
Definition sim_indication (ft : features) (m : metric) : tensor :=
  {| t_dtype := DBool; t_shape := [length (sim_events ft m); length (valid ft)];
     t_data := map bit (concat (indication (series_mask ft m) (sim_events ft m))) |}.
Definition is_event (m : metric) : bool :=
  match m with CollisionIndication | OffroadIndication | TrafficLightViolation => true | _ => false end.
(** 101-239: the likelihood of a feature. *)
Definition score (gauss : Q -> Q) (config : metric -> feature_config) (ft : features) (m : metric) : result (option R) :=
  if is_event m then
    do l <- estimate_scenario_level gauss (config m) (log_indication ft m) (sim_indication ft m);
    Ok (exp_of (over (sum_of (map log_of l)) (length l)))
  else
    do l <- estimate_timeseries gauss (config m) (log_values ft m) (sim_values ft m);
    do a <- average_with_validity (map log_of l) (concat (series_mask ft m));
    Ok (exp_of a).
(** 365-376: _compute_metametric. *)
Definition weighted (w : R) (s : option R) : option R := match s with Some x => Some (w * x)%R | None => None end.
Definition plus (a b : option R) : option R := match a, b with Some x, Some y => Some (x + y)%R | _, _ => None end.
Definition metametric (gauss : Q -> Q) (config : metric -> feature_config) (w : weights) (ft : features) : result (option R) :=
  do scores <- mapM (score gauss config ft) metric_names;
  Ok (fold_left plus (map (fun p => weighted (Q2R (w (fst p))) (snd p)) (combine metric_names scores)) (Some 0%R)).

(** challenge_2025_sim_agents_config.textproto and challenge_2025_scenario_gen_config.textproto, with the default of
    sim_agents_metrics.proto 91; [scenario_gen] tells which challenge (metrics.py 45-62). *)
Definition hist (lo hi : Q) (bins : nat) : estimator := Histogram {| min_val := lo; max_val := hi; num_bins := bins; smoothing := 1 # 10 |}.
Definition challenge_estimator (m : metric) : estimator :=
  match m with
  | LinearSpeed => hist 0 25 10
  | LinearAcceleration => hist (-12) 12 11
  | AngularSpeed => hist (-628 # 1000) (628 # 1000) 11
  | AngularAcceleration => hist (-314 # 100) (314 # 100) 11
  | DistanceToNearestObject => hist (-5) 40 10
  | DistanceToRoadEdge => hist (-20) 40 10
  | TimeToCollision => hist 0 5 10
  | CollisionIndication | OffroadIndication | TrafficLightViolation => Bernoulli (1 # 1000)
  end.
Definition challenge_config (scenario_gen : bool) (m : metric) : feature_config :=
  {| estimator_of := challenge_estimator m; independent_timesteps := negb (is_event m);
     aggregate_objects := scenario_gen && match m with TrafficLightViolation => false | _ => true end |}.
