(** Model of the aggregation of the sim agents metrics:
    /repo/src/waymo_open_dataset/wdl_limited/sim_agents_metrics/metrics.py.

    Simplifications that apply to the whole file:
    - numbers are exact rationals and NaN is [None];
    - tensors of shape (n_rollouts, n_objects, n_steps) are nested lists;
    - the log-likelihoods of the estimators (see EstimatorModel) are inputs, and
      [exp] stands for tf.exp, a parameter. *)
From Coq Require Import QArith.
From Verif Require Import Base ResultLib.
Open Scope Q_scope.

(** metrics.py 22-36: the features that are scored. *)
Inductive metric :=
| LinearSpeed | LinearAcceleration | AngularSpeed | AngularAcceleration
| DistanceToNearestObject | CollisionIndication | TimeToCollision
| DistanceToRoadEdge | OffroadIndication | TrafficLightViolation.
Definition metric_eq_dec (a b : metric) : {a = b} + {a <> b}.
Proof. decide equality. Defined.
Definition kinematic := [LinearSpeed; LinearAcceleration; AngularSpeed; AngularAcceleration].
Definition interactive := [DistanceToNearestObject; CollisionIndication; TimeToCollision].
Definition map_based := [DistanceToRoadEdge; OffroadIndication; TrafficLightViolation].
(** metrics.py 37-41 _METRIC_FIELD_NAMES. *)
Definition metric_names := kinematic ++ interactive ++ map_based.

(** sim_agents_metrics.proto 113-157: the float fields of SimAgentMetrics. *)
Inductive field :=
| Metametric | Ade | MinAde | Likelihood (m : metric)
| CollisionRate | OffroadRate | TrafficLightRate.
Definition all_fields : list field :=
  [Metametric; Ade] ++ map Likelihood
    [LinearSpeed; LinearAcceleration; AngularSpeed; AngularAcceleration;
     DistanceToNearestObject; CollisionIndication; TimeToCollision;
     DistanceToRoadEdge; OffroadIndication] ++
  [MinAde; CollisionRate; OffroadRate; Likelihood TrafficLightViolation; TrafficLightRate].

(** The message: optional fields, an unset one being [None]; a set field may
    itself be NaN. *)
Record message := { scenario_id : option Z; field_of : field -> option (option Q) }.

(** Reading an unset float field gives 0. *)
Definition get (m : message) (f : field) : option Q :=
  match field_of m f with Some v => v | None => Some 0 end.

(** NaN-propagating arithmetic. *)
Definition nplus (a b : option Q) : option Q :=
  match a, b with Some x, Some y => Some (x + y) | _, _ => None end.
Definition nscale (w : Q) (a : option Q) : option Q :=
  match a with Some x => Some (w * x) | None => None end.
Definition ndiv (a : option Q) (b : Q) : option Q :=
  match a with Some x => if Qeq_bool b 0 then None else Some (x / b) | None => None end.
Definition nsum (l : list (option Q)) : option Q := fold_left nplus l (Some 0).
Definition qlen {A} (l : list A) : Q := inject_Z (Z.of_nat (length l)).

(** The configuration: metametric_weight of each feature. *)
Definition weights := metric -> Q.

(** metrics.py 365-376 _compute_metametric. *)
Definition compute_metametric (w : weights) (m : message) : option Q :=
  fold_left (fun acc f => nplus acc (nscale (w f) (get m (Likelihood f)))) metric_names (Some 0).

(** metrics.py 345-362 _reduce_average_with_validity, on flattened tensors. *)
Definition reduce_average_with_validity (tensor : list (option Q)) (validity : list bool) : result (option Q) :=
  if negb (Nat.eqb (length tensor) (length validity)) then Err ValueError
  else
    let cond_sum := nsum (map (fun p : option Q * bool => if snd p then fst p else Some 0) (combine tensor validity)) in
    let valid_sum := qlen (filter (fun b : bool => b) validity) in
    Ok (ndiv cond_sum valid_sum).

(** metrics.py 313-342 aggregate_metrics_to_buckets: one bucket. *)
Definition bucket (w : weights) (m : message) (fields : list metric) : result (option Q) :=
  let weighted := fold_left (fun acc f => nplus acc (nscale (w f) (get m (Likelihood f)))) fields (Some 0) in
  let weights_sum := fold_left (fun acc f => acc + w f) fields 0 in
  if Qeq_bool weights_sum 0 then Err ValueError else Ok (ndiv weighted weights_sum).

Record bucketed := {
  realism_meta_metric : option Q; kinematic_metrics : option Q; interactive_metrics : option Q;
  map_based_metrics : option Q; min_ade : option Q;
  b_collision_rate : option Q; b_offroad_rate : option Q; b_traffic_light_rate : option Q }.

Definition aggregate_metrics_to_buckets (w : weights) (m : message) : result bucketed :=
  do k <- bucket w m kinematic;
  do i <- bucket w m interactive;
  do p <- bucket w m map_based;
  Ok {| realism_meta_metric := get m Metametric; kinematic_metrics := k; interactive_metrics := i;
        map_based_metrics := p; min_ade := get m MinAde;
        b_collision_rate := get m CollisionRate; b_offroad_rate := get m OffroadRate;
        b_traffic_light_rate := get m TrafficLightRate |}.

(** np.mean. *)
Definition mean (l : list (option Q)) : option Q := ndiv (nsum l) (qlen l).

Definition is_set (m : message) (f : field) : bool :=
  match field_of m f with Some _ => true | None => false end.

(** metrics.py 295-310 aggregate_scenario_metrics: the fields are those set in
    the first message; deleting the scenario id raises KeyError when the first
    message has none. *)
Definition aggregate_scenario_metrics (all : list message) : result message :=
  match all with
  | [] => Err IndexError
  | first :: _ =>
      match scenario_id first with
      | None => Err KeyError
      | Some _ =>
          Ok {| scenario_id := None;
                field_of f := if is_set first f then Some (mean (map (fun m => get m f) all)) else None |}
      end
  end.

(** metrics.py 134-139, 197-202 and 250-257: tf.where(log_valid, per_step,
    False) reduced over the steps; [valid] is one rollout, broadcast. *)
Definition indication (valid : list (list bool)) (per_step : list (list (list bool))) : list (list bool) :=
  map (fun rollout => map (fun p => existsb (fun q : bool * bool => (fst q && snd q)%bool) (combine (fst p) (snd p)))
                          (combine valid rollout)) per_step.

(** metrics.py 186-190 and 227-232: validity restricted to vehicles. *)
Definition vehicle_validity (valid : list (list bool)) (is_vehicle : list bool) : list (list bool) :=
  map (fun p => map (fun b => (b && snd p)%bool) (fst p)) (combine valid is_vehicle).

(** metrics.py 241-262: the share of true entries. *)
Definition rate (ind : list (list bool)) : option Q :=
  ndiv (Some (qlen (filter (fun b : bool => b) (concat ind)))) (qlen (concat ind)).

(** Inputs of compute_scenario_metrics_for_features_bundle, after estimation. *)
Record bundle := {
  ade : list (list (option Q));                (* per rollout and object *)
  log_likelihood : metric -> list (option Q);  (* flattened; per object for the indications *)
  log_valid : list (list bool);
  speed_valid : list (list bool); accel_valid : list (list bool);
  log_is_vehicle : list bool;
  sim_collision : list (list (list bool)); sim_offroad : list (list (list bool));
  sim_traffic_light : list (list (list bool)) }.

Definition nexp (exp : Q -> Q) (a : option Q) : option Q :=
  match a with Some x => Some (exp x) | None => None end.

(** The mask of each time series (metrics.py 102-230). *)
Definition mask_of (b : bundle) (m : metric) : option (list bool) :=
  match m with
  | LinearSpeed | AngularSpeed => Some (concat (speed_valid b))
  | LinearAcceleration | AngularAcceleration => Some (concat (accel_valid b))
  | DistanceToNearestObject | DistanceToRoadEdge => Some (concat (log_valid b))
  | TimeToCollision => Some (concat (vehicle_validity (log_valid b) (log_is_vehicle b)))
  | CollisionIndication | OffroadIndication | TrafficLightViolation => None
  end.

(** The likelihood of a feature: the exponential of the mean of the
    log-likelihoods that are valid. *)
Definition feature_likelihood (exp : Q -> Q) (b : bundle) (m : metric) : result (option Q) :=
  match mask_of b m with
  | Some v => do a <- reduce_average_with_validity (log_likelihood b m) v; Ok (nexp exp a)
  | None => Ok (nexp exp (mean (log_likelihood b m)))
  end.

Definition nmin (a b : option Q) : option Q :=
  match a, b with Some x, Some y => Some (if Qle_bool x y then x else y) | _, _ => None end.
(** tf.reduce_min; the minimum over nothing is +inf, not modelled: NaN. *)
Definition minimum (l : list (option Q)) : option Q :=
  match l with [] => None | x :: l' => fold_left nmin l' x end.

(** metrics.py 80-292 compute_scenario_metrics_for_features_bundle. *)
Definition compute_scenario_metrics (exp : Q -> Q) (w : weights) (id : Z) (b : bundle) : result message :=
  do values <- mapM (fun m => do v <- feature_likelihood exp b m; Ok (m, v)) metric_names;
  let lookup m := match find (fun p => if metric_eq_dec m (fst p) then true else false) values with
                  | Some p => Some (snd p) | None => None end in
  let likelihoods := {| scenario_id := None;
                        field_of f := match f with Likelihood m => lookup m | _ => None end |} in
  Ok {| scenario_id := Some id;
        field_of f := match f with
          | Likelihood m => lookup m
          | Metametric => Some (compute_metametric w likelihoods)
          | Ade => Some (mean (concat (ade b)))
          | MinAde => Some (minimum (map mean (ade b)))
          | CollisionRate => Some (rate (indication (log_valid b) (sim_collision b)))
          | OffroadRate => Some (rate (indication (log_valid b) (sim_offroad b)))
          | TrafficLightRate => Some (rate (indication (log_valid b) (sim_traffic_light b)))
          end |}.

(** challenge_2025_sim_agents_config.textproto and
    challenge_2025_scenario_gen_config.textproto: the same weights. *)
Definition challenge_weights : weights := fun m =>
  match m with
  | LinearSpeed | LinearAcceleration | AngularSpeed | AngularAcceleration => 5 # 100
  | DistanceToNearestObject => 1 # 10
  | CollisionIndication => 25 # 100
  | TimeToCollision => 1 # 10
  | DistanceToRoadEdge => 5 # 100
  | OffroadIndication => 25 # 100
  | TrafficLightViolation => 5 # 100
  end.
