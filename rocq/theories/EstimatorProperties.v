(** C33: likelihood estimators of the sim agents metrics. *)
From Coq Require Import QArith Permutation.
From Verif Require Import Base EstimatorModel EstimatorSpec EstimatorProofs.
Open Scope Q_scope.

(** The value returned for an object and a step is the likelihood of the logged
    value among exactly the simulated values it must be compared with. *)
Theorem C33_timeseries : forall gauss f l s R O T,
  tensor_ok l -> tensor_ok s -> t_shape l = [O; T] -> t_shape s = [R; O; T] ->
  R <> 0%nat -> O <> 0%nat -> T <> 0%nat ->
  usable (estimator_of f) l s -> bounds_ok (estimator_of f) ->
  exists res, estimate_timeseries gauss f l s = Ok res /\ length res = (O * T)%nat /\
    forall o t, (o < O)%nat -> (t < T)%nat ->
      exists r, nth_error res (o * T + t) = Some r /\
        likelihood gauss (estimator_of f) (population f R O T s o t) (log_at T l o t) r.
Proof. exact timeseries_spec. Qed.
Print Assumptions C33_timeseries.

Theorem C33_scenario_level : forall gauss f l s R O,
  tensor_ok l -> tensor_ok s -> t_shape l = [O] -> t_shape s = [R; O] ->
  R <> 0%nat -> O <> 0%nat ->
  usable (estimator_of f) l s -> bounds_ok (estimator_of f) ->
  exists res, estimate_scenario_level gauss f l s = Ok res /\ length res = O /\
    forall o, (o < O)%nat ->
      exists r, nth_error res o = Some r /\
        likelihood gauss (estimator_of f) (population f R O 1 s o 0) (nth o (t_data l) 0) r.
Proof. exact scenario_level_spec. Qed.
Print Assumptions C33_scenario_level.

(** Nothing is returned for mismatched shapes or an unusable configuration. *)
Theorem C33_only_usable_inputs : forall gauss f l s res,
  estimate_timeseries gauss f l s = Ok res ->
  usable (estimator_of f) l s /\ exists R O T, t_shape l = [O; T] /\ t_shape s = [R; O; T].
Proof. exact timeseries_needs. Qed.
Print Assumptions C33_only_usable_inputs.

Theorem C33_shape_mismatch_rejected : forall gauss f l s R O T O' T',
  t_shape l = [O'; T'] -> t_shape s = [R; O; T] -> [O'; T'] <> [O; T] ->
  estimate_timeseries gauss f l s = Err ValueError.
Proof. exact shape_mismatch. Qed.
Print Assumptions C33_shape_mismatch_rejected.

(** The likelihood is determined by the value and the population, in any order. *)
Theorem C33_likelihood_unique : forall gauss e samples v r r', bounds_ok e ->
  likelihood gauss e samples v r -> likelihood gauss e samples v r' -> same_value r r'.
Proof. exact likelihood_unique. Qed.
Print Assumptions C33_likelihood_unique.

Theorem C33_rollout_order_irrelevant : forall gauss f l s s' R O T p res res',
  tensor_ok l -> tensor_ok s -> tensor_ok s' ->
  t_shape l = [O; T] -> t_shape s = [R; O; T] -> t_shape s' = [R; O; T] -> t_dtype s' = t_dtype s ->
  R <> 0%nat -> O <> 0%nat -> T <> 0%nat -> bounds_ok (estimator_of f) ->
  Permutation (map p (seq 0 R)) (seq 0 R) ->
  (forall r o t, (r < R)%nat -> (o < O)%nat -> (t < T)%nat -> sim_at O T s' r o t = sim_at O T s (p r) o t) ->
  estimate_timeseries gauss f l s = Ok res -> estimate_timeseries gauss f l s' = Ok res' ->
  Forall2 same_value res res'.
Proof. exact rollout_order. Qed.
Print Assumptions C33_rollout_order_irrelevant.

(** It is a number between 0 and 1, and positive with smoothing. *)
Theorem C33_likelihood_bounds : forall gauss e samples v r,
  (forall u, 0 <= gauss u <= 1) -> bounds_ok e -> samples <> [] -> 0 <= smoothing_of e ->
  likelihood gauss e samples v r ->
  exists q, r = Some q /\ 0 <= q <= 1 /\ (0 < smoothing_of e -> 0 < q).
Proof. exact likelihood_bounds. Qed.
Print Assumptions C33_likelihood_bounds.

(** The likelihoods of one value in each bin add up to one. *)
Theorem C33_histogram_is_a_distribution : forall c samples vs qs,
  min_val c < max_val c -> num_bins c <> O -> samples <> [] -> 0 <= smoothing c ->
  length vs = num_bins c ->
  (forall k v, nth_error vs k = Some v -> in_bin (min_val c) (max_val c) (num_bins c) k v) ->
  Forall2 (fun v q => histogram_likelihood c samples v (Some q)) vs qs ->
  fold_right Qplus 0 qs == 1.
Proof. exact histogram_simplex. Qed.
Print Assumptions C33_histogram_is_a_distribution.

(** * Concrete cases *)

(** Two rollouts of two objects over three steps, four bins of [0, 8]. *)
Definition demo_log : tensor :=
  {| t_dtype := DFloat; t_shape := [2; 3]%nat; t_data := [0; 2; 8; -5; 20; 3] |}.
Definition demo_sim : tensor :=
  {| t_dtype := DFloat; t_shape := [2; 2; 3]%nat; t_data := [0; 1; 2; 3; 4; 5; 6; 7; 8; 9; 10; 11] |}.
Definition demo_hist : histogram_config := {| min_val := 0; max_val := 8; num_bins := 4; smoothing := 1 |}.
Definition demo_feature (independent aggregate : bool) : feature_config :=
  {| estimator_of := Histogram demo_hist; independent_timesteps := independent; aggregate_objects := aggregate |}.

Definition matches (l : list (option Q)) (r : result (list (option Q))) : bool :=
  match r with
  | Ok l' => Nat.eqb (length l) (length l') && forallb (fun p => match p with
               | (Some a, Some b) => Qeq_bool a b | (None, None) => true | _ => false end) (combine l l')
  | Err _ => false
  end.

Example demo_agent_independent :
  matches (map Some [3 # 10; 2 # 10; 4 # 10; 1 # 10; 4 # 10; 2 # 10])
    (estimate_timeseries (fun _ => 0) (demo_feature true false) demo_log demo_sim) = true.
Proof. vm_compute. reflexivity. Qed.
Example demo_scene_dependent :
  matches (map Some [2 # 8; 1 # 8; 3 # 8; 2 # 8; 3 # 8; 2 # 8])
    (estimate_timeseries (fun _ => 0) (demo_feature false true) demo_log demo_sim) = true.
Proof. vm_compute. reflexivity. Qed.

Example demo_meets_hypotheses : tensor_ok demo_log /\ tensor_ok demo_sim /\
  usable (Histogram demo_hist) demo_log demo_sim /\ bounds_ok (Histogram demo_hist).
Proof. repeat split; try discriminate; cbn; reflexivity. Qed.

Definition demo_bits (sh : list nat) (l : list Q) : tensor := {| t_dtype := DBool; t_shape := sh; t_data := l |}.
Example demo_bernoulli :
  matches (map Some [5 # 8; 1 # 8])
    (estimate_scenario_level (fun _ => 0)
       {| estimator_of := Bernoulli (1 # 2); independent_timesteps := true; aggregate_objects := false |}
       (demo_bits [2]%nat [1; 0]) (demo_bits [3; 2]%nat [1; 1; 0; 1; 1; 1])) = true.
Proof. vm_compute. reflexivity. Qed.
