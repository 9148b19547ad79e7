(** Model of the likelihood estimators of the sim agents metrics:
    /repo/src/waymo_open_dataset/wdl_limited/sim_agents_metrics/estimators.py.

    Simplifications that apply to the whole file:
    - numbers are exact rationals and samples are never NaN;
    - the code works with logarithms of likelihoods, the model with the
      likelihoods themselves: log 0 = -inf is likelihood 0, and a NaN likelihood
      (0/0) is [None];
    - [gauss] stands for u -> exp (- u^2 / 2), a parameter;
    - exceptions raised inside TensorFlow ops are RuntimeError. *)
From Coq Require Import QArith.
From Verif Require Import Base NdArray.
Open Scope Q_scope.

Inductive dtype := DFloat | DBool.

(** Row-major tensor; a boolean tensor holds 0 and 1. *)
Record tensor := { t_dtype : dtype; t_shape : list nat; t_data : list Q }.

(** sim_agents_metrics.proto: HistogramEstimate, KernelDensityEstimate,
    BernoulliEstimate and the oneof of FeatureConfig. *)
Record histogram_config := {
  min_val : Q; max_val : Q; num_bins : nat; smoothing : Q }.
Inductive estimator :=
| Histogram (c : histogram_config) | KernelDensity (bandwidth : Q)
| Bernoulli (pseudocount : Q) | NoEstimator.
Record feature_config := {
  estimator_of : estimator; independent_timesteps : bool; aggregate_objects : bool }.

Definition reshape (sh : list nat) (t : tensor) : result tensor :=
  if Nat.eqb (prodl sh) (length (t_data t))
  then Ok {| t_dtype := t_dtype t; t_shape := sh; t_data := t_data t |} else Err RuntimeError.

Definition transpose_tensor (p : list nat) (t : tensor) : tensor :=
  {| t_dtype := t_dtype t; t_shape := permute p (t_shape t);
     t_data := transpose 0 (t_shape t) p (t_data t) |}.

(** Row [i] of a tensor of shape (rows, k). *)
Definition row_of (k : nat) (data : list Q) (i : nat) : list Q := firstn k (skipn (i * k) data).

Definition is_bool (t : tensor) : bool := match t_dtype t with DBool => true | DFloat => false end.

(** tf.linspace(min, max, n + 1), element [i] (estimators.py 236-237). *)
Definition edge (c : histogram_config) (i : nat) : Q :=
  min_val c + (max_val c - min_val c) * (inject_Z (Z.of_nat i) / inject_Z (Z.of_nat (num_bins c))).

(** tf.clip_by_value: minimum with max_val, then maximum with min_val. *)
Definition clip (c : histogram_config) (x : Q) : Q :=
  let y := if Qle_bool x (max_val c) then x else max_val c in
  if Qle_bool (min_val c) y then y else min_val c.

(** tfp.stats.find_bins: the number of inner edges not above the sample;
    samples outside the edges are in no bin. *)
Definition find_bin (c : histogram_config) (x : Q) : option nat :=
  if negb (Qle_bool (edge c 0) x) || negb (Qle_bool x (edge c (num_bins c))) then None
  else Some (length (filter (fun i => Qle_bool (edge c i) x) (seq 1 (num_bins c - 1)))).

(** tfp.stats.histogram of one row of samples: the count of each bin. *)
Definition histogram (c : histogram_config) (samples : list Q) : list Q :=
  map (fun k => inject_Z (Z.of_nat (length (filter
         (fun x => match find_bin c x with Some j => Nat.eqb j k | None => false end) samples))))
      (seq 0 (num_bins c)).

Definition qsum (l : list Q) : Q := fold_right Qplus 0 l.

(** tfp Categorical(probs).prob: the probabilities are normalised. *)
Definition categorical_prob (probs : list Q) (k : nat) : option Q :=
  if Qeq_bool (qsum probs) 0 then None else Some (nth k probs 0 / qsum probs).

(** tf.argmax: the first position of the largest value. *)
Fixpoint argmax_from (i best : nat) (v : Q) (l : list Q) : nat :=
  match l with
  | [] => best
  | x :: l' => if Qle_bool x v then argmax_from (S i) best v l' else argmax_from (S i) i x l'
  end.
Definition argmax (l : list Q) : nat :=
  match l with [] => O | x :: l' => argmax_from 1 0 x l' end.

(** estimators.py 365-379 _assert_and_return_batch_size. *)
Definition batch_size_of (log_samples sim_samples : tensor) : result nat :=
  match t_shape log_samples, t_shape sim_samples with
  | b :: _, b' :: _ => if Nat.eqb b b' then Ok b else Err RuntimeError
  | _, _ => Err RuntimeError
  end.

(** Size of the last axis of a tensor of rank 2. *)
Definition sample_size (t : tensor) : nat := nth 1 (t_shape t) O.

(** estimators.py 210-269 histogram_estimate; the result is row-major of shape
    (batch_size, log_sample_size).  clip_by_value rejects booleans, tfp rejects
    fewer than two edges, and reshape to (batch_size, -1) an empty batch. *)
Definition histogram_estimate (c : histogram_config) (log_samples sim_samples : tensor)
    : result (list (option Q)) :=
  do batch_size <- batch_size_of log_samples sim_samples;
  if is_bool log_samples || is_bool sim_samples then Err RuntimeError
  else if Nat.eqb (num_bins c) 0 then Err ValueError
  else if Nat.eqb batch_size 0 then Err RuntimeError
  else
    let log_data := map (clip c) (t_data log_samples) in
    let sim_data := map (clip c) (t_data sim_samples) in
    let sim_counts := map (fun i => map (fun n => n + smoothing c)
                            (histogram c (row_of (sample_size sim_samples) sim_data i)))
                          (seq 0 batch_size) in
    let max_log_bin := map (fun v => argmax (histogram c [v])) log_data in
    let n := sample_size log_samples in
    Ok (flat_map (fun i => map (fun k => categorical_prob (nth i sim_counts []) (nth (i * n + k) max_log_bin O))
                               (seq 0 n))
                 (seq 0 batch_size)).

(** Mean of the kernel over the samples, relative to the largest density
    (estimators.py 299-313). *)
Definition kernel_score (gauss : Q -> Q) (bandwidth : Q) (samples : list Q) (v : Q) : Q :=
  qsum (map (fun s => gauss ((v - s) / bandwidth)) samples) / inject_Z (Z.of_nat (length samples)).

(** estimators.py 272-313 kernel_density_estimate; fitting an empty sample
    raises ValueError, scoring an empty one too. *)
Definition kernel_density_estimate (gauss : Q -> Q) (bandwidth : Q) (log_samples sim_samples : tensor)
    : result (list (option Q)) :=
  if Qle_bool bandwidth 0 then Err ValueError
  else
    do batch_size <- batch_size_of log_samples sim_samples;
    let n := sample_size log_samples in
    if negb (Nat.eqb batch_size 0) && (Nat.eqb (sample_size sim_samples) 0 || Nat.eqb n 0)
    then Err ValueError
    else
      Ok (flat_map (fun i => map (fun v => Some (kernel_score gauss bandwidth
                                            (row_of (sample_size sim_samples) (t_data sim_samples) i) v))
                                 (row_of n (t_data log_samples) i))
                   (seq 0 batch_size)).

(** estimators.py 316-362 bernoulli_estimate. *)
Definition bernoulli_estimate (pseudocount : Q) (log_samples sim_samples : tensor)
    : result (list (option Q)) :=
  if negb (is_bool log_samples) then Err ValueError
  else if negb (is_bool sim_samples) then Err ValueError
  else
    let cast t := {| t_dtype := DFloat; t_shape := t_shape t; t_data := t_data t |} in
    histogram_estimate {| min_val := -1 # 2; max_val := 3 # 2; num_bins := 2; smoothing := pseudocount |}
      (cast log_samples) (cast sim_samples).

(** estimators.py 54-66 and 126-141: the choice of the estimator. *)
Definition estimate (gauss : Q -> Q) (e : estimator) (log_samples sim_samples : tensor)
    : result (list (option Q)) :=
  match e with
  | Histogram c => histogram_estimate c log_samples sim_samples
  | KernelDensity bandwidth => kernel_density_estimate gauss bandwidth log_samples sim_samples
  | Bernoulli a => bernoulli_estimate a log_samples sim_samples
  | NoEstimator => Err ValueError
  end.

(** tf.reshape of the likelihoods. *)
Definition reshape_result (sh : list nat) (l : list (option Q)) : result (list (option Q)) :=
  if Nat.eqb (prodl sh) (length l) then Ok l else Err RuntimeError.

Definition shape_eqb (a b : list nat) : bool :=
  if list_eq_dec Nat.eq_dec a b then true else false.

(** estimators.py 17-72 _log_likelihood_estimate_timeseries_agent_level; the
    result is row-major of shape (n_objects, n_steps). *)
Definition agent_level (gauss : Q -> Q) (f : feature_config) (log_values sim_values : tensor)
    : result (list (option Q)) :=
  match t_shape log_values, t_shape sim_values with
  | [_; _], [n_rollouts; n_objects; n_steps] =>
      if negb (shape_eqb (t_shape log_values) [n_objects; n_steps]) then Err ValueError
      else
        do p <- (if independent_timesteps f
                 then
                   do s <- reshape [n_objects; (n_rollouts * n_steps)%nat]
                             (transpose_tensor [1; 0; 2]%nat sim_values);
                   Ok (log_values, s)
                 else
                   do s <- reshape [(n_objects * n_steps)%nat; n_rollouts]
                             (transpose_tensor [1; 2; 0]%nat sim_values);
                   do l <- reshape [(n_objects * n_steps)%nat; 1%nat] log_values;
                   Ok (l, s));
        do r <- estimate gauss (estimator_of f) (fst p) (snd p);
        reshape_result [n_objects; n_steps] r
  | _, _ => Err ValueError
  end.

(** estimators.py 75-149 _log_likelihood_estimate_timeseries_scene_level. *)
Definition scene_level (gauss : Q -> Q) (f : feature_config) (log_values sim_values : tensor)
    : result (list (option Q)) :=
  match t_shape log_values, t_shape sim_values with
  | [_; _], [n_rollouts; n_objects; n_steps] =>
      if negb (shape_eqb (t_shape log_values) [n_objects; n_steps]) then Err ValueError
      else
        do p <- (if independent_timesteps f
                 then
                   do s <- reshape [1%nat; (n_objects * n_rollouts * n_steps)%nat]
                             (transpose_tensor [1; 0; 2]%nat sim_values);
                   do l <- reshape [1%nat; (n_objects * n_steps)%nat]
                             (transpose_tensor [1; 0]%nat log_values);
                   Ok (l, s)
                 else
                   do s <- reshape [n_steps; (n_objects * n_rollouts)%nat]
                             (transpose_tensor [2; 1; 0]%nat sim_values);
                   Ok (transpose_tensor [1; 0]%nat log_values, s));
        do r <- estimate gauss (estimator_of f) (fst p) (snd p);
        do r <- reshape_result [n_steps; n_objects] r;
        Ok (transpose None [n_steps; n_objects] [1; 0]%nat r)
  | _, _ => Err ValueError
  end.

(** estimators.py 152-176 log_likelihood_estimate_timeseries. *)
Definition estimate_timeseries (gauss : Q -> Q) (f : feature_config) (log_values sim_values : tensor)
    : result (list (option Q)) :=
  if aggregate_objects f then scene_level gauss f log_values sim_values
  else agent_level gauss f log_values sim_values.

(** estimators.py 179-207 log_likelihood_estimate_scenario_level: a time axis
    of one step is added and removed again. *)
Definition estimate_scenario_level (gauss : Q -> Q) (f : feature_config) (log_values sim_values : tensor)
    : result (list (option Q)) :=
  match t_shape log_values, t_shape sim_values with
  | [_], [_; _] =>
      let new_axis t := {| t_dtype := t_dtype t; t_shape := t_shape t ++ [1%nat]; t_data := t_data t |} in
      estimate_timeseries gauss f (new_axis log_values) (new_axis sim_values)
  | _, _ => Err ValueError
  end.
