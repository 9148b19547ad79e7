(** C34: metametric, buckets and aggregation over scenarios. *)
From Coq Require Import QArith Permutation.
From Verif Require Import Base MetametricModel MetametricSpec MetametricProofs.
Open Scope Q_scope.

(** The metametric is the weighted sum of the likelihoods; NaN exactly when one
    of them is. *)
Theorem C34_metametric_value : forall w m s, scores m s ->
  is_number (compute_metametric w m) (total (map (fun f => w f * s f) metric_names)).
Proof. exact metametric_value. Qed.
Print Assumptions C34_metametric_value.

Theorem C34_metametric_nan : forall w m,
  compute_metametric w m = None <-> exists f, In f metric_names /\ get m (Likelihood f) = None.
Proof. exact (fun w m => weighted_nan w m metric_names). Qed.
Print Assumptions C34_metametric_nan.

Theorem C34_every_metric_counts : forall f, In f metric_names.
Proof. exact in_names. Qed.
Print Assumptions C34_every_metric_counts.

(** With weights of a mean it stays within the bounds of the likelihoods. *)
Theorem C34_metametric_bounds : forall w m s lo hi, scores m s ->
  (forall f, 0 <= w f) -> total (map w metric_names) == 1 -> (forall f, lo <= s f <= hi) ->
  exists x, compute_metametric w m = Some x /\ lo <= x <= hi.
Proof. exact metametric_bounds. Qed.
Print Assumptions C34_metametric_bounds.

(** The weights of both 2025 challenges are those of a mean. *)
Theorem C34_challenge_weights :
  (forall f, 0 <= challenge_weights f) /\ total (map challenge_weights metric_names) == 1.
Proof. exact challenge_weights_ok. Qed.
Print Assumptions C34_challenge_weights.

(** Buckets are weighted averages, rejected exactly when the weights cancel, and
    the metametric is the sum of the buckets times their weights. *)
Theorem C34_bucket_errors : forall w m fs,
  (bucket w m fs = Err ValueError <-> total (map w fs) == 0) /\
  (forall e, bucket w m fs = Err e -> e = ValueError).
Proof. exact bucket_error. Qed.
Print Assumptions C34_bucket_errors.

Theorem C34_bucket_bounds : forall w m s fs lo hi x, scores m s -> (forall f, In f fs -> 0 <= w f) ->
  (forall f, In f fs -> lo <= s f <= hi) -> bucket w m fs = Ok (Some x) -> lo <= x <= hi.
Proof. exact bucket_bounds. Qed.
Print Assumptions C34_bucket_bounds.

Theorem C34_buckets_and_metametric : forall w m s, scores m s ->
  (forall f, 0 <= w f) ->
  total (map w metric_names) == 1 ->
  forall b, aggregate_metrics_to_buckets w m = Ok b ->
  exists k i p, kinematic_metrics b = Some k /\ interactive_metrics b = Some i /\ map_based_metrics b = Some p /\
    k * total (map w kinematic) == total (map (fun f => w f * s f) kinematic) /\
    i * total (map w interactive) == total (map (fun f => w f * s f) interactive) /\
    p * total (map w map_based) == total (map (fun f => w f * s f) map_based) /\
    is_number (compute_metametric w m)
      (k * total (map w kinematic) + i * total (map w interactive) + p * total (map w map_based)) /\
    realism_meta_metric b = get m Metametric /\ min_ade b = get m MinAde /\
    b_collision_rate b = get m CollisionRate /\ b_offroad_rate b = get m OffroadRate /\
    b_traffic_light_rate b = get m TrafficLightRate.
Proof. exact buckets_value. Qed.
Print Assumptions C34_buckets_and_metametric.

(** Averages over the valid positions only. *)
Theorem C34_average_with_validity : forall l v,
  (length l <> length v -> reduce_average_with_validity l v = Err ValueError) /\
  (length l = length v -> exists r a, selected l v r /\ reduce_average_with_validity l v = Ok a /\
     (a = None <-> r = [] \/ In None r) /\
     (forall qs, Forall2 is_number r qs -> r <> [] -> exists x, a = Some x /\ is_mean qs x)).
Proof. exact reduce_average_spec. Qed.
Print Assumptions C34_average_with_validity.

(** Aggregation: the mean of every field that the first scenario sets. *)
Theorem C34_aggregate_value : forall m0 l z, scenario_id m0 = Some z ->
  exists r, aggregate_scenario_metrics (m0 :: l) = Ok r /\ scenario_id r = None /\
    forall f, (field_of m0 f = None -> field_of r f = None) /\
      (field_of m0 f <> None -> exists v, field_of r f = Some v /\
         forall qs, Forall2 (fun m q => is_number (get m f) q) (m0 :: l) qs ->
           exists a, v = Some a /\ is_mean qs a).
Proof. exact aggregate_value. Qed.
Print Assumptions C34_aggregate_value.

Theorem C34_aggregate_errors : forall all,
  (aggregate_scenario_metrics all = Err IndexError <-> all = []) /\
  (aggregate_scenario_metrics all = Err KeyError <-> exists m l, all = m :: l /\ scenario_id m = None) /\
  (forall e, aggregate_scenario_metrics all = Err e -> e = IndexError \/ e = KeyError).
Proof. exact aggregate_errors. Qed.
Print Assumptions C34_aggregate_errors.

(** A field that the first scenario does not set is lost, so that the mean is
    wrong and depends on the order. *)
Theorem C34_mean_of_every_field_refuted : exists m1 m2 r f,
  aggregate_scenario_metrics [m1; m2] = Ok r /\ get m1 f = Some 0 /\ get m2 f = Some 1 /\ get r f = Some 0 /\
  field_of r f = None.
Proof. exact aggregate_mean_refuted. Qed.
Print Assumptions C34_mean_of_every_field_refuted.

Theorem C34_order_irrelevant_refuted : exists m1 m2 r r' f,
  aggregate_scenario_metrics [m1; m2] = Ok r /\ aggregate_scenario_metrics [m2; m1] = Ok r' /\
  field_of r f = None /\ field_of r' f <> None.
Proof. exact aggregate_order_refuted. Qed.
Print Assumptions C34_order_irrelevant_refuted.

Theorem C34_aggregate_order : forall all all' r r',
  Permutation all all' ->
  (forall m m' f, In m all -> In m' all -> (field_of m f = None <-> field_of m' f = None)) ->
  (forall m f, In m all -> exists q, get m f = Some q) ->
  aggregate_scenario_metrics all = Ok r -> aggregate_scenario_metrics all' = Ok r' ->
  forall f, (field_of r f = None <-> field_of r' f = None) /\
            (field_of r f <> None -> exists a b, get r f = Some a /\ get r' f = Some b /\ a == b).
Proof. exact aggregate_order. Qed.
Print Assumptions C34_aggregate_order.

(** The metametric of the averages is the average of the metametrics. *)
Theorem C34_metametric_commutes_with_mean : forall w all r, all <> [] ->
  (forall m, In m all -> forall f, field_of m f <> None /\ exists q, get m f = Some q) ->
  (forall m, In m all -> exists a b, get m Metametric = Some a /\ compute_metametric w m = Some b /\ a == b) ->
  aggregate_scenario_metrics all = Ok r ->
  exists a b, get r Metametric = Some a /\ compute_metametric w r = Some b /\ a == b.
Proof. exact metametric_linear. Qed.
Print Assumptions C34_metametric_commutes_with_mean.

(** An object counts as colliding, off road or violating when it is flagged at a
    step where the log is valid; rates are shares of objects and rollouts. *)
Theorem C34_indication : forall valid per_step, rectangular valid per_step ->
  length (indication valid per_step) = length per_step /\
  (forall row, In row (indication valid per_step) -> length row = length valid) /\
  forall r o, (r < length per_step)%nat -> (o < length valid)%nat ->
    exists row b, nth_error (indication valid per_step) r = Some row /\ nth_error row o = Some b /\
                  (b = true <-> flagged valid per_step r o).
Proof. exact indication_spec. Qed.
Print Assumptions C34_indication.

Theorem C34_rate_value : forall ind, concat ind <> [] ->
  exists x, rate ind = Some x /\
    x * inject_Z (Z.of_nat (length (concat ind))) ==
      inject_Z (Z.of_nat (length (filter (fun b : bool => b) (concat ind)))) /\ 0 <= x <= 1.
Proof. exact rate_value. Qed.
Print Assumptions C34_rate_value.

Theorem C34_traffic_light_rate_vehicles_only_refuted : exists b,
  (forall r o, ~ flagged (vehicle_validity (log_valid b) (log_is_vehicle b)) (sim_traffic_light b) r o) /\
  rectangular (log_valid b) (sim_traffic_light b) /\
  is_number (rate (indication (log_valid b) (sim_traffic_light b))) (1 # 2).
Proof. exact traffic_light_rate_refuted. Qed.
Print Assumptions C34_traffic_light_rate_vehicles_only_refuted.

(** The message of a scenario, field by field, and its bounds. *)
Theorem C34_scenario_message : forall exp w id b r, compute_scenario_metrics exp w id b = Ok r ->
  scenario_id r = Some id /\
  (forall m, exists v, feature_likelihood exp b m = Ok v /\ field_of r (Likelihood m) = Some v) /\
  field_of r Metametric = Some (compute_metametric w r) /\
  field_of r Ade = Some (mean (concat (ade b))) /\
  field_of r MinAde = Some (minimum (map mean (ade b))) /\
  field_of r CollisionRate = Some (rate (indication (log_valid b) (sim_collision b))) /\
  field_of r OffroadRate = Some (rate (indication (log_valid b) (sim_offroad b))) /\
  field_of r TrafficLightRate = Some (rate (indication (log_valid b) (sim_traffic_light b))).
Proof. exact scenario_message. Qed.
Print Assumptions C34_scenario_message.

Theorem C34_scenario_scores_in_unit : forall exp w id b r,
  (forall x, x <= 0 -> 0 <= exp x <= 1) ->
  (forall f, 0 <= w f) -> total (map w metric_names) == 1 ->
  (forall m v, mask_of b m = Some v -> length (log_likelihood b m) = length v /\
     (exists i, nth_error v i = Some true) /\
     forall i, nth_error v i = Some true -> exists q, nth_error (log_likelihood b m) i = Some (Some q) /\ q <= 0) ->
  (forall m, mask_of b m = None -> log_likelihood b m <> [] /\
     forall x, In x (log_likelihood b m) -> exists q, x = Some q /\ q <= 0) ->
  compute_scenario_metrics exp w id b = Ok r ->
  (forall m, in_unit (get r (Likelihood m))) /\ in_unit (get r Metametric).
Proof. exact scenario_in_unit. Qed.
Print Assumptions C34_scenario_scores_in_unit.

(** * Concrete cases *)

Definition demo_bundle : bundle :=
  {| ade := [[Some 1; Some 3]; [Some 2; Some 4]];
     log_likelihood m := match m with
       | CollisionIndication | OffroadIndication | TrafficLightViolation => [Some (-1); Some (-3)]
       | _ => [Some (-1); None; Some (-2); Some (-3)] end;
     log_valid := [[true; false]; [true; true]]; speed_valid := [[true; false]; [true; true]];
     accel_valid := [[false; false]; [true; false]]; log_is_vehicle := [true; false];
     sim_collision := [[[true; true]; [false; false]]; [[false; true]; [false; true]]];
     sim_offroad := [[[false; true]; [false; false]]; [[false; true]; [false; false]]];
     sim_traffic_light := [[[false; false]; [false; false]]; [[false; false]; [false; false]]] |}.
(** A decreasing map that meets the hypothesis on [exp]. *)
Definition demo_exp (x : Q) : Q := / (1 - x).

Example demo_message : exists r, compute_scenario_metrics demo_exp challenge_weights 7 demo_bundle = Ok r /\
  is_number (get r (Likelihood LinearSpeed)) (1 # 3) /\ is_number (get r (Likelihood TimeToCollision)) (1 # 2) /\
  is_number (get r MinAde) 2 /\ is_number (get r Ade) (5 # 2) /\
  is_number (get r CollisionRate) (1 # 2) /\ is_number (get r OffroadRate) 0.
Proof. eexists. split; [reflexivity|]. repeat split; eexists; split; reflexivity. Qed.

Example demo_exp_ok : forall x, x <= 0 -> 0 <= demo_exp x <= 1.
Proof.
  intros x Hx. unfold demo_exp.
  assert (1 <= 1 - x) as H by (apply (Qplus_le_r _ _ (x - 1)); ring_simplify; exact Hx).
  assert (0 < 1 - x) as P by (apply Qlt_le_trans with 1; [reflexivity|exact H]).
  split; [apply Qlt_le_weak, Qinv_lt_0_compat; exact P|].
  rewrite <- (Qmult_1_l (/ (1 - x))).
  apply Qle_shift_div_r; [exact P|]. rewrite (Qmult_1_l (1 - x)). exact H.
Qed.
