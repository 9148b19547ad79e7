(** C137: the area under the precision recall curve of occupancy. *)
From Coq Require Import Reals List Permutation.
From Verif Require Import Base ResultLib AucModel AucSpec.
From Verif Require OfmModel OfmSpec OfmWitness.
From Verif Require Import AucMetrics AucExample.
Import ListNotations.
Open Scope R_scope.
(** Predictions are accepted exactly if they are in the unit interval. *)
Theorem C137_accepted t p : ((exists v, compute_occupancy_auc t p = Ok v) <-> forall x, In x p -> 0 <= x <= 1) /\
  (compute_occupancy_auc t p = Err ValueError <-> exists x, In x p /\ (x < 0 \/ 1 < x)).
Proof. exact (auc_accepted t p). Qed.
Print Assumptions C137_accepted.
(** The value is in the unit interval. *)
Theorem C137_range t p v : compute_occupancy_auc t p = Ok v -> 0 <= v <= 1.
Proof. exact (auc_range t p v). Qed.
Print Assumptions C137_range.
(** It is the area under the curve interpolated between the 100 levels, over the number of occupied cells. *)
Theorem C137_area t p v : compute_occupancy_auc t p = Ok v -> (exists c, In c (combine t p) /\ occupied c = true) ->
  exists areas, length areas = 99%nat /\
    (forall k, (k < 99)%nat -> interpolated_area (hits (combine t p) (S k)) (alarms (combine t p) (S k)) (hits (combine t p) k) (alarms (combine t p) k) (nth k areas 0)) /\
    v = total areas / number occupied (combine t p).
Proof. exact (auc_area t p v). Qed.
Print Assumptions C137_area.
(** Such an area is unique. *)
Theorem C137_area_unique h1 a1 h0 a0 x y : 0 <= h1 -> 0 <= a1 -> h1 + a1 < h0 + a0 ->
  interpolated_area h1 a1 h0 a0 x -> interpolated_area h1 a1 h0 a0 y -> x = y.
Proof. exact (area_unique h1 a1 h0 a0 x y). Qed.
Print Assumptions C137_area_unique.
(** It is zero exactly if no cell is occupied. *)
Theorem C137_zero t p v : compute_occupancy_auc t p = Ok v -> v = 0 <-> forall c, In c (combine t p) -> occupied c = false.
Proof. exact (auc_zero t p v). Qed.
Print Assumptions C137_zero.
(** It is one exactly if a level separates the occupied cells from the free ones. *)
Theorem C137_one t p v : compute_occupancy_auc t p = Ok v -> (exists c, In c (combine t p) /\ occupied c = true) ->
  v = 1 <->
  (forall c, In c (combine t p) -> occupied c = true) \/
  exists k, (1 <= k <= 98)%nat /\ forall c, In c (combine t p) -> occupied c = true <-> INR k / 99 < snd c.
Proof. exact (auc_one t p v). Qed.
Print Assumptions C137_one.
(** Predictions no level tells apart score the share of occupied cells. *)
Theorem C137_blind t p v : compute_occupancy_auc t p = Ok v -> combine t p <> [] ->
  (forall c d, In c (combine t p) -> In d (combine t p) -> same_levels (snd c) (snd d)) -> v = share (combine t p).
Proof. exact (auc_blind t p v). Qed.
Print Assumptions C137_blind.
(** The order of the cells does not matter. *)
Theorem C137_order t p v t' p' v' : compute_occupancy_auc t p = Ok v -> compute_occupancy_auc t' p' = Ok v' ->
  Permutation (combine t p) (combine t' p') -> v = v'.
Proof. exact (auc_order t p v t' p' v'). Qed.
Print Assumptions C137_order.
(** Only the levels of the predictions matter. *)
Theorem C137_levels t p v t' p' v' : compute_occupancy_auc t p = Ok v -> compute_occupancy_auc t' p' = Ok v' ->
  Forall2 (fun c d => occupied c = occupied d /\ same_levels (snd c) (snd d)) (combine t p) (combine t' p') -> v = v'.
Proof. exact (auc_levels t p v t' p' v'). Qed.
Print Assumptions C137_levels.
(** So it is not a function of the ranking: a perfect ranking below the first level scores like a constant. *)
Theorem C137_rank_refuted : exists t p, compute_occupancy_auc t p = Ok (1 / 2) /\ compute_occupancy_auc t (map (fun x => 200 * x) p) = Ok 1.
Proof. exact (rank_refuted ). Qed.
Print Assumptions C137_rank_refuted.
(** A binary grid predicted exactly scores one. *)
Theorem C137_perfect g v : OfmSpec.binary g -> OfmSpec.shows_something g -> compute_occupancy_auc g g = Ok v -> v = 1.
Proof. exact (perfect_one g v). Qed.
Print Assumptions C137_perfect.
(** The three averages over the waypoints are in the unit interval. *)
Theorem C137_metrics_range auc n cells t p w m : (forall t p, (forall x, In x p -> 0 <= x <= 1) -> compute_occupancy_auc t p = Ok (auc t p)) ->
  OfmSpec.has_waypoints n cells t -> OfmSpec.has_waypoints n cells p -> length w = n ->
  OfmModel.metrics_given auc n t p w = Ok m -> OfmSpec.all_probabilities p -> (forall g, In g w -> OfmSpec.probabilities g) ->
  0 <= OfmModel.vehicles_observed_auc m <= 1 /\ 0 <= OfmModel.vehicles_occluded_auc m <= 1 /\ 0 <= OfmModel.vehicles_flow_warped_occupancy_auc m <= 1.
Proof. exact (metrics_range auc n cells t p w m). Qed.
Print Assumptions C137_metrics_range.
(** They are one for an exact prediction, if there is a waypoint to score. *)
Theorem C137_metrics_perfect auc n cells t p w m : (forall t p, (forall x, In x p -> 0 <= x <= 1) -> compute_occupancy_auc t p = Ok (auc t p)) ->
  OfmSpec.has_waypoints n cells t -> OfmSpec.has_waypoints n cells p -> length w = n ->
  OfmModel.metrics_given auc n t p w = Ok m -> OfmSpec.all_binary t ->
  OfmModel.observed p = OfmModel.observed t -> OfmModel.occluded p = OfmModel.occluded t ->
  ((0 < OfmModel.num_waypoints_with_observed_occupancy m)%nat -> OfmModel.vehicles_observed_auc m = 1) /\
  ((0 < OfmModel.num_waypoints_with_occluded_occupancy m)%nat -> OfmModel.vehicles_occluded_auc m = 1).
Proof. exact (metrics_perfect auc n cells t p w m). Qed.
Print Assumptions C137_metrics_perfect.

Example C137_nonvacuous : compute_occupancy_auc [0; 1] [1; 1 / 2] = Ok (1 - ln 2) /\ compute_occupancy_auc [1; 1 / 4] [2; 0] = Err ValueError.
Proof. split; [exact swapped_value|]. apply (auc_accepted [1; 1 / 4] [2; 0]). exists 2. split; [now left|]. right. exact (IZR_lt 1 2 eq_refl). Qed.
Example C137_nonvacuous_scores : forall t p, (forall x, In x p -> 0 <= x <= 1) -> compute_occupancy_auc t p = Ok (auc_value (combine t p)).
Proof. exact scores_exist. Qed.
Example C137_nonvacuous_waypoints : OfmSpec.has_waypoints 2 1 OfmWitness.waits /\ OfmSpec.all_binary OfmWitness.waits /\ OfmSpec.all_probabilities OfmWitness.waits.
Proof. exact (OfmWitness.one_cell OfmWitness.waits (or_introl eq_refl)). Qed.
