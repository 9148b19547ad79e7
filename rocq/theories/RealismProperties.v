(** C138: the realism scores of a scenario, from its features. *)
From Coq Require Import QArith Reals List.
From Verif Require Import Base ResultLib EstimatorModel EstimatorSpec MetametricModel RealismModel RealismSpec RealismScores RealismTotal RealismExample.
Import ListNotations.
(** The score of a time series is the geometric mean of the likelihoods over the scored objects and steps, NaN exactly without any. *)
Theorem C138_series gauss config ft nr no nt m : nr <> 0%nat -> no <> 0%nat -> (2 <= nt)%nat -> well_shaped nr no nt ft -> smooth_config config -> is_event m = false ->
  exists s, score gauss config ft m = Ok s /\ series_score gauss config ft nr no nt m s /\ (forall g, s = Some g -> (0 < g < 1)%R).
Proof. exact (series_spec gauss config ft nr no nt m). Qed.
Print Assumptions C138_series.
(** The score of an event is the geometric mean over all objects of the likelihood that it happens. *)
Theorem C138_events gauss config ft nr no nt m : nr <> 0%nat -> no <> 0%nat -> (2 <= nt)%nat -> well_shaped nr no nt ft -> smooth_config config -> is_event m = true ->
  exists g, score gauss config ft m = Ok (Some g) /\ event_score config ft nr no nt m (Some g) /\ (0 < g < 1)%R.
Proof. exact (event_spec gauss config ft nr no nt m). Qed.
Print Assumptions C138_events.
(** The realism score is their weighted sum, NaN exactly if no acceleration or no vehicle can be scored. *)
Theorem C138_total gauss config w ft nr no nt : nr <> 0%nat -> no <> 0%nat -> (2 <= nt)%nat -> well_shaped nr no nt ft -> smooth_config config ->
  exists s, metametric gauss config w ft = Ok s /\
    (s = None <-> ~ anything ft no nt LinearAcceleration \/ ~ anything ft no nt TimeToCollision) /\
    (forall x, s = Some x -> exists g, x = weighted_sum w g /\
       forall m, feature_score gauss config ft nr no nt m (Some (g m)) /\ (0 < g m < 1)%R).
Proof. exact (total_spec gauss config w ft nr no nt). Qed.
Print Assumptions C138_total.
(** The configurations of both challenges. *)
Theorem C138_published sg : published sg (challenge_config sg).
Proof. exact (challenge_published sg). Qed.
Print Assumptions C138_published.
(** Both are smoothed. *)
Theorem C138_challenge_smooth sg : smooth_config (challenge_config sg).
Proof. exact (challenge_smooth sg). Qed.
Print Assumptions C138_challenge_smooth.
(** For both challenges it is strictly between zero and one unless it is NaN. *)
Theorem C138_challenge sg gauss ft nr no nt : nr <> 0%nat -> no <> 0%nat -> (2 <= nt)%nat -> well_shaped nr no nt ft ->
  exists s, metametric gauss (challenge_config sg) challenge_weights ft = Ok s /\
    (s = None <-> ~ anything ft no nt LinearAcceleration \/ ~ anything ft no nt TimeToCollision) /\
    (forall x, s = Some x -> (0 < x < 1)%R).
Proof. exact (challenge_total sg gauss ft nr no nt). Qed.
Print Assumptions C138_challenge.
(** A scenario without vehicles has no score. *)
Theorem C138_no_vehicle sg gauss ft nr no nt : nr <> 0%nat -> no <> 0%nat -> (2 <= nt)%nat -> well_shaped nr no nt ft -> (forall o, (o < no)%nat -> vehicle ft o = false) ->
  metametric gauss (challenge_config sg) challenge_weights ft = Ok None.
Proof. exact (no_vehicle sg gauss ft nr no nt). Qed.
Print Assumptions C138_no_vehicle.
(** Neither has one shorter than five steps. *)
Theorem C138_short sg gauss ft nr no nt : nr <> 0%nat -> no <> 0%nat -> (2 <= nt <= 4)%nat -> well_shaped nr no nt ft ->
  metametric gauss (challenge_config sg) challenge_weights ft = Ok None.
Proof. exact (short_log sg gauss ft nr no nt). Qed.
Print Assumptions C138_short.
(** So valid objects are not enough to have a score. *)
Theorem C138_valid_enough_refuted gauss sg : exists ft nr no nt,
  well_shaped nr no nt ft /\ nr <> 0%nat /\ no <> 0%nat /\ (2 <= nt)%nat /\
  anything ft no nt LinearAcceleration /\ anything ft no nt DistanceToNearestObject /\
  metametric gauss (challenge_config sg) challenge_weights ft = Ok None.
Proof. exact (valid_enough_refuted gauss sg). Qed.
Print Assumptions C138_valid_enough_refuted.

Example C138_nonvacuous : well_shaped 2 2 5 (demo [true; false]) /\ anything (demo [true; false]) 2 5 LinearAcceleration /\ anything (demo [true; false]) 2 5 TimeToCollision.
Proof. exact (conj (demo_shape [true; false] eq_refl) (demo_scored [true; false] eq_refl)). Qed.
Example C138_nonvacuous_value : forall gauss sg, exists x, metametric gauss (challenge_config sg) challenge_weights (demo [true; false]) = Ok (Some x) /\ (0 < x < 1)%R.
Proof. exact demo_value. Qed.
