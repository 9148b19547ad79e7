(** What the realism scores should be, independent of their computation. *)
From Coq Require Import QArith Reals Qreals List Bool.
From Verif Require Import Base EstimatorModel EstimatorSpec MetametricModel RealismModel.
Import ListNotations.

(** Features of [nr] rollouts of [no] objects over [nt] steps. *)
Definition sized {A} (no nt : nat) (l : list (list A)) : Prop := length l = no /\ forall row, In row l -> length row = nt.
Definition float_tensor (sh : list nat) (t : tensor) : Prop := t_dtype t = DFloat /\ t_shape t = sh /\ length (t_data t) = volume sh.
Definition well_shaped (nr no nt : nat) (ft : features) : Prop :=
  (forall m, is_event m = false -> float_tensor [no; nt] (log_values ft m) /\ float_tensor [nr; no; nt] (sim_values ft m)) /\
  (forall m, is_event m = true -> sized no nt (log_events ft m) /\ length (sim_events ft m) = nr /\ forall r, In r (sim_events ft m) -> sized no nt r) /\
  sized no nt (valid ft) /\ length (is_vehicle ft) = no.
(** Histograms of at least two bins and coins, with smoothing. *)
Definition smooth_config (config : metric -> feature_config) : Prop :=
  forall m, match estimator_of (config m) with
            | Histogram c => is_event m = false /\ (2 <= num_bins c)%nat /\ (min_val c < max_val c)%Q /\ (0 < smoothing c)%Q
            | Bernoulli a => is_event m = true /\ (0 < a)%Q
            | _ => False
            end.

(** The log is valid for an object at a step; what is scored there. *)
Definition valid_at (ft : features) (o t : nat) : bool := nth t (nth o (valid ft) []) false.
Definition vehicle (ft : features) (o : nat) : bool := nth o (is_vehicle ft) false.
Definition scored (ft : features) (m : metric) (o t : nat) : Prop :=
  match m with
  | LinearSpeed | AngularSpeed => (1 <= t)%nat /\ valid_at ft o (t - 1) = true /\ valid_at ft o (t + 1) = true
  | LinearAcceleration | AngularAcceleration =>
      (2 <= t)%nat /\ valid_at ft o (t - 2) = true /\ valid_at ft o t = true /\ valid_at ft o (t + 2) = true
  | TimeToCollision | TrafficLightViolation => vehicle ft o = true /\ valid_at ft o t = true
  | _ => valid_at ft o t = true
  end.
(** Something happens to an object at a step that counts. *)
Definition counts (ft : features) (m : metric) (o t : nat) : bool :=
  valid_at ft o t && match m with TrafficLightViolation => vehicle ft o | _ => true end.
Definition happened (ft : features) (m : metric) (events : list (list bool)) (nt o : nat) : bool :=
  existsb (fun t => counts ft m o t && nth t (nth o events []) false) (seq 0 nt).
Definition truth (b : bool) : Q := if b then 1%Q else 0%Q.
Definition log_happened (ft : features) (m : metric) (nt o : nat) : Q := truth (happened ft m (log_events ft m) nt o).
Definition sim_happened (ft : features) (m : metric) (nt r o : nat) : Q := truth (happened ft m (nth r (sim_events ft m) []) nt o).
(** The simulated outcomes a logged one is compared with. *)
Definition outcomes (f : feature_config) (ft : features) (m : metric) (nr no nt o : nat) : list Q :=
  flat_map (fun r => map (sim_happened ft m nt r) (if aggregate_objects f then seq 0 no else [o])) (seq 0 nr).

(** The number whose power is the product: the geometric mean. *)
Definition product (l : list R) : R := fold_right Rmult 1%R l.
Definition geometric_mean (l : list R) (g : R) : Prop := (0 < g)%R /\ (g ^ length l)%R = product l.
(** The score of a time series: over the scored objects and steps. *)
Definition series_score (gauss : Q -> Q) (config : metric -> feature_config) (ft : features) (nr no nt : nat) (m : metric) (s : option R) : Prop :=
  exists entries likelihoods,
    NoDup entries /\ (forall o t, In (o, t) entries <-> (o < no)%nat /\ (t < nt)%nat /\ scored ft m o t) /\
    Forall2 (fun ot q => (0 < q < 1)%Q /\ likelihood gauss (estimator_of (config m)) (population (config m) nr no nt (sim_values ft m) (fst ot) (snd ot))
                           (log_at nt (log_values ft m) (fst ot) (snd ot)) (Some q)) entries likelihoods /\
    match s with
    | None => entries = []
    | Some g => entries <> [] /\ geometric_mean (map Q2R likelihoods) g
    end.
(** The score of an event: over all objects. *)
Definition event_score (config : metric -> feature_config) (ft : features) (nr no nt : nat) (m : metric) (s : option R) : Prop :=
  exists a likelihoods g,
    estimator_of (config m) = Bernoulli a /\ s = Some g /\
    Forall2 (fun o q => (0 < q < 1)%Q /\ bernoulli_likelihood a (outcomes (config m) ft m nr no nt o) (log_happened ft m nt o) (Some q)) (seq 0 no) likelihoods /\
    geometric_mean (map Q2R likelihoods) g.
(** Some object can be scored. *)
Definition anything (ft : features) (no nt : nat) (m : metric) : Prop := exists o t, (o < no)%nat /\ (t < nt)%nat /\ scored ft m o t.
(** The score of any feature, and the weighted sum of the scores. *)
Definition feature_score (gauss : Q -> Q) (config : metric -> feature_config) (ft : features) (nr no nt : nat) (m : metric) (s : option R) : Prop :=
  if is_event m then event_score config ft nr no nt m s else series_score gauss config ft nr no nt m s.
Definition weighted_sum (w : metric -> Q) (g : metric -> R) : R := fold_right (fun m acc => (Q2R (w m) * g m + acc)%R) 0%R
  [LinearSpeed; LinearAcceleration; AngularSpeed; AngularAcceleration; DistanceToNearestObject; CollisionIndication; TimeToCollision;
   DistanceToRoadEdge; OffroadIndication; TrafficLightViolation].
(** The published configuration: a row per time series with its range and bins, smoothed by a tenth, pooled over the steps; coins
    smoothed by a thousandth for the events; objects pooled for the scenario generation challenge, except for traffic lights. *)
Definition published_series : list (metric * (Q * Q * nat)) :=
  [(LinearSpeed, (0, 25, 10%nat)); (LinearAcceleration, (-12, 12, 11%nat)); (AngularSpeed, (-628 # 1000, 628 # 1000, 11%nat));
   (AngularAcceleration, (-314 # 100, 314 # 100, 11%nat)); (DistanceToNearestObject, (-5, 40, 10%nat));
   (DistanceToRoadEdge, (-20, 40, 10%nat)); (TimeToCollision, (0, 5, 10%nat))]%Q.
Definition published_events : list metric := [CollisionIndication; OffroadIndication; TrafficLightViolation].
Definition published (scenario_gen : bool) (config : metric -> feature_config) : Prop :=
  (forall m lo hi n, In (m, (lo, hi, n)) published_series ->
     estimator_of (config m) = Histogram {| min_val := lo; max_val := hi; num_bins := n; smoothing := 1 # 10 |} /\ independent_timesteps (config m) = true) /\
  (forall m, In m published_events -> estimator_of (config m) = Bernoulli (1 # 1000) /\ independent_timesteps (config m) = false) /\
  (forall m, aggregate_objects (config m) = true <-> scenario_gen = true /\ m <> TrafficLightViolation).
