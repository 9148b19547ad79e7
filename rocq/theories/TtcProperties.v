(** C68: the time to collision with the object in front. *)
From Coq Require Import Reals Lra List Bool Lia.
From Verif Require Import Base GeomModel GeomSpec GeomSceneSpec TtcModel TtcSpec TtcProofs TtcExamples.
Import ListNotations.
Open Scope R_scope.

(** A row for each evaluated object and a value for each step; ValueError below two steps. *)
Theorem C68_total : forall dt num_steps objects mask, length mask = length objects -> (2 <= num_steps)%nat ->
  (forall r, In r objects -> length r = num_steps) ->
  exists out, compute_time_to_collision dt num_steps objects mask = Ok out /\
    length out = count_occ bool_dec mask true /\ forall r, In r out -> length r = num_steps.
Proof. exact whole_ok. Qed.
Print Assumptions C68_total.
Theorem C68_short : forall dt num_steps objects mask, length mask = length objects -> (num_steps < 2)%nat ->
  compute_time_to_collision dt num_steps objects mask = Err ValueError.
Proof. exact short_error. Qed.
Print Assumptions C68_short.

(** Five seconds at the first and last step. *)
Theorem C68_ends : forall dt num_steps objects mask, length mask = length objects -> (2 <= num_steps)%nat ->
  (forall r, In r objects -> length r = num_steps) ->
  forall out, compute_time_to_collision dt num_steps objects mask = Ok out ->
  forall g t, nth_error mask g = Some true -> t = 0%nat \/ S t = num_steps -> entry out (row_of mask g) t = Some 5.
Proof. exact outer_steps. Qed.
Print Assumptions C68_ends.

(** In between: the time to close the distance to the nearest followed object at the present speeds, at most
    five seconds; five seconds if nothing is followed or the distance does not shrink. *)
Theorem C68_value : forall dt num_steps objects mask, length mask = length objects -> (2 <= num_steps)%nat ->
  (forall r, In r objects -> length r = num_steps) ->
  forall out, compute_time_to_collision dt num_steps objects mask = Ok out -> 1 / 10 <= dt -> bounded objects ->
  forall g u e ve, nth_error mask g = Some true -> (S (S u) < num_steps)%nat -> at_step objects g (S u) = Some (e, ve) -> 0 < bwidth e ->
  exists d, entry out (row_of mask g) (S u) = Some d /\
    (((forall g' d', ~ followed objects g (S u) g' d') /\ d = 5) \/
     exists g' d' v w, nearest_followed objects g (S u) g' d' /\ has_speed dt objects g (S u) v /\ has_speed dt objects g' (S u) w /\
       (w < v -> d = Rmin (d' / (v - w)) 5) /\ (v <= w -> d = 5)).
Proof. exact inner_all. Qed.
Print Assumptions C68_value.
(** No object follows itself. *)
Theorem C68_irreflexive : forall objects, bounded objects -> forall g t d, ~ followed objects g t g d.
Proof. exact not_itself. Qed.
Print Assumptions C68_irreflexive.

(** Headings are compared as numbers: the same scene gives two values. *)
Theorem C68_heading_refuted : exists dt n objects objects' mask out out',
  Forall2 (Forall2 same_placed) objects objects' /\
  compute_time_to_collision dt n objects mask = Ok out /\ compute_time_to_collision dt n objects' mask = Ok out' /\
  entry out 0 1 = Some (7 / 10) /\ entry out' 0 1 = Some 5.
Proof. exact heading_refuted. Qed.
Print Assumptions C68_heading_refuted.
(** Places of invalid steps count: scenes that agree wherever an object is valid give two values. *)
Theorem C68_invalid_refuted : exists dt n objects objects' mask out out',
  Forall2 (Forall2 same_when_valid) objects objects' /\ (exists b, valid_at objects 0 1 b) /\
  compute_time_to_collision dt n objects mask = Ok out /\ compute_time_to_collision dt n objects' mask = Ok out' /\
  entry out 0 1 = Some (7 / 10) /\ entry out' 0 1 = Some 5.
Proof. exact invalid_refuted. Qed.
Print Assumptions C68_invalid_refuted.

(** The hypotheses are met by a car driving towards a parked one. *)
Example C68_followed_example : follows (car 1 0) (car 12 0). Proof. exact car_followed. Qed.
Example C68_bounded_example : bounded (drive 1 0 0 0 true). Proof. exact drive_bounded. Qed.
