(** What padding, trust regions and scores should be.  Shared with the model:
    the numeric parameters, the configuration and the thresholds. *)
From Coq Require Import Qminmax Qabs.
From Verif Require Import Base RaterModel.
Open Scope list_scope.
Open Scope Q_scope.

(** ** Padding *)

(** [l'] has [n] elements: those of [l], the last one repeated. *)
Definition fitted {A} (n : nat) (l l' : list A) : Prop :=
  length l' = n
  /\ forall k, (k < n)%nat -> nth_error l' k = nth_error l (Nat.min k (length l - 1)).
Definition fitted_batch (steps count : nat) (b b' : list trajectory * list Q) : Prop :=
  fitted count (snd b) (snd b')
  /\ length (fst b') = count
  /\ forall k t', nth_error (fst b') k = Some t' ->
       exists t, nth_error (fst b) (Nat.min k (length (fst b) - 1)) = Some t /\ fitted steps t t'.
(** Batches that can be processed. *)
Definition fit_ok {A} (n : nat) (l : list A) : Prop := l <> [] \/ n = 0%nat.
Definition batch_ok (steps count : nat) (b : list trajectory * list Q) : Prop :=
  length (fst b) = length (snd b) /\ fit_ok count (fst b)
  /\ forall t, In t (firstn count (fst b)) -> fit_ok steps t.

(** ** Numbers *)

Definition norm_laws (nu : numerics) : Prop :=
  (forall d, 0 <= norm nu d) /\ ~ norm nu (1, 0) == 0
  /\ forall d, norm nu (snd d * -1, fst d) == norm nu d.
Definition power_laws (nu : numerics) (cfg : config) : Prop :=
  forall x, 0 <= x -> 0 <= power nu (decay_factor cfg) x <= 1
                      /\ (x == 0 -> power nu (decay_factor cfg) x == 1).
Definition decreasing (nu : numerics) (cfg : config) : Prop :=
  forall x y, 0 <= x -> x <= y -> power nu (decay_factor cfg) y <= power nu (decay_factor cfg) x.
Definition positive_multipliers (cfg : config) : Prop := 0 < lat_multiplier cfg /\ 0 < lng_multiplier cfg.

(** ** Trust regions *)

(** The direction of travel at a step: the last displacement that is not zero,
    or (1, 0). *)
Definition point (t : trajectory) (k : nat) : waypoint := nth k t (0, 0).
Fixpoint heading_at (nu : numerics) (t : trajectory) (k : nat) : waypoint :=
  match k with
  | O => let w := point t 0 in
         if Qeq_bool (norm nu (fst w - 0, snd w - 0)) 0 then (1, 0) else (fst w - 0, snd w - 0)
  | S j => let w := point t k in let u := point t j in
           if Qeq_bool (norm nu (fst w - fst u, snd w - snd u)) 0 then heading_at nu t j
           else (fst w - fst u, snd w - snd u)
  end.

(** Within the box around the rated waypoint, aligned with the direction. *)
Definition in_box (nu : numerics) (rater inference : trajectory) (k : nat) (lat lng : Q) : Prop :=
  let d := heading_at nu rater k in
  let vx := fst (point inference k) - fst (point rater k) in
  let vy := snd (point inference k) - snd (point rater k) in
  Qabs (fst d * vx + snd d * vy) <= lng * norm nu d
  /\ Qabs (fst d * vy - snd d * vx) <= lat * norm nu d.
Definition in_trust_region (nu : numerics) (cfg : config) (speed : Q) (rater inference : trajectory) : Prop :=
  in_box nu rater inference (3 * frequency cfg - 1)
    (fst (thresholds (lat_multiplier cfg) speed)) (fst (thresholds (lng_multiplier cfg) speed))
  /\ in_box nu rater inference (5 * frequency cfg - 1)
    (snd (thresholds (lat_multiplier cfg) speed)) (snd (thresholds (lng_multiplier cfg) speed)).

(** The trajectories are long enough. *)
Definition long_enough (cfg : config) (t : trajectory) : Prop :=
  (0 < frequency cfg)%nat /\ (5 * frequency cfg <= length t)%nat.

(** ** Scores *)

Definition same_results (a b : list (list bool * Q)) : Prop :=
  Forall2 (fun x y => fst x = fst y /\ snd x == snd y) a b.
Definition with_count (cfg : config) (c : nat) : config :=
  {| lat_multiplier := lat_multiplier cfg; lng_multiplier := lng_multiplier cfg;
     decay_factor := decay_factor cfg; frequency := frequency cfg;
     length_seconds := length_seconds cfg; default_count := c; minimum_outside := minimum_outside cfg |}.

(** The least factor by which the box must be grown to contain the waypoint. *)
Definition growth (nu : numerics) (rater inference : trajectory) (k : nat) (lat lng q : Q) : Prop :=
  forall c, q <= c <-> in_box nu rater inference k (c * lat) (c * lng).
Definition growth3 (nu : numerics) (cfg : config) (speed : Q) (rater inference : trajectory) (q : Q) : Prop :=
  growth nu rater inference (3 * frequency cfg - 1)
    (fst (thresholds (lat_multiplier cfg) speed)) (fst (thresholds (lng_multiplier cfg) speed)) q.
Definition growth5 (nu : numerics) (cfg : config) (speed : Q) (rater inference : trajectory) (q : Q) : Prop :=
  growth nu rater inference (5 * frequency cfg - 1)
    (snd (thresholds (lat_multiplier cfg) speed)) (snd (thresholds (lng_multiplier cfg) speed)) q.

(** The best label, each decayed with the growth needed beyond 1. *)
Definition best (nu : numerics) (cfg : config) (g : trajectory -> Q -> Prop)
    (raters : list (trajectory * Q)) (s : Q) : Prop :=
  (forall r, In r raters -> exists q, g (fst r) q
     /\ snd r * power nu (decay_factor cfg) (Qmax (q - 1) 0) <= s)
  /\ exists r q, In r raters /\ g (fst r) q /\ s = snd r * power nu (decay_factor cfg) (Qmax (q - 1) 0).
Definition score_of (nu : numerics) (cfg : config) (speed : Q) (raters : list (trajectory * Q))
    (inference : trajectory) (within : bool) (s : Q) : Prop :=
  (within = true <-> exists r, In r raters /\ in_trust_region nu cfg speed (fst r) inference)
  /\ exists a b,
       best nu cfg (fun r => growth3 nu cfg speed r inference) raters a
       /\ best nu cfg (fun r => growth5 nu cfg speed r inference) raters b
       /\ s = if within then (a + b) / 2 else Qmax (minimum_outside cfg) ((a + b) / 2).

(** The rated trajectories taken into account: the first [count], at full length. *)
Definition considered (cfg : config) (e : element) (raters : list (trajectory * Q)) : Prop :=
  forall t' l, In (t', l) raters <->
    exists t, In (t, l) (firstn (default_count cfg) (combine (e_raters e) (e_labels e)))
      /\ fitted (length_seconds cfg * frequency cfg) t t'.
Definition result_of (nu : numerics) (cfg : config) (e : element) (out : list bool * Q) : Prop :=
  exists raters scores, considered cfg e raters
    /\ length (fst out) = length (e_inferences e) /\ length scores = length (e_inferences e)
    /\ (forall k i w s, nth_error (e_inferences e) k = Some i -> nth_error (fst out) k = Some w ->
          nth_error scores k = Some s -> score_of nu cfg (e_speed e) raters i w s)
    /\ snd out = weighted_sum scores (e_probs e).

(** Inputs the whole function accepts. *)
Definition element_ok (cfg : config) (e : element) : Prop :=
  length (e_raters e) = length (e_labels e) /\ e_raters e <> []
  /\ forall t, In t (firstn (default_count cfg) (e_raters e)) -> t <> [].
Definition accepted (cfg : config) (steps : nat) (batch : list element) : Prop :=
  batch <> [] /\ default_count cfg <> 0%nat /\ steps = (length_seconds cfg * frequency cfg)%nat
  /\ (5 * frequency cfg <= steps)%nat /\ steps <> 0%nat /\ Forall (element_ok cfg) batch.
Definition rectangular (steps : nat) (batch : list element) : Prop :=
  forall e t, In e batch -> In t (e_inferences e) -> length t = steps.
