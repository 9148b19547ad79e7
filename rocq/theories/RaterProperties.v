(** C43: rater feedback padding and scores. *)
From Coq Require Import Qminmax Qabs.
From Verif Require Import Base ResultLib RaterModel RaterSpec RaterPadProofs RaterScoreProofs RaterWholeProofs RaterExamples.
Open Scope list_scope.
Open Scope Q_scope.

(** When processing succeeds, and what it then returns. *)
Theorem C43_process_succeeds : forall ts ls steps count,
  (exists r, process ts ls steps count = Ok r)
  <-> length ts = length ls /\ Forall (batch_ok steps count) (combine ts ls).
Proof. exact process_succeeds. Qed.
Print Assumptions C43_process_succeeds.

Theorem C43_process_value : forall ts ls steps count r, process ts ls steps count = Ok r ->
  Forall2 (fitted_batch steps count) (combine ts ls) r.
Proof. exact process_value. Qed.
Print Assumptions C43_process_value.

Theorem C43_process_mismatch : forall ts ls steps count, length ts <> length ls ->
  process ts ls steps count = Err ValueError.
Proof. exact process_mismatch. Qed.
Print Assumptions C43_process_mismatch.

(** When the score is computed. *)
Theorem C43_score_succeeds : forall nu cfg steps batch,
  norm_laws nu -> positive_multipliers cfg -> rectangular steps batch ->
  ((exists r, rater_feedback_score nu cfg steps batch = Ok r) <-> accepted cfg steps batch).
Proof. exact whole_succeeds. Qed.
Print Assumptions C43_score_succeeds.

(** Its value: trust regions of the rated trajectories, best decayed labels,
    floor outside, weighted by the probabilities. *)
Theorem C43_score_value : forall nu cfg steps batch r,
  norm_laws nu -> positive_multipliers cfg -> rectangular steps batch ->
  rater_feedback_score nu cfg steps batch = Ok r -> Forall2 (result_of nu cfg) batch r.
Proof. exact whole_value. Qed.
Print Assumptions C43_score_value.

(** The number of slots the rated trajectories are padded to is irrelevant. *)
Theorem C43_padding_irrelevant : forall nu cfg c c' steps batch r,
  (c' <> 0)%nat -> Forall (fun e => (length (e_raters e) <= c)%nat /\ (length (e_raters e) <= c')%nat) batch ->
  rater_feedback_score nu (with_count cfg c) steps batch = Ok r ->
  exists r', rater_feedback_score nu (with_count cfg c') steps batch = Ok r' /\ same_results r r'.
Proof. exact count_irrelevant. Qed.
Print Assumptions C43_padding_irrelevant.

(** So are the order and repetitions of the rated trajectories. *)
Theorem C43_order_irrelevant : forall nu cfg speed raters raters' inference w s,
  inference_score nu cfg speed raters inference = Ok (w, s) ->
  (forall r, In r raters <-> In r raters') ->
  exists s', inference_score nu cfg speed raters' inference = Ok (w, s') /\ s' == s.
Proof. exact same_raters. Qed.
Print Assumptions C43_order_irrelevant.

(** In a trust region: at least the label of that region. *)
Theorem C43_region_label : forall nu cfg speed raters inference w s,
  inference_score nu cfg speed raters inference = Ok (w, s) -> power_laws nu cfg ->
  forall r, norm_laws nu -> positive_multipliers cfg ->
  (forall r, In r raters -> long_enough cfg (fst r)) -> long_enough cfg inference ->
  In r raters -> in_trust_region nu cfg speed (fst r) inference -> snd r <= s.
Proof. exact score_region. Qed.
Print Assumptions C43_region_label.

Theorem C43_score_bounds : forall nu cfg speed raters inference w s,
  inference_score nu cfg speed raters inference = Ok (w, s) -> power_laws nu cfg ->
  (forall r, In r raters -> 0 <= snd r) ->
  forall hi, (forall r, In r raters -> snd r <= hi) ->
  (w = true -> 0 <= s <= hi) /\ (w = false -> minimum_outside cfg <= s <= Qmax (minimum_outside cfg) hi).
Proof. exact score_bounds. Qed.
Print Assumptions C43_score_bounds.

Theorem C43_total_bounds : forall nu cfg speed raters inferences probs out hi,
  power_laws nu cfg -> 0 <= minimum_outside cfg ->
  element_score nu cfg raters inferences probs speed = Ok out ->
  length probs = length inferences -> (forall p, In p probs -> 0 <= p) -> fold_left Qplus probs 0 == 1 ->
  (forall r, In r raters -> 0 <= snd r <= hi) -> minimum_outside cfg <= hi ->
  0 <= snd out <= hi
  /\ (Forall (fun w => w = false) (fst out) -> minimum_outside cfg <= snd out).
Proof. exact total_bounds. Qed.
Print Assumptions C43_total_bounds.

(** The speed scale of the thresholds. *)
(** The half sizes of the box at full speed: the multiplier at 3 s, 1.8 times that at 5 s. *)
Theorem C43_thresholds : forall m v,
  fst (thresholds m v) == speed_scale v * m /\ snd (thresholds m v) == (18 # 10) * (speed_scale v * m).
Proof. exact thresholds_value. Qed.
Print Assumptions C43_thresholds.

Theorem C43_speed_scale_range : forall v, 1 # 2 <= speed_scale v <= 1.
Proof. exact speed_scale_range. Qed.
Print Assumptions C43_speed_scale_range.

Theorem C43_speed_scale_low : forall v, v <= 14 # 10 -> speed_scale v == 1 # 2.
Proof. exact speed_scale_low. Qed.
Print Assumptions C43_speed_scale_low.

Theorem C43_speed_scale_high : forall v, 11 <= v -> speed_scale v == 1.
Proof. exact speed_scale_high. Qed.
Print Assumptions C43_speed_scale_high.

Theorem C43_speed_scale_mono : forall v w, v <= w -> speed_scale v <= speed_scale w.
Proof. exact speed_scale_mono. Qed.
Print Assumptions C43_speed_scale_mono.

(** A better trajectory can score lower: the rated trajectory itself, when its
    label is below the floor, scores less than one outside every region. *)
Theorem C43_closer_scores_higher_refuted : exists nu cfg speed rater far s s',
  norm_laws nu /\ power_laws nu cfg /\ decreasing nu cfg /\ positive_multipliers cfg
  /\ inference_score nu cfg speed [rater] (fst rater) = Ok (true, s)
  /\ inference_score nu cfg speed [rater] far = Ok (false, s') /\ s < s'.
Proof.
  destruct better_scores_lower as (s & s' & E & E' & H & H').
  exists simple, cfg1, 20, (straight, 1), far, s, s'.
  split; [exact simple_norm|]. split; [exact simple_power|]. split; [exact simple_decreasing|].
  split; [exact cfg1_positive|]. split; [exact E|]. split; [exact E'|]. rewrite H, H'. reflexivity.
Qed.
Print Assumptions C43_closer_scores_higher_refuted.

(** The hypotheses hold for a concrete batch. *)
Example C43_accepted_example : accepted cfg1 5 batch1 /\ rectangular 5 batch1.
Proof. split; [exact batch1_accepted|exact batch1_rectangular]. Qed.
Example C43_value_example : exists a b, rater_feedback_score simple cfg1 5 batch1
  = Ok [([true; false], a); ([false; false], b)] /\ a == 31 # 4 /\ b == 4.
Proof. exact batch1_value. Qed.
Example C43_laws_example : norm_laws simple /\ power_laws simple cfg1 /\ positive_multipliers cfg1.
Proof. split; [exact simple_norm|]. split; [exact simple_power|exact cfg1_positive]. Qed.
