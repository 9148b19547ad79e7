(** C21: motion mAP. C22: one true positive, miss rate. C23: minimum displacement. C24: configuration.
    C25: predictions. C52: order of the scenarios. C53: empty predictions. C54: challenge submissions.
    C55: overlap rate. *)
From Coq Require Import Permutation Sorting.Sorted String.
From Verif Require Import Base MotionModel MotionApSpec MotionApProofs MotionSpec MotionProofs MotionStatsProofs MotionValidProofs
  MotionSubmissionModel MotionSubmissionSpec MotionSubmissionProofs MotionExamples.
Open Scope Z_scope.

(** ** C21 *)
Theorem C21_interpolated_area s n l : 0 < n -> ranked s l ->
  (bucket_map {| ps_samples := s; ps_num := n |} == interpolated_area n (map snd l))%Q.
Proof. exact (bucket_map_value s n l). Qed.
Print Assumptions C21_interpolated_area.
Theorem C21_ranking_exists s : exists l, ranked s l.
Proof. exact (ranked_exists s). Qed.
Print Assumptions C21_ranking_exists.
(** Also the mean over the ground truths of the best precision at which they are found. *)
Theorem C21_mean_over_truths s n l : 0 < n -> ranked s l -> found (map snd s) <= n ->
  (bucket_map {| ps_samples := s; ps_num := n |} == mean_over_truths n (map snd l))%Q.
Proof. exact (bucket_map_mean s n l). Qed.
Print Assumptions C21_mean_over_truths.
Theorem C21_unit_interval s n : 0 < n -> found (map snd s) <= n -> (0 <= bucket_map {| ps_samples := s; ps_num := n |} <= 1)%Q.
Proof. exact (bucket_map_unit s n). Qed.
Print Assumptions C21_unit_interval.
(** Independent of the order, ties included; ties are resolved against the predictor. *)
Theorem C21_order_independent s s' n : 0 < n -> Permutation s s' ->
  (bucket_map {| ps_samples := s; ps_num := n |} == bucket_map {| ps_samples := s'; ps_num := n |})%Q.
Proof. exact (bucket_map_perm s s' n). Qed.
Print Assumptions C21_order_independent.
Theorem C21_ties_pessimistic s n l : 0 < n -> found (map snd s) <= n -> by_confidence s l ->
  (bucket_map {| ps_samples := s; ps_num := n |} <= interpolated_area n (map snd l))%Q.
Proof. exact (bucket_map_pessimistic s n l). Qed.
Print Assumptions C21_ties_pessimistic.
(** The hypotheses hold for everything the library reports: all metrics of all reported bundles. *)
Theorem C21_all_reported_ranges g c l bs b : (forall x y, (0 <= g_hypot g x y)%Q) -> motion_metrics g c l = Ok bs -> In b bs ->
  (0 <= b_ade b)%Q /\ (0 <= b_fde b)%Q /\ (0 <= b_miss b <= 1)%Q /\ (0 <= b_overlap b <= 1)%Q /\
  (0 <= b_map b <= 1)%Q /\ (0 <= b_soft b <= 1)%Q.
Proof. exact (metrics_ranges g c l bs b). Qed.
Print Assumptions C21_all_reported_ranges.
Example C21_example : exists l, ranked [(1 # 2, false); (1 # 4, true); (1 # 2, true)]%Q l /\
  (bucket_map {| ps_samples := [(1 # 2, false); (1 # 4, true); (1 # 2, true)]%Q; ps_num := 3 |} == 4 # 9)%Q /\
  (interpolated_area 3 (map snd l) == 4 # 9)%Q.
Proof.
  exists [(1 # 2, false); (1 # 2, true); (1 # 4, true)]%Q. split; [|split; reflexivity]. split.
  - apply perm_skip, perm_swap.
  - repeat constructor; cbn; intuition discriminate.
Qed.

(** ** C22 *)
(** For one prediction set at one step, at most one bucket is used; it has exactly one true positive
    when one of the first K predictions matches and none otherwise, and it counts as one ground truth
    when at least one of them could be measured. *)
Theorem C22_one_true_positive g c ids sc soft m l : map_stats g c ids sc soft m = Ok l ->
  (forall b, In b l -> b = ps0) \/
  exists k b bs, nth_error l k = Some b /\ (forall k' b', k' <> k -> nth_error l k' = Some b' -> b' = ps0) /\
    answers (is_match g c ids sc) (firstn (Z.to_nat (max_preds c)) m) bs /\
    (In (Some true) bs -> found (map snd (ps_samples b)) = 1) /\ (~ In (Some true) bs -> found (map snd (ps_samples b)) = 0) /\
    ((exists v, In (Some v) bs) -> ps_num b = 1 /\ ps_samples b <> []) /\ (~ (exists v, In (Some v) bs) -> b = ps0).
Proof. exact (map_stats_one g c ids sc soft m l). Qed.
Print Assumptions C22_one_true_positive.
(** The order in which equally confident predictions are visited does not change the samples. *)
Theorem C22_tie_order soft l l' : Permutation l l' ->
  StronglySorted (fun a b => (jt_conf (fst b) <= jt_conf (fst a))%Q) l -> StronglySorted (fun a b => (jt_conf (fst b) <= jt_conf (fst a))%Q) l' ->
  same_samples (fst (sample_loop soft l false)) (fst (sample_loop soft l' false)).
Proof. exact (sample_loop_ties soft l l'). Qed.
Print Assumptions C22_tie_order.
Theorem C22_miss_rate g c ids sc m bs : answers (is_match g c ids sc) (first_predictions (max_preds c) m) bs ->
  exists a, miss_rate g c ids sc m = Ok a /\
   (one a 0 <-> In (Some true) bs) /\
   (one a 1 <-> ~ In (Some true) bs /\ In (Some false) bs) /\
   (nothing a <-> forall b, In b bs -> b = None).
Proof. exact (miss_rate_spec g c ids sc m bs). Qed.
Print Assumptions C22_miss_rate.
Theorem C22_more_predictions g c ids sc m K K' bs : 0 < K <= K' -> answers (is_match g c ids sc) (first_predictions K' m) bs ->
  exists a a', miss_rate g (with_max c K) ids sc m = Ok a /\ miss_rate g (with_max c K') ids sc m = Ok a' /\
    a_num a <= a_num a' /\ (a_num a = 1 -> (a_total a' <= a_total a)%Q).
Proof. exact (miss_rate_mono g c ids sc m K K' bs). Qed.
Print Assumptions C22_more_predictions.
Definition ex_step : step_cfg := {| m_step := 1; lat_thr := 1; lon_thr := 1 |}.
Example C22_example : exists ids, build_idmap ex_scenario = Ok ids /\
  answers (is_match ex_geom (ex_cfg 1) ids ex_step) (first_predictions 6 (ex_mmp 7)) [Some false; Some true; Some true] /\
  (exists l b, map_stats ex_geom (ex_cfg 1) ids ex_step false (ex_mmp 7) = Ok l /\ nth_error l 1 = Some b /\
     ps_num b = 1 /\ map snd (ps_samples b) = [false; true; false]) /\
  (exists a, miss_rate ex_geom (ex_cfg 1) ids ex_step (ex_mmp 7) = Ok a /\ one a 0) /\
  (exists a, miss_rate ex_geom (with_max (ex_cfg 1) 1) ids ex_step (ex_mmp 7) = Ok a /\ one a 1).
Proof.
  eexists. split; [vm_compute; reflexivity|]. split; [repeat constructor|]. split; [|split].
  - eexists _, _. split; [vm_compute; reflexivity|]. repeat split.
  - eexists. split; [vm_compute; reflexivity|]. split; reflexivity.
  - eexists. split; [vm_compute; reflexivity|]. split; reflexivity.
Qed.

(** ** C23 *)
Theorem C23_minimum g c ids n final m ds :
  answers (joint_displacement g c ids n final) (first_predictions (max_preds c) m) ds ->
  exists a, min_displacement g c ids n final m = Ok a /\
    ((nothing a /\ forall d, In d ds -> d = None) \/
     (exists v, one a v /\ In (Some v) ds /\ forall d, In (Some d) ds -> (v <= d)%Q)).
Proof. exact (min_displacement_spec g c ids n final m ds). Qed.
Print Assumptions C23_minimum.
Theorem C23_defined g c ids n final m a : min_displacement g c ids n final m = Ok a ->
  exists ds, answers (joint_displacement g c ids n final) (first_predictions (max_preds c) m) ds.
Proof. exact (min_displacement_defined g c ids n final m a). Qed.
Print Assumptions C23_defined.
(** Displacement of one trajectory: the mean error over its valid steps. *)
Theorem C23_average g c t tr n steps : 0 < psps c -> 0 <= tsps c -> 0 <= hist c -> 0 <= n -> paired c t tr n steps ->
  exists r, average_displacement g c t tr n = Ok r /\
    match r with None => errors g steps = [] | Some v => errors g steps <> [] /\ (v == mean (errors g steps))%Q end.
Proof. exact (average_displacement_mean g c t tr n steps). Qed.
Print Assumptions C23_average.
(** Displacement of a joint prediction: the mean over its trajectories, if all of them have one. *)
Theorem C23_joint g c ids n final j ds :
  answers (fun t => do tr <- get_track (tj_id t) ids; if final : bool then displacement_at g c t tr n else average_displacement g c t tr n) (jt_trajs j) ds ->
  exists r, joint_displacement g c ids n final j = Ok r /\
    match r with
    | None => ds = [] \/ In None ds
    | Some v => exists vs, ds = map Some vs /\ vs <> [] /\ (v == mean vs)%Q
    end.
Proof. exact (joint_displacement_spec g c ids n final j ds). Qed.
Print Assumptions C23_joint.
Theorem C23_more_predictions g c ids n final m K K' a a' : 0 < K <= K' ->
  min_displacement g (with_max c K) ids n final m = Ok a -> min_displacement g (with_max c K') ids n final m = Ok a' ->
  a_num a <= a_num a' /\ (a_num a = 1 -> (a_total a' <= a_total a)%Q).
Proof. exact (min_displacement_mono g c ids n final m K K' a a'). Qed.
Print Assumptions C23_more_predictions.
Example C23_example : exists ids, build_idmap ex_scenario = Ok ids /\
  (exists a, min_displacement ex_geom (with_max (ex_cfg 1) 1) ids 1 false (ex_mmp 7) = Ok a /\ one a 3) /\
  (exists a, min_displacement ex_geom (with_max (ex_cfg 1) 2) ids 1 false (ex_mmp 7) = Ok a /\ one a (1 # 2)) /\
  (exists a, min_displacement ex_geom (ex_cfg 1) ids 1 false (ex_mmp 7) = Ok a /\ one a 0) /\
  paired (ex_cfg 1) (ex_traj 7 3) (ex_track 7) 1 [(3, 3, ex_state 3); (5, 3, ex_state 5)]%Q.
Proof.
  eexists. split; [vm_compute; reflexivity|].
  split; [eexists; split; [vm_compute; reflexivity|split; reflexivity]|].
  split; [eexists; split; [vm_compute; reflexivity|split; reflexivity]|].
  split; [eexists; split; [vm_compute; reflexivity|split; reflexivity]|].
  split; [reflexivity|]. intros [|[|i]] H; [| |lia]; eexists _, _, _; repeat split.
Qed.

(** ** C24 *)
Theorem C24_accepted c :
  validate_config c = Ok tt <->
  psps c <= tsps c /\ psps c <> 0 /\ tsps c <> 0 /\ (psps c | tsps c) /\
  (forall sc, In sc (step_cfgs c) -> 0 <= m_step sc <= Z.quot (fut c * psps c) (tsps c)).
Proof. exact (validate_config_iff c). Qed.
Print Assumptions C24_accepted.
(** The validation itself divides by zero exactly here. *)
Theorem C24_validation_crash c :
  ~ no_crash (validate_config c) <-> (psps c = 0 /\ 0 <= tsps c) \/ (psps c < 0 /\ tsps c = 0).
Proof. exact (validate_config_crash c). Qed.
Print Assumptions C24_validation_crash.
(** With measurement steps below the number of prediction steps and complete tracks nothing crashes,
    whatever the predictions are: there is a result or a reported error. *)
Theorem C24_no_crash g c l : wf_cfg c -> (forall p s, In (p, Some s) l -> full_tracks c s) -> no_crash (motion_metrics g c l).
Proof. exact (motion_metrics_no_crash g c l). Qed.
Print Assumptions C24_no_crash.
(** An accepted configuration whose measurement step is the number of prediction steps reads past the
    end of the track. *)
Theorem C24_accepted_is_safe_refuted : exists g c p s,
  validate_config c = Ok tt /\ 0 < psps c /\ 0 < tsps c /\ full_tracks c s /\ valid_predictions 2 p s /\ compute_stats g c p s = Err IndexError.
Proof.
  exists ex_geom, (ex_cfg 2), ex_preds, ex_scenario. split; [reflexivity|]. split; [reflexivity|]. split; [reflexivity|].
  split; [intros t [<-|[<-|[]]]; reflexivity|]. split; [|vm_compute; reflexivity].
  now apply (validate_predictions_iff (ex_cfg 2)).
Qed.
Print Assumptions C24_accepted_is_safe_refuted.
(** Only the tracks to predict are checked for length; a short other track is read past its end. *)
Theorem C24_other_tracks_checked_refuted : exists g c p s,
  wf_cfg c /\ valid_predictions 2 p s /\ compute_stats g c p s = Err IndexError.
Proof.
  exists ex_geom, (ex_cfg 1), ex_preds, short_scenario. split; [|split; [|vm_compute; reflexivity]].
  - repeat split; try (cbn; lia); try (intros sc [<-|[]]; cbn; lia). exists 2. reflexivity.
    all: destruct H as [<-|[]]; cbn; lia.
  - now apply (validate_predictions_iff (ex_cfg 1)).
Qed.
Print Assumptions C24_other_tracks_checked_refuted.
(** The configuration of the challenge is well formed. *)
Example C24_challenge_config : wf_cfg challenge_config /\ validate_config challenge_config = Ok tt.
Proof.
  split; [|reflexivity]. repeat split; try (cbn; lia). exists 5. reflexivity.
  all: destruct H as [<-|[<-|[<-|[]]]]; cbn; lia.
Qed.
Example C24_example : exists bs, motion_metrics ex_geom (ex_cfg 1) [(ex_preds, Some ex_scenario); (ex_preds2, Some ex_scenario2)] = Ok bs /\ bs <> [].
Proof. eexists. split; [vm_compute; reflexivity|discriminate]. Qed.

(** ** C25 *)
Theorem C25_accepted c p s n : prediction_steps c = Ok n -> (validate_predictions c p s = Ok tt <-> valid_predictions n p s).
Proof. exact (validate_predictions_iff c p s n). Qed.
Print Assumptions C25_accepted.
Example C25_example : prediction_steps (ex_cfg 1) = Ok 2 /\ valid_predictions 2 ex_preds2 ex_scenario2 /\ ~ valid_predictions 2 ex_preds ex_scenario2.
Proof.
  split; [reflexivity|]. split; [now apply (validate_predictions_iff (ex_cfg 1))|].
  intros H. apply (validate_predictions_iff (ex_cfg 1)) in H; [discriminate|reflexivity].
Qed.
(** An object may be predicted twice: it is counted twice. *)
Theorem C25_no_repetition_refuted : exists c p p' s t t', compute_stats ex_geom c p s = Ok [t] /\
  compute_stats ex_geom c p' s = Ok [t'] /\ length (sc_predict s) = 1%nat /\
  a_num (ms_miss (snd t)) = 1 /\ a_num (ms_miss (snd t')) = 2.
Proof.
  exists (ex_cfg 1), ex_preds, {| pr_id := "s"; pr_mms := [ex_mmp 7; ex_mmp 7] |}, ex_scenario. eexists _, _.
  split; [vm_compute; reflexivity|]. split; [vm_compute; reflexivity|]. repeat split.
Qed.
Print Assumptions C25_no_repetition_refuted.

(** ** C52 *)
Theorem C52_order_independent g c l l' : Permutation l l' ->
  match motion_metrics g c l, motion_metrics g c l' with
  | Ok t, Ok t' => Forall2 same_metrics t t' | Err _, Err _ => True | _, _ => False end.
Proof. exact (motion_metrics_perm g c l l'). Qed.
Print Assumptions C52_order_independent.
Example C52_example : exists t t',
  motion_metrics ex_geom (ex_cfg 1) [(ex_preds, Some ex_scenario); (ex_preds2, Some ex_scenario2)] = Ok t /\
  motion_metrics ex_geom (ex_cfg 1) [(ex_preds2, Some ex_scenario2); (ex_preds, Some ex_scenario)] = Ok t' /\ length t = 1%nat /\ length t' = 1%nat.
Proof. eexists _, _. split; [vm_compute; reflexivity|]. split; [vm_compute; reflexivity|]. split; reflexivity. Qed.

(** ** C53 *)
Theorem C53_empty_cuts g c ids s ms e rest r : is_empty_mmp e = true ->
  all_metrics g c ids s (ms ++ e :: rest) r = all_metrics g c ids s ms r.
Proof. intros He. exact (all_metrics_cut g c ids s ms e rest He r). Qed.
Print Assumptions C53_empty_cuts.
(** A submission that converts and validates, covers every required object, and is not evaluated. *)
Theorem C53_all_evaluated_refuted : exists g c ch p s,
  wf_cfg c /\ full_tracks c s /\ convert_challenge ch = Ok p /\ validate_challenge p SMotion = Ok tt /\ valid_predictions 2 p s /\
  sc_predict s <> [] /\ compute_stats g c p s = Ok [].
Proof.
  exists ex_geom, (ex_cfg 1), cut_challenge. eexists. exists ex_scenario. split.
  { repeat split; try (cbn; lia); try (intros sc [<-|[]]; cbn; lia). exists 2. reflexivity. all: destruct H as [<-|[]]; cbn; lia. }
  split; [intros t [<-|[<-|[]]]; reflexivity|]. split; [vm_compute; reflexivity|]. split; [reflexivity|].
  split; [now apply (validate_predictions_iff (ex_cfg 1))|]. split; [discriminate|]. vm_compute. reflexivity.
Qed.
Print Assumptions C53_all_evaluated_refuted.

(** ** C54 *)
Theorem C54_conversion c p : convert_challenge c = Ok p <-> well_formed c /\ p = image c.
Proof. exact (convert_challenge_iff c p). Qed.
Print Assumptions C54_conversion.
Theorem C54_validation p ty : validate_challenge p ty = Ok tt <->
  (ty = SMotion /\ forall m j, In m (pr_mms p) -> In j m -> List.length (jt_trajs j) = 1%nat) \/
  (ty = SInteraction /\ (List.length (pr_mms p) <= 1)%nat /\ forall m j, In m (pr_mms p) -> In j m -> List.length (jt_trajs j) = 2%nat).
Proof. exact (validate_challenge_iff p ty). Qed.
Print Assumptions C54_validation.
Theorem C54_converted_valid c p : convert_challenge c = Ok p ->
  match ch_set c with
  | SinglePreds _ => validate_challenge p SMotion = Ok tt
  | JointPred _ => validate_challenge p SInteraction = Ok tt
  | NoPreds => False
  end.
Proof. exact (converted_valid c p). Qed.
Print Assumptions C54_converted_valid.
Example C54_example : exists p, convert_challenge ex_challenge = Ok p /\ validate_challenge p SMotion = Ok tt /\ validate_challenge p SInteraction <> Ok tt.
Proof. eexists. split; [vm_compute; reflexivity|]. split; [reflexivity|discriminate]. Qed.

(** ** C55 *)
(** The overlap rate judges a prediction of maximal confidence among the first K when the confidences
    add up to a positive number, and one of minimal confidence when the sum is negative. *)
Theorem C55_most_confident g c ids s n m a : 0 < max_preds c -> m <> [] -> ~ (qsum (map jt_conf m) == 0)%Q -> overlap_rate g c ids s n m = Ok a ->
  exists j trs o, In j (firstn (Z.to_nat (max_preds c)) m) /\ current_tracks c (sc_tracks s) = Ok trs /\
    overlap_trajs g c ids n trs (jt_trajs j) = Ok o /\ one a (if o then 1 else 0) /\
    ((0 < qsum (map jt_conf m))%Q -> forall j', In j' (firstn (Z.to_nat (max_preds c)) m) -> (jt_conf j' <= jt_conf j)%Q) /\
    ((qsum (map jt_conf m) < 0)%Q -> forall j', In j' (firstn (Z.to_nat (max_preds c)) m) -> (jt_conf j <= jt_conf j')%Q).
Proof. exact (overlap_judges g c ids s n m a). Qed.
Print Assumptions C55_most_confident.
Example C55_example : exists ids a, build_idmap ex_scenario = Ok ids /\ overlap_rate ex_geom (ex_cfg 1) ids ex_scenario 1 (ex_mmp 7) = Ok a /\
  (qsum (map jt_conf (ex_mmp 7)) == 19 # 20)%Q.
Proof. eexists _, _. split; [vm_compute; reflexivity|]. split; [vm_compute; reflexivity|reflexivity]. Qed.
