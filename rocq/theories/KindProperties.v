(** C143: the kinds of tracks, the matches, the boxes and the numbers the motion metrics report. *)
From Coq Require Import Sorting.Sorted.
From Verif Require Import Base ResultLib MotionModel MotionSpec MotionExamples MotionSubmissionModel KindSpec KindProofs.
Open Scope Z_scope.
(** The kind of a track, from its state at the current step and its last valid state. *)
Theorem C143_kind g p tr k : 0 <= p ->
  (classify_track g p tr = Ok (Some k) <-> exists s e, starts tr p s /\ st_valid s = true /\ ends tr p e /\ kind g s e k).
Proof. exact (kind_exact g p tr k). Qed.
Print Assumptions C143_kind.
(** Tracks without a kind. *)
Theorem C143_no_kind g p tr : 0 <= p -> (classify_track g p tr = Ok None <->
  (forall j q, p < Z.of_nat j -> nth_error (tr_states tr) j = Some q -> st_valid q = false) \/ (exists s, starts tr p s /\ st_valid s = false)).
Proof. exact (kind_none g p tr). Qed.
Print Assumptions C143_no_kind.
(** A prediction counts in the bucket of the most important kind among its tracks. *)
Theorem C143_prediction_kind g c ids ts kinds : 0 <= hist c ->
  answers (fun t => do tr <- get_track (tj_id t) ids; classify_track g (hist c) tr) ts kinds ->
  exists r, prediction_type g c ids ts = Ok r /\
    match r with
    | None => forall k, In k kinds -> k = None
    | Some k => exists a, counted_as a k /\ In (Some a) kinds /\ forall b, In (Some b) kinds -> at_most_as_important b a
    end.
Proof. exact (prediction_kind g c ids ts kinds). Qed.
Print Assumptions C143_prediction_kind.
(** A prediction matches if the errors of all its trajectories are within the thresholds. *)
Theorem C143_match g c ids sc j b : 0 < psps c -> 0 <= tsps c -> is_match g c ids sc j = Ok (Some b) ->
  (b = true -> forall t, In t (jt_trajs j) -> hits g c ids sc t True) /\
  (b = false -> (exists t, In t (jt_trajs j) /\ hits g c ids sc t False) /\ forall t, In t (jt_trajs j) -> hits g c ids sc t True \/ hits g c ids sc t False).
Proof. exact (match_value g c ids sc j b). Qed.
Print Assumptions C143_match.
(** It is not judged only if a logged object is not valid at the step. *)
Theorem C143_no_match g c ids sc j : 0 < psps c -> 0 <= tsps c -> is_match g c ids sc j = Ok None ->
  exists t tr s, In t (jt_trajs j) /\ get_track (tj_id t) ids = Ok tr /\
    nth_error (tr_states tr) (Z.to_nat ((m_step sc + 1) * (tsps c / psps c) + hist c)) = Some s /\ st_valid s = false.
Proof. exact (match_none g c ids sc j). Qed.
Print Assumptions C143_no_match.
(** The box of a predicted object: its position, the positions at the steps next to it, latest first, and the logged size. *)
Theorem C143_box c t i tr center pts size : 0 < psps c -> 0 <= tsps c -> prediction_box c t i tr = Ok (Some (center, pts, size)) ->
  positions t [i] [center] /\
  (exists steps, StronglySorted (fun a b => b < a) steps /\ (forall k, In k steps <-> 0 <= k < Z.of_nat (length (tj_x t)) /\ -1 <= k - i <= 1) /\ positions t steps pts) /\
  exists s, nth_error (tr_states tr) (Z.to_nat ((i + 1) * (tsps c / psps c) + hist c)) = Some s /\ size = (st_len s, st_wid s).
Proof. exact (box_value c t i tr center pts size). Qed.
Print Assumptions C143_box.
(** What is reported for a single prediction. *)
Theorem C143_reported g c p s m sc bs : pr_mms p = [m] -> is_empty_mmp m = false -> step_cfgs c = [sc] -> motion_metrics g c [(p, Some s)] = Ok bs ->
  exists b ids ade fde miss over hard soft, bs = [b] /\ build_idmap s = Ok ids /\ b_step b = m_step sc /\
    min_displacement g c ids (m_step sc) false m = Ok ade /\ (b_ade b == acc_mean ade)%Q /\
    min_displacement g c ids (m_step sc) true m = Ok fde /\ (b_fde b == acc_mean fde)%Q /\
    miss_rate g c ids sc m = Ok miss /\ (b_miss b == acc_mean miss)%Q /\
    overlap_rate g c ids s (m_step sc) m = Ok over /\ (b_overlap b == acc_mean over)%Q /\
    map_stats g c ids sc false m = Ok hard /\ (b_map b == map_metric hard)%Q /\
    map_stats g c ids sc true m = Ok soft /\ (b_soft b == map_metric soft)%Q.
Proof. exact (reported g c p s m sc bs). Qed.
Print Assumptions C143_reported.
(** The challenge measures after 3, 5 and 8 seconds, with at most six predictions. *)
Theorem C143_challenge : max_preds challenge_config = 6 /\ hist challenge_config = tsps challenge_config /\
  fut challenge_config = 8 * tsps challenge_config /\ tsps challenge_config = 10 /\ psps challenge_config = 2 /\
  Forall2 (fun (seconds : Z) sc => m_step sc + 1 = seconds * psps challenge_config) [3; 5; 8] (step_cfgs challenge_config) /\
  Forall2 (fun lat sc => (lat_thr sc == lat)%Q) [1; 18 # 10; 3]%Q (step_cfgs challenge_config) /\
  (forall sc, In sc (step_cfgs challenge_config) -> (lon_thr sc == 2 * lat_thr sc)%Q) /\
  (spd_lo challenge_config == 14 # 10)%Q /\ (spd_hi challenge_config == 11)%Q /\ (scl_lo challenge_config == 1 # 2)%Q /\ (scl_hi challenge_config == 1)%Q.
Proof. exact (challenge_numbers ). Qed.
Print Assumptions C143_challenge.

Example C143_nonvacuous_kind : classify_track ex_geom (hist (ex_cfg 1)) (ex_track 7) = Ok (Some 1) /\ kind ex_geom (ex_state 1) (ex_state 5) 1.
Proof. split; [reflexivity|]. apply Kind_straight; [intros (_ & _ & H); discriminate H|reflexivity|reflexivity]. Qed.
Example C143_nonvacuous_match : exists ids, build_idmap ex_scenario = Ok ids /\
  is_match ex_geom (ex_cfg 1) ids {| m_step := 1; lat_thr := 1; lon_thr := 1 |} (ex_joint 7 (1 # 4) (1 # 2)) = Ok (Some true) /\
  is_match ex_geom (ex_cfg 1) ids {| m_step := 1; lat_thr := 1; lon_thr := 1 |} (ex_joint 7 (1 # 4) 3) = Ok (Some false) /\
  (exists k, prediction_type ex_geom (ex_cfg 1) ids [ex_traj 7 0] = Ok (Some k)) /\
  exists b, prediction_box (ex_cfg 1) (ex_traj 7 0) 1 (ex_track 7) = Ok (Some b).
Proof. eexists. split; [reflexivity|]. split; [reflexivity|]. split; [reflexivity|]. split; eexists; reflexivity. Qed.
Example C143_nonvacuous_reported : exists b, motion_metrics ex_geom (ex_cfg 1) [(ex_preds, Some ex_scenario)] = Ok [b].
Proof. eexists. reflexivity. Qed.
