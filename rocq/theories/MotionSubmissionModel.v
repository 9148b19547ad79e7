(** Model of the motion challenge submission conversion: metrics/motion_metrics_utils.cc 98-215
    (below /repo/src/waymo_open_dataset/) and protos/motion_submission.proto. *)
From Coq Require Import String.
From Verif Require Import Base ResultLib MotionModel.
Open Scope Z_scope.

(** Trajectory, ScoredTrajectory, SingleObjectPrediction (motion_submission.proto). *)
Record positions := { po_x : list Q; po_y : list Q }.
Record scored := { sd_traj : positions; sd_conf : Q }.
Record single := { sg_id : Z; sg_trajs : list scored }.
(** ObjectTrajectory, ScoredJointTrajectory. *)
Record obj_traj := { ob_id : Z; ob_traj : positions }.
Record scored_joint := { sj_trajs : list obj_traj; sj_conf : Q }.
(** ChallengeScenarioPredictions: the oneof prediction_set may be absent. *)
Inductive pred_set := SinglePreds (l : list single) | JointPred (l : list scored_joint) | NoPreds.
Record challenge := { ch_id : string; ch_set : pred_set }.
(** MotionChallengeSubmission.SubmissionType. *)
Inductive sub_type := SUnknown | SMotion | SInteraction.

(** The check and the copy loop of one trajectory (motion_metrics_utils.cc:156-163, 185-193). *)
Definition convert_traj (id : Z) (p : positions) : result traj :=
  if negb (Nat.eqb (List.length (po_x p)) (List.length (po_y p))) then Err ValueError else
  Ok {| tj_id := id; tj_x := po_x p; tj_y := po_y p |}.
(** ConvertSinglePredictions (137-167). *)
Definition convert_single (l : list single) : result (list mmp) :=
  mapM (fun o => mapM (fun s => do t <- convert_traj (sg_id o) (sd_traj s); Ok {| jt_conf := sd_conf s; jt_trajs := [t] |}) (sg_trajs o)) l.
(** ConvertJointPrediction (169-196). *)
Definition convert_joint (l : list scored_joint) : result mmp :=
  mapM (fun j => if negb (Nat.eqb (List.length (sj_trajs j)) 2) then Err ValueError else
                 do ts <- mapM (fun o => convert_traj (ob_id o) (ob_traj o)) (sj_trajs j);
                 Ok {| jt_conf := sj_conf j; jt_trajs := ts |}) l.
(** ConvertChallengePredictions (204-215), starting from an empty result. *)
Definition convert_challenge (c : challenge) : result preds :=
  match ch_set c with
  | SinglePreds l => do ms <- convert_single l; Ok {| pr_id := ch_id c; pr_mms := ms |}
  | JointPred l => do m <- convert_joint l; Ok {| pr_id := ch_id c; pr_mms := [m] |}
  | NoPreds => Err ValueError
  end.
(** ValidateChallengePredictions (98-133). *)
Definition validate_challenge (p : preds) (ty : sub_type) : result unit :=
  match ty with
  | SUnknown => Err ValueError
  | _ =>
      let inter := match ty with SInteraction => true | _ => false end in
      let n := if inter then 2%nat else 1%nat in
      if inter && Nat.ltb 1 (List.length (pr_mms p)) then Err ValueError else
      if forallb (forallb (fun j => Nat.eqb (List.length (jt_trajs j)) n)) (pr_mms p) then Ok tt else Err ValueError
  end.
(** GetChallengeConfig (motion_metrics.cc:1099-1129). *)
Definition challenge_config : mcfg :=
  {| tsps := 10; psps := 2; hist := 10; fut := 80; spd_lo := 14 # 10; spd_hi := 11; scl_lo := 1 # 2; scl_hi := 1;
     step_cfgs := [{| m_step := 5; lat_thr := 1; lon_thr := 2 |}; {| m_step := 9; lat_thr := 18 # 10; lon_thr := 36 # 10 |};
                   {| m_step := 15; lat_thr := 3; lon_thr := 6 |}];
     max_preds := 6 |}.
