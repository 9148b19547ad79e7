(** Concrete inputs for the non-vacuity examples of the motion metrics. *)
From Coq Require Import String.
From Verif Require Import Base MotionModel MotionSubmissionModel.
Open Scope Z_scope.

Definition ex_geom : geom :=
  {| g_hypot := fun x y => (Qabs x + Qabs y)%Q; g_rotate := fun _ p => p; g_norm := fun a => a; g_pi6 := 1 # 2;
     g_overlap := fun _ _ => false |}.
Definition ex_cfg (step : Z) : mcfg :=
  {| tsps := 2; psps := 1; hist := 1; fut := 4; spd_lo := 1; spd_hi := 2; scl_lo := 1; scl_hi := 1;
     step_cfgs := [{| m_step := step; lat_thr := 1; lon_thr := 1 |}]; max_preds := 6 |}.
Definition ex_state (x : Q) : state :=
  {| st_x := x; st_y := 0; st_heading := 0; st_vx := 1; st_vy := 0; st_len := 4; st_wid := 2; st_valid := true |}.
Definition ex_track (id : Z) : track :=
  {| tr_id := id; tr_type := 1; tr_states := [ex_state 0; ex_state 1; ex_state 2; ex_state 3; ex_state 4; ex_state 5] |}.
Definition short_track (id : Z) : track := {| tr_id := id; tr_type := 1; tr_states := [ex_state 0; ex_state 1] |}.
Definition ex_scenario : scenario := {| sc_id := "s"; sc_tracks := [ex_track 7; ex_track 8]; sc_predict := [0] |}.
Definition ex_scenario2 : scenario := {| sc_id := "t"; sc_tracks := [ex_track 7; ex_track 8]; sc_predict := [0; 1] |}.
Definition short_scenario : scenario := {| sc_id := "s"; sc_tracks := [ex_track 7; short_track 8]; sc_predict := [0] |}.
Definition ex_traj (id : Z) (dy : Q) : traj := {| tj_id := id; tj_x := [3; 5]%Q; tj_y := [dy; dy] |}.
Definition ex_joint (id : Z) (conf dy : Q) : joint := {| jt_conf := conf; jt_trajs := [ex_traj id dy] |}.
Definition ex_mmp (id : Z) : mmp := [ex_joint id (1 # 2) 3; ex_joint id (1 # 4) (1 # 2); ex_joint id (1 # 5) 0].
Definition ex_preds : preds := {| pr_id := "s"; pr_mms := [ex_mmp 7] |}.
Definition ex_preds2 : preds := {| pr_id := "t"; pr_mms := [ex_mmp 7; ex_mmp 8] |}.
(** An object without trajectories in front. *)
Definition cut_challenge : challenge :=
  {| ch_id := "s"; ch_set := SinglePreds
       [{| sg_id := 99; sg_trajs := [] |};
        {| sg_id := 7; sg_trajs := [{| sd_traj := {| po_x := [3; 5]%Q; po_y := [0; 0]%Q |}; sd_conf := 1 |}] |}] |}.
Definition ex_challenge : challenge :=
  {| ch_id := "s"; ch_set := SinglePreds
       [{| sg_id := 7; sg_trajs := [{| sd_traj := {| po_x := [3; 5]%Q; po_y := [0; 0]%Q |}; sd_conf := 1 |}] |}] |}.
