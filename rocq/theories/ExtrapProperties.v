(** C141: the baseline of the sim agents tutorial. *)
From Coq Require Import Reals.
From Verif Require Import Base ResultLib SimModel SimSpec ExtrapModel ExtrapSpec ExtrapProofs ExtrapDiffer.
Open Scope list_scope.
Open Scope R_scope.
(** For which scenarios the baseline gives rollouts; the noise does not matter. *)
Theorem C141_exists noise name sc : (exists r, tutorial_rollouts noise name sc = Ok r) <-> simulable sc.
Proof. exact (rollouts_exact noise name sc). Qed.
Print Assumptions C141_exists.
(** They always pass the validation. *)
Theorem C141_accepted noise name sc r : tutorial_rollouts noise name sc = Ok r -> validate_scenario_rollouts r sc SIM_AGENTS = Ok tt.
Proof. exact (rollouts_valid noise name sc r). Qed.
Print Assumptions C141_accepted.
(** All trajectories of all rollouts. *)
Theorem C141_value noise name sc r : tutorial_rollouts noise name sc = Ok r ->
  rollouts_id r = Some name /\ length (joint_scenes r) = 32%nat /\
  exists mx my mz, largest mx (map (displacement center_x) (agents sc)) /\ largest my (map (displacement center_y) (agents sc)) /\
    largest mz (map (displacement center_z) (agents sc)) /\
  forall i js, nth_error (joint_scenes r) i = Some js -> length js = length (agents sc) /\
  forall o t, nth_error (agents sc) o = Some t -> exists s tr, nth_error (states t) 10 = Some s /\ nth_error js o = Some tr /\
    sim_id tr = track_id t /\
    sim_x tr = drift (center_x s) (displacement center_x t) mx (fun k => qx (noise i k o)) /\
    sim_y tr = drift (center_y s) (displacement center_y t) my (fun k => qy (noise i k o)) /\
    sim_z tr = drift (center_z s) (displacement center_z t) mz (fun k => qz (noise i k o)) /\
    sim_heading tr = repeat (s_heading s) 80.
Proof. exact (rollouts_value noise name sc r). Qed.
Print Assumptions C141_value.
(** When the noise has no effect. *)
Theorem C141_same name sc : simulable sc ->
  ((forall noise r js js', tutorial_rollouts noise name sc = Ok r -> In js (joint_scenes r) -> In js' (joint_scenes r) -> js = js') <->
   largest 0 (map (displacement center_x) (agents sc)) /\ largest 0 (map (displacement center_y) (agents sc)) /\
   largest 0 (map (displacement center_z) (agents sc))).
Proof. exact (rollouts_same name sc). Qed.
Print Assumptions C141_same.
(** The noise does not make the rollouts of every moving agent differ. *)
Theorem C141_noise_refuted : exists sc t, simulable sc /\ In t (agents sc) /\ displacement center_x t <> 0 /\
  forall noise name r js js', tutorial_rollouts noise name sc = Ok r -> In js (joint_scenes r) -> In js' (joint_scenes r) -> js = js'.
Proof. exact (noise_refuted ). Qed.
Print Assumptions C141_noise_refuted.

Example C141_nonvacuous : exists r js tr, tutorial_rollouts (fun _ _ _ => zero4) 7 (street 1) = Ok r /\ nth_error (joint_scenes r) 31 = Some js /\
  nth_error js 0 = Some tr /\ nth_error (sim_x tr) 79 = Some 90 /\ validate_scenario_rollouts r (street 1) SIM_AGENTS = Ok tt.
Proof. exact street_drive. Qed.
Example C141_nonvacuous_differ : simulable (street 1) /\ ~ largest 0 (map (displacement center_x) (agents (street 1))).
Proof. exact street_differs. Qed.
