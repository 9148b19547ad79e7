(** C142: the baseline of the scenario generation tutorial. *)
From Coq Require Import Reals.
From Verif Require Import Base ResultLib SimModel SimSpec ExtrapModel ExtrapSpec SgenModel SgenSpec SgenProofs.
Open Scope list_scope.
Open Scope R_scope.
(** For which scenarios there are rollouts; the random numbers do not matter. *)
Theorem C142_exists init noise name sc : (exists r, generated init noise name sc = Ok r) <-> simulable sc.
Proof. exact (gen_exact init noise name sc). Qed.
Print Assumptions C142_exists.
(** They always pass the validation. *)
Theorem C142_accepted init noise name sc r : generated init noise name sc = Ok r -> validate_scenario_rollouts r sc SCENARIO_GEN = Ok tt.
Proof. exact (gen_valid init noise name sc r). Qed.
Print Assumptions C142_accepted.
(** All trajectories and boxes of all rollouts: they start near the first track of the scenario, or near the origin. *)
Theorem C142_value init noise name sc r : generated init noise name sc = Ok r ->
  rollouts_id r = Some name /\ length (joint_scenes r) = 32%nat /\
  forall i js, nth_error (joint_scenes r) i = Some js -> length js = length (agents sc) /\
  forall o t, nth_error (agents sc) o = Some t -> exists tr l w h, nth_error js o = Some tr /\ sim_id tr = track_id t /\
    sim_x tr = walk (first_track center_x sc 0 + qx (init i o)) (first_track center_x sc 1 - first_track center_x sc 0) (fun k => qx (noise i k o)) /\
    sim_y tr = walk (first_track center_y sc 0 + qy (init i o)) (first_track center_y sc 1 - first_track center_y sc 0) (fun k => qy (noise i k o)) /\
    sim_z tr = walk (first_track center_z sc 0 + qz (init i o)) (first_track center_z sc 1 - first_track center_z sc 0) (fun k => qz (noise i k o)) /\
    sim_heading tr = repeat (first_track s_heading sc 0 + qh (init i o)) 91 /\
    box_size (track_type t) (l, w, h) /\
    sim_length tr = repeat l (length (states t)) /\ sim_width tr = repeat w (length (states t)) /\ sim_height tr = repeat h (length (states t)).
Proof. exact (gen_value init noise name sc r). Qed.
Print Assumptions C142_value.
(** Nothing is used but the tasks and the history of the first track. *)
Theorem C142_private init noise name sc sc' r : same_input 0 sc sc' -> (generated init noise name sc = Ok r <-> generated init noise name sc' = Ok r).
Proof. exact (gen_private init noise name sc sc' r). Qed.
Print Assumptions C142_private.
(** If the vehicle of the log is not the first track, the result depends on what the challenge hides. *)
Theorem C142_private_refuted : exists sc sc' init noise name r r', sdc_track_index sc = 1%Z /\ sdc_track_index sc' = 1%Z /\ same_input 1 sc sc' /\
  generated init noise name sc = Ok r /\ generated init noise name sc' = Ok r' /\ r <> r'.
Proof. exact (private_refuted ). Qed.
Print Assumptions C142_private_refuted.
(** And agents are not generated around the vehicle of the log. *)
Theorem C142_around_refuted : exists sc adv s r js tr, nth_error (tracks sc) (Z.to_nat (sdc_track_index sc)) = Some adv /\ nth_error (states adv) 0 = Some s /\
  (forall s, In s (states adv) -> s_valid s = true) /\
  generated (fun _ _ => zero4) (fun _ _ _ => zero4) 7 sc = Ok r /\ nth_error (joint_scenes r) 0 = Some js /\ In tr js /\ sim_id tr = track_id adv /\
  nth_error (sim_x tr) 0 = Some (center_x s + 100).
Proof. exact (around_refuted ). Qed.
Print Assumptions C142_around_refuted.

(** What is written into the proto, for any states and sizes: rollout i and object j of both, and exactly if they are there. *)
Theorem C142_written name states sizes ids r : gen_rollouts name states sizes ids = Ok r <->
  rollouts_id r = Some name /\ length (joint_scenes r) = length states /\
  forall i, (i < length states)%nat -> exists scene s z, nth_error (joint_scenes r) i = Some scene /\ nth_error states i = Some s /\ nth_error sizes i = Some z /\
    length scene = length ids /\
    forall j, (j < length ids)%nat -> exists p d id, nth_error s j = Some p /\ nth_error z j = Some d /\ nth_error ids j = Some id /\
      nth_error scene j = Some (SimTrajectory (map qx p) (map qy p) (map qz p) (map qh p) (map bl d) (map bw d) (map bh d) [] id 0).
Proof. exact (written_exact name states sizes ids r). Qed.
Print Assumptions C142_written.
Example C142_nonvacuous x : simulable (other_first x).
Proof. exact (other_simulable x). Qed.
