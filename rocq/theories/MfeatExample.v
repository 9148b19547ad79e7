(** A scene with two agents, one of them evaluated, simulated one metre from its log. *)
From Coq Require Import Reals Permutation Lra.
From Verif Require Import Base ResultLib ListLib MonadLib SimModel SimSpec SimProofs GeomModel TtcModel RoadModel.
From Verif Require Import MfeatModel MfeatSpec MfeatCore MfeatProofs MfeatRows MfeatInter MfeatScene MfeatRollouts.
Open Scope list_scope.
Open Scope R_scope.

Definition ex_state (x : R) : state R := State x 0 0 0 4 2 1 true.
Definition ex_track (id : Z) (x : R) : track R := Track id 1 (repeat (ex_state x) 91).
Definition ex_scenario : full_scenario unit :=
  FullScenario (Scenario [ex_track 7 0; ex_track 3 10] 0%Z []) [OtherFeature; RoadEdge [P3 0 5 0; P3 1 5 0]] [].
Definition ex_sim (id : Z) (x : R) : sim_trajectory R :=
  SimTrajectory (repeat x 80) (repeat 0 80) (repeat 0 80) (repeat 0 80) [] [] [] [] id 1.
Definition ex_scene : list (sim_trajectory R) := [ex_sim 3 10; ex_sim 7 1].
Definition ex_extractors : extractors unit :=
  Extractors (fun _ _ _ _ => Ok (Kinematics [] [] [] [])) (fun _ _ _ _ _ => Ok []) (fun l => l).

Lemma ex_ids id : required (agents ex_scenario) id <-> id = 7%Z \/ id = 3%Z.
Proof.
  split.
  - intros (t & s & Ht & Et & _). cbn [agents ex_scenario tracks In] in Ht. destruct Ht as [<-|[<-|[]]]; cbn [ex_track track_id] in Et; auto.
  - intros [->| ->]; [exists (ex_track 7 0), (ex_state 0)|exists (ex_track 3 10), (ex_state 10)]; (split; [cbn; auto|]); repeat split.
Qed.
Lemma ex_scorable : scorable (agents ex_scenario) ex_scene.
Proof.
  unfold scorable, scorable_for. split; [|split; [|split; [|split; [|split]]]].
  - split; [|lia]. split; [discriminate|]. split; [lia|]. intros t Ht. cbn [agents ex_scenario tracks In] in Ht. destruct Ht as [<-|[<-|[]]]; apply repeat_length.
  - split.
    + intros s Hs. cbn [ex_scene In] in Hs. destruct Hs as [<-|[<-|[]]]; repeat split; apply repeat_length.
    + intros id. rewrite ex_ids. cbn [ex_scene map ex_sim sim_id In]. intuition congruence.
  - cbn [ex_scene map ex_sim sim_id]. repeat constructor; cbn [In]; intuition discriminate.
  - intros id Hid. apply ex_ids in Hid. cbn [agents ex_scenario tracks map ex_track track_id]. destruct Hid as [->| ->].
    + exists 0%nat. split; [reflexivity|]. intros [|[|[|j]]] Hj; cbn in Hj; congruence.
    + exists 1%nat. split; [reflexivity|]. intros [|[|[|j]]] Hj; cbn in Hj; congruence.
  - intros i [->|[]]. exists (ex_track 7 0), 0%nat. split; [reflexivity|now left].
  - intros id (i & t & [->|[]] & (j & Hj & [E|(E & _)]) & <-); cbn [agents ex_scenario sdc_track_index] in E; [|lia].
    assert (j = 0%nat) as -> by lia. cbn in Hj. injection Hj as <-. apply ex_ids. now left.
Qed.
Lemma ex_listing : listing ex_extractors.
Proof. intros l. apply Permutation_refl. Qed.
Lemma ex_features b : exists f, compute_metric_features ex_extractors ex_scenario ex_scene SIM_AGENTS b = Ok f.
Proof.
  apply accepted; [apply ex_listing|apply ex_scorable| | |now left].
  - exists [P3 0 5 0; P3 1 5 0]. split; [right; now left|cbn; lia].
  - intros id o tr _ _. eexists. reflexivity.
Qed.

Lemma ex_total n : total_error (repeat 1 n) (repeat 0 n) (repeat 0 n) (repeat (ex_state 0) n) = INR n.
Proof.
  induction n as [|n IH]; [reflexivity|]. cbn [repeat total_error]. rewrite IH, S_INR. unfold distance_3d, ex_state. cbn [s_valid center_x center_y center_z].
  replace ((1 - 0) * (1 - 0) + (0 - 0) * (0 - 0) + (0 - 0) * (0 - 0)) with 1 by ring. rewrite sqrt_1. ring.
Qed.
Lemma ex_valid n x : number_valid (repeat (ex_state x) n) = n.
Proof. induction n as [|n IH]; [reflexivity|]. unfold number_valid in *. cbn [repeat filter ex_state s_valid length]. f_equal. exact IH. Qed.

Theorem mean_refuted : exists (X : extractors unit) sc js f id s tr,
  listing X /\ scorable (agents sc) js /\ compute_metric_features X sc js SIM_AGENTS false = Ok f /\
  nth_error (f_object_id f) 0 = Some id /\ In s js /\ sim_id s = id /\ In tr (tracks (agents sc)) /\ track_id tr = id /\
  agent_entry (f_ade f) 0 (Some (80 / 91)) /\
  total_error (sim_x s) (sim_y s) (sim_z s) (skipn 11 (states tr)) / INR (number_valid (skipn 11 (states tr))) = 1.
Proof.
  destruct (ex_features false) as (f & E). exists ex_extractors, ex_scenario, ex_scene, f, 7%Z, (ex_sim 7 1), (ex_track 7 0).
  split; [apply ex_listing|]. split; [apply ex_scorable|]. split; [exact E|].
  destruct (ids_listed _ _ _ _ _ ex_scorable ex_listing E) as (Hinc & Hin & _).
  assert (nth_error (f_object_id f) 0 = Some 7%Z) as E0.
  { assert (evaluated_agent (agents ex_scenario) 7) as He by (exists 0%Z, (ex_track 7 0); repeat split; [now left|exists 0%nat; split; [reflexivity|now left]]).
    apply Hin in He. destruct (f_object_id f) as [|a l]; [destruct He|]. cbn [nth_error]. f_equal.
    destruct (proj1 (Hin a) (or_introl eq_refl)) as (i & t & [->|[]] & (j & Hj & [Q|(Q & _)]) & <-); cbn [agents ex_scenario sdc_track_index] in Q; [|lia].
    assert (j = 0%nat) as -> by lia. cbn in Hj. injection Hj as <-. reflexivity. }
  assert (In (ex_sim 7 1) ex_scene) as Hs by (right; now left). assert (In (ex_track 7 0) (tracks (agents ex_scenario))) as Ht by now left.
  split; [exact E0|]. split; [exact Hs|]. split; [reflexivity|]. split; [exact Ht|]. split; [reflexivity|].
  assert (skipn 11 (states (ex_track 7 0)) = repeat (ex_state 0) 80) as Es by reflexivity.
  assert (firstn 11 (states (ex_track 7 0)) = repeat (ex_state 0) 11) as Ef by reflexivity.
  split.
  - destruct (displacement_rows _ _ _ _ _ ex_scorable ex_listing E 0%nat 7%Z (ex_sim 7 1) (ex_track 7 0) E0 Hs eq_refl Ht eq_refl) as (_ & Q).
    rewrite Es, Ef, !ex_valid in Q. cbn [ex_sim sim_x sim_y sim_z] in Q. rewrite ex_total in Q.
    replace (INR 80) with 80 in Q by (rewrite INR_IZR_INZ; reflexivity). replace (INR (11 + 80)) with 91 in Q by (rewrite INR_IZR_INZ; reflexivity). exact Q.
  - rewrite Es, ex_valid. cbn [ex_sim sim_x sim_y sim_z]. rewrite ex_total. apply Rinv_r. apply not_0_INR. discriminate.
Qed.

Lemma ex_loggable : loggable (agents ex_scenario).
Proof. destruct ex_scorable as ((Hu & _) & _ & _ & Ho & _). split; [exact Hu|]. split; [exists 7%Z; apply ex_ids; now left|exact Ho]. Qed.
Lemma ex_rollouts : exists p, compute_scenario_rollouts_features ex_extractors ex_scenario (Rollouts None [ex_scene; ex_scene]) SIM_AGENTS = Ok p.
Proof.
  apply rollouts_outcome; [apply ex_listing| |].
  - intros js Hj. cbn [joint_scenes In] in Hj. assert (js = ex_scene) as -> by (destruct Hj as [H|[H|[]]]; congruence). apply ex_scorable.
  - split; [discriminate|]. split; [apply ex_loggable|]. split.
    + apply accepted; [apply ex_listing| | | |now left].
      * pose proof ex_scorable as (H1 & _ & _ & H4 & H5 & H6). split; [exact H1|]. split; [apply logged_acceptable, ex_loggable|]. split; [|auto].
        cbn. repeat constructor; cbn [In]; intuition discriminate.
      * exists [P3 0 5 0; P3 1 5 0]. split; [right; now left|cbn; lia].
      * intros id o tr _ _. eexists. reflexivity.
    + intros js Hj. cbn [joint_scenes In] in Hj. assert (js = ex_scene) as -> by (destruct Hj as [H|[H|[]]]; congruence). apply ex_features.
Qed.
