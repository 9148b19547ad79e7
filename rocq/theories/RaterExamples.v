(** Concrete rated trajectories. *)
From Coq Require Import Qminmax Qabs Lqa.
From Verif Require Import Base ResultLib RaterModel RaterSpec.
Open Scope list_scope.
Open Scope Q_scope.

(** The sum of the absolute values as the norm, one step of decay outside. *)
Definition simple : numerics :=
  {| norm := fun d => Qabs (fst d) + Qabs (snd d); power := fun b x => if Qeq_bool x 0 then 1 else b |}.
Definition cfg1 : config :=
  {| lat_multiplier := 1; lng_multiplier := 4; decay_factor := 1 # 10; frequency := 1;
     length_seconds := 5; default_count := 3; minimum_outside := 4 |}.

Lemma simple_norm : norm_laws simple.
Proof.
  split; [|split].
  - intros d. cbn. pose proof (Qabs_nonneg (fst d)). pose proof (Qabs_nonneg (snd d)). lra.
  - cbn. discriminate.
  - intros d. cbn [norm simple fst snd]. rewrite (Qabs_wd (snd d * -1) (- snd d)) by ring.
    rewrite Qabs_opp. ring.
Qed.
Lemma simple_power : power_laws simple cfg1.
Proof.
  intros x H. cbn [power simple]. destruct (Qeq_bool x 0) eqn:E.
  - split; [split; discriminate|reflexivity].
  - apply Qeq_bool_neq in E. split; [split; discriminate|]. contradiction.
Qed.
Lemma simple_decreasing : decreasing simple cfg1.
Proof.
  intros x y H G. cbn [power simple]. destruct (Qeq_bool x 0) eqn:E, (Qeq_bool y 0) eqn:F; try discriminate.
  apply Qeq_bool_iff in F. apply Qeq_bool_neq in E. exfalso. apply E. lra.
Qed.
Lemma cfg1_positive : positive_multipliers cfg1.
Proof. split; reflexivity. Qed.

Definition straight : trajectory := [(2, 0); (4, 0); (6, 0); (8, 0); (10, 0)].
Definition turning : trajectory := [(2, 0); (4, 0); (6, 2); (6, 4); (6, 6)].
Definition stopped : trajectory := [(0, 0)].
Definition near : trajectory := [(2, 0); (4, 0); (6, 1 # 2); (8, 0); (11, 1)].
Definition far : trajectory := [(50, 50); (60, 60); (70, 70); (80, 80); (90, 90)].

Definition batch1 : list element :=
  [ {| e_raters := [straight; turning]; e_labels := [9; 6]; e_inferences := [near; far];
       e_probs := [3 # 4; 1 # 4]; e_speed := 20 |};
    {| e_raters := [stopped]; e_labels := [2]; e_inferences := [straight; turning];
       e_probs := [1 # 2; 1 # 2]; e_speed := 0 |} ].

Lemma batch1_accepted : accepted cfg1 5 batch1.
Proof.
  split; [discriminate|]. split; [discriminate|]. split; [reflexivity|]. split; [cbn; lia|].
  split; [discriminate|]. repeat constructor; cbn; try discriminate.
  - intros t [<-|[<-|[]]]; discriminate.
  - intros t [<-|[]]; discriminate.
Qed.
Lemma batch1_rectangular : rectangular 5 batch1.
Proof. intros e t [<-|[<-|[]]] [<-|[<-|[]]]; reflexivity. Qed.
Lemma batch1_value : exists a b, rater_feedback_score simple cfg1 5 batch1
  = Ok [([true; false], a); ([false; false], b)] /\ a == 31 # 4 /\ b == 4.
Proof. eexists. eexists. split; [vm_compute; reflexivity|]. split; reflexivity. Qed.

(** The reference itself, labelled below the floor, scores less than anything
    far away. *)
Lemma better_scores_lower : exists s s',
  inference_score simple cfg1 20 [(straight, 1)] straight = Ok (true, s)
  /\ inference_score simple cfg1 20 [(straight, 1)] far = Ok (false, s')
  /\ s == 1 /\ s' == 4.
Proof. eexists. eexists. split; [vm_compute; reflexivity|]. split; [vm_compute; reflexivity|]. split; reflexivity. Qed.
