From Coq Require Import Reals List Arith Lra Lia Bool ZArith.
From Verif Require Import Base ResultLib ListLib WayModel OccModel OccSpec OccGeom OccRender OccCover.
Import ListNotations.
Open Scope R_scope.

(** An agent that moves one cell to the right in the last step. *)
Definition mover : agent := {| agent_type := 1; past := [dot_state 0 true]; current := [dot_state 0 true]; future := [dot_state 1 true] |}.
Definition mover_scene : scene := {| sdc_x := 0; sdc_y := 0; sdc_yaw := 0; agents := [mover] |}.
Lemma dot_falls x v z : x = IZR z -> falls_in small_config mover_scene (sample_of small_config (dot_state x v) 0 0) 1 (z + 1).
Proof.
  intro E. destruct (dot_marks x v z E) as (i & j & I & J & F). cbn in I, J. assert (i = 0)%nat by lia. assert (j = 0)%nat by lia. subst. exact F.
Qed.
Lemma mover_case :
  (sampled small_config /\ complete small_config [Past; Current; Future] mover_scene) /\ in_grid small_config 1 2 /\
  (exists k, contributes small_config mover_scene [Past; Current; Future] true true 1 1 1 2 1 k (-1, 0)%Z) /\
  (forall k e, contributes small_config mover_scene [Past; Current; Future] true true 1 1 1 2 1 k e -> e = (-1, 0)%Z).
Proof.
  split; [split; [split; cbn; lia|intros a [<-|[]]; reflexivity]|]. split; [unfold in_grid; cbn; lia|]. split.
  - exists {| of_agent := 0; at_i := 0; at_j := 0 |}. split; [cbn; lia|]. split; [cbn; lia|].
    exists mover, (dot_state 0 true), (dot_state 1 true). split; [reflexivity|]. split; [reflexivity|]. split; [intros _; tauto|].
    split; [reflexivity|]. split; [reflexivity|]. split; [reflexivity|]. split; [reflexivity|]. cbn [at_i at_j].
    split; [exact (dot_falls 1 true 1 eq_refl)|exact (dot_falls 0 true 0 eq_refl)].
  - intros k e (I & J & a & b & s & N & _ & _ & B & Sx & _ & _ & _ & F). cbn in I, J.
    destruct k as [n i j]. cbn [of_agent at_i at_j] in *. assert (i = 0)%nat by lia. assert (j = 0)%nat by lia. subst i j.
    destruct n as [|n]; [|destruct n; discriminate]. injection N as <-. injection B as <-.
    apply falls_code in F. pose proof (dot_falls 0 true 0 eq_refl) as F0. apply falls_code in F0. rewrite F in F0.
    destruct e as [u v]. cbn [fst snd] in F0. apply pair_equal_spec in F0. destruct F0 as [X Y]. apply pair_equal_spec. split; lia.
Qed.
