(** A scenario of two rollouts, a vehicle and a pedestrian over five steps. *)
From Coq Require Import QArith Reals Lia.
From Verif Require Import Base EstimatorModel EstimatorSpec MetametricModel RealismModel RealismSpec RealismTotal.
Open Scope list_scope.

Definition demo (vehicles : list bool) : features :=
  {| log_values _ := {| t_dtype := DFloat; t_shape := [2; 5]%nat; t_data := map inject_Z [0; 1; 2; 3; 4; 5; 6; 7; 8; 9]%Z |};
     sim_values _ := {| t_dtype := DFloat; t_shape := [2; 2; 5]%nat; t_data := repeat (1 # 2) 20 |};
     log_events _ := [[false; true; false; false; false]; [false; false; false; false; false]];
     sim_events _ := [[[false; true; false; false; false]; [false; false; false; false; false]]; [[false; false; false; false; false]; [true; false; false; false; false]]];
     valid := [[true; true; true; true; true]; [false; true; true; true; true]]; is_vehicle := vehicles |}.

Lemma demo_shape v : length v = 2%nat -> well_shaped 2 2 5 (demo v).
Proof.
  intros L. assert (forall rows : list (list bool), length rows = 2%nat -> forallb (fun r => Nat.eqb (length r) 5) rows = true -> sized 2 5 rows) as Sz.
  { intros rows Lr F. split; [exact Lr|]. intros row H. apply (proj1 (forallb_forall _ _) F) in H. apply Nat.eqb_eq in H. exact H. }
  split; [intros m _; repeat split; reflexivity|]. split; [|split; [apply Sz; reflexivity|exact L]].
  intros m _. split; [apply Sz; reflexivity|]. split; [reflexivity|]. intros r [<-|[<-|[]]]; apply Sz; reflexivity.
Qed.

Lemma demo_scored v : hd false v = true -> anything (demo v) 2 5 LinearAcceleration /\ anything (demo v) 2 5 TimeToCollision.
Proof.
  intros H. split.
  - exists 0%nat, 2%nat. repeat split; lia || reflexivity.
  - exists 0%nat, 0%nat. split; [lia|]. split; [lia|]. split; [|reflexivity]. destruct v; exact H.
Qed.

Lemma demo_value gauss sg : exists x, metametric gauss (challenge_config sg) challenge_weights (demo [true; false]) = Ok (Some x) /\ (0 < x < 1)%R.
Proof.
  destruct (challenge_total sg gauss (demo [true; false]) 2 2 5 ltac:(discriminate) ltac:(discriminate) ltac:(lia) (demo_shape [true; false] eq_refl)) as (s & E & N & B).
  destruct (demo_scored [true; false] eq_refl) as [A V]. destruct s as [x|]; [exists x; split; [exact E|exact (B x eq_refl)]|].
  destruct (proj1 N eq_refl); contradiction.
Qed.

(** The same scenario with pedestrians only has none: having valid objects is not enough. *)
Lemma demo_none gauss sg : metametric gauss (challenge_config sg) challenge_weights (demo [false; false]) = Ok None.
Proof.
  apply (no_vehicle sg gauss (demo [false; false]) 2 2 5); try discriminate; [lia|apply demo_shape; reflexivity|].
  intros [|[|o]] H; [reflexivity|reflexivity|lia].
Qed.

Lemma valid_enough_refuted gauss sg : exists ft nr no nt,
  well_shaped nr no nt ft /\ nr <> 0%nat /\ no <> 0%nat /\ (2 <= nt)%nat /\
  anything ft no nt LinearAcceleration /\ anything ft no nt DistanceToNearestObject /\
  metametric gauss (challenge_config sg) challenge_weights ft = Ok None.
Proof.
  exists (demo [false; false]), 2%nat, 2%nat, 5%nat. split; [apply demo_shape; reflexivity|]. repeat split; try discriminate; try lia; try apply demo_none.
  - exists 0%nat, 2%nat. repeat split; lia || reflexivity.
  - exists 0%nat, 0%nat. repeat split; lia || reflexivity.
Qed.
