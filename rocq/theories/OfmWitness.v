From Coq Require Import Reals List Lra Lia Arith Bool.
From Verif Require Import Base ResultLib ListLib GeomModel GeomBase WayModel OfmModel OfmSpec OfmIou OfmEpe OfmMetrics.
Import ListNotations.
Open Scope R_scope.

(** One vehicle on one cell, which moves until the first waypoint and then waits. *)
Definition waits : vehicle_waypoints := {| observed := [[1]; [1]]; occluded := [[0]; [0]]; flows := [[(3, 0)]; [(0, 0)]]; flow_origin := [[1]; [1]] |}.
Definition guess : vehicle_waypoints := {| observed := [[1]; [1]]; occluded := [[0]; [0]]; flows := [[(0, 0)]; [(0, 0)]]; flow_origin := [[1]; [1]] |}.
Lemma one_cell v : (v = waits \/ v = guess) -> has_waypoints 2 1 v /\ all_binary v /\ all_probabilities v.
Proof.
  intros [-> | ->]; (split; [|split]); unfold has_waypoints, all_binary, all_probabilities, binary, probabilities; cbn;
    repeat split; intros; repeat (destruct H as [<-|H]; [try reflexivity|]); try destruct H; try (destruct H0 as [<-|[]]; first [now left|now right|lra]).
Qed.
Lemma waits_epe : compute_flow_epe [(3, 0)] [(0, 0)] = 3.
Proof.
  rewrite epe_value by reflexivity. unfold moving_cells. cbn [combine filter fst]. unfold moves. cbn [fst snd].
  destruct (Req_EM_T 3 0); [lra|]. cbn. unfold distance. cbn [fst snd]. match goal with |- (sqrt ?x + 0) / 1 = _ => replace x with (3 * 3) by ring end. rewrite sqrt_square by lra. lra.
Qed.
Lemma diluted auc : exists m, metrics_given auc 2 waits guess [[1]; [1]] = Ok m /\ vehicles_flow_epe m = 3 / 2 /\
  average (fun c => distance (fst c) (snd c)) (moving_cells (concat (flows waits)) (concat (flows guess))) = 3.
Proof.
  destruct (one_cell waits (or_introl eq_refl)) as [T _]. destruct (one_cell guess (or_intror eq_refl)) as [P _].
  exists (summary (reached auc waits guess [[1]; [1]] 2)). split; [unfold metrics_given; rewrite (run_reached auc 2 1 waits guess [[1]; [1]] T P eq_refl 2 (le_n 2)); reflexivity|]. split.
  - cbn [summary reached vehicles_flow_epe flow_epe].
    assert (H1 : has_occupancy [1] = true) by (apply has_iff; exists 1; split; [now left|lra]).
    cbn [seq filter]. unfold true_observed, true_hidden. cbn [nth observed waits before]. rewrite H1. cbn [andb orb map nth flows waits guess].
    rewrite waits_epe. replace (compute_flow_epe [(0, 0)] [(0, 0)]) with 0 by (symmetry; apply epe_zero; reflexivity). unfold mean. cbn. lra.
  - rewrite <- waits_epe. rewrite epe_value by reflexivity. unfold moving_cells. cbn [concat flows waits guess app combine filter fst]. unfold moves. cbn [fst snd].
    destruct (Req_EM_T 0 0); [reflexivity|lra].
Qed.
