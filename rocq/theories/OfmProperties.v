(** C84, C85: the scores of occupancy and flow, and the metrics of a scene. *)
From Coq Require Import Reals List Arith Lra Bool.
From Verif Require Import Base OfmModel OfmSpec.
From Verif Require OfmIou OfmEpe OfmMetrics OfmWitness.
Import ListNotations.
Open Scope R_scope.

(** The overlap of two grids lies in the unit interval and does not depend on their order. *)
Theorem C84_iou_range : forall t p, length t = length p -> t <> [] -> probabilities t -> probabilities p ->
  0 <= compute_occupancy_soft_iou t p <= 1.
Proof. exact OfmIou.iou_range. Qed.
Print Assumptions C84_iou_range.
Theorem C84_iou_symmetric : forall t p, length t = length p -> t <> [] ->
  compute_occupancy_soft_iou t p = compute_occupancy_soft_iou p t.
Proof. exact OfmIou.iou_symmetric. Qed.
Print Assumptions C84_iou_symmetric.
(** It is one exactly for equal binary grids that show something, and zero exactly for disjoint ones. *)
Theorem C84_iou_one : forall t p, length t = length p -> t <> [] -> probabilities t -> probabilities p ->
  compute_occupancy_soft_iou t p = 1 <-> t = p /\ binary t /\ shows_something t.
Proof. exact OfmIou.iou_one. Qed.
Print Assumptions C84_iou_one.
Theorem C84_iou_zero : forall t p, length t = length p -> t <> [] -> probabilities t -> probabilities p ->
  compute_occupancy_soft_iou t p = 0 <-> forall c, In c (combine t p) -> fst c = 0 \/ snd c = 0.
Proof. exact OfmIou.iou_zero. Qed.
Print Assumptions C84_iou_zero.
(** For binary grids it counts the cells in both and in either. *)
Theorem C84_iou_counts : forall t p, length t = length p -> binary t -> binary p -> shows_something t ->
  compute_occupancy_soft_iou t p =
  INR (length (filter (fun c => occupied_cell c && predicted_cell c) (combine t p))) /
  INR (length (filter (fun c => occupied_cell c || predicted_cell c) (combine t p))).
Proof. exact OfmIou.iou_counts. Qed.
Print Assumptions C84_iou_counts.
(** For a binary truth: what is predicted on occupied cells, over their number and what is predicted on free ones. *)
Theorem C84_iou_value : forall t p, length t = length p -> t <> [] -> probabilities t -> probabilities p -> binary t -> shows_something t ->
  0 < INR (length (occupied t p)) + total snd (free t p) /\
  compute_occupancy_soft_iou t p = total snd (occupied t p) / (INR (length (occupied t p)) + total snd (free t p)).
Proof. exact OfmIou.iou_binary. Qed.
Print Assumptions C84_iou_value.
(** So a prediction that is nowhere worse scores no less. *)
Theorem C84_iou_monotone : forall t p q, length t = length p -> length t = length q -> binary t -> probabilities p -> probabilities q ->
  no_worse t p q -> compute_occupancy_soft_iou t p <= compute_occupancy_soft_iou t q.
Proof. exact OfmIou.iou_monotone. Qed.
Print Assumptions C84_iou_monotone.
(** For a truth that is not binary, predicting it exactly can be worse than predicting full occupancy. *)
Theorem C84_iou_exact_refuted : exists g, probabilities g /\ shows_something g /\
  compute_occupancy_soft_iou g g < compute_occupancy_soft_iou g (map (fun _ => 1) g).
Proof. exact OfmIou.soft_refuted. Qed.
Print Assumptions C84_iou_exact_refuted.

(** The flow error is the mean distance over the cells that truly move, zero exactly if all of these are right. *)
Theorem C84_epe : forall t p, length t = length p ->
  compute_flow_epe t p = average (fun c => distance (fst c) (snd c)) (moving_cells t p).
Proof. exact OfmEpe.epe_value. Qed.
Print Assumptions C84_epe.
Theorem C84_epe_zero : forall t p, length t = length p ->
  compute_flow_epe t p = 0 <-> forall i, (i < length t)%nat -> nth i t (0, 0) <> (0, 0) -> nth i p (0, 0) = nth i t (0, 0).
Proof. exact OfmEpe.epe_zero. Qed.
Print Assumptions C84_epe_zero.
Theorem C84_epe_blind : forall t p q, length t = length p -> length t = length q ->
  (forall i, (i < length t)%nat -> nth i t (0, 0) <> (0, 0) -> nth i p (0, 0) = nth i q (0, 0)) ->
  compute_flow_epe t p = compute_flow_epe t q.
Proof. exact OfmEpe.epe_blind. Qed.
Print Assumptions C84_epe_blind.
(** It is not the average over all cells: flow predicted where nothing moves costs nothing, however large. *)
Theorem C84_epe_all_cells_refuted : forall d, 0 < d -> exists t p, length t = length p /\ compute_flow_epe t p = 0 /\
  average (fun c => distance (fst c) (snd c)) (combine t p) = d.
Proof. exact OfmEpe.epe_refuted. Qed.
Print Assumptions C84_epe_all_cells_refuted.

(** Given the warped grids, every metric averages its score over exactly the waypoints that count. *)
Theorem C85_averages : forall auc n cells t p w, has_waypoints n cells t -> has_waypoints n cells p -> length w = n ->
  exists m, metrics_given auc n t p w = Ok m /\ averages_scores t p w auc n m.
Proof. exact OfmMetrics.given_value. Qed.
Print Assumptions C85_averages.
(** They are in range. *)
Theorem C85_range : forall auc n cells t p w m, has_waypoints n cells t -> has_waypoints n cells p -> length w = n -> (0 < cells)%nat ->
  metrics_given auc n t p w = Ok m ->
  all_probabilities t -> all_probabilities p -> (forall g, In g w -> length g = cells /\ probabilities g) ->
  0 <= vehicles_observed_iou m <= 1 /\ 0 <= vehicles_occluded_iou m <= 1 /\ 0 <= vehicles_flow_warped_occupancy_iou m <= 1 /\ 0 <= vehicles_flow_epe m.
Proof. exact OfmMetrics.iou_in_range. Qed.
Print Assumptions C85_range.
(** A perfect prediction has full overlap and no flow error. *)
Theorem C85_perfect : forall auc n cells t p w m, has_waypoints n cells t -> has_waypoints n cells p -> length w = n -> (0 < cells)%nat ->
  metrics_given auc n t p w = Ok m ->
  all_binary t -> observed p = observed t -> occluded p = occluded t -> flows p = flows t ->
  ((0 < num_waypoints_with_observed_occupancy m)%nat -> vehicles_observed_iou m = 1) /\
  ((0 < num_waypoints_with_occluded_occupancy m)%nat -> vehicles_occluded_iou m = 1) /\ vehicles_flow_epe m = 0.
Proof. exact OfmMetrics.perfect. Qed.
Print Assumptions C85_perfect.
(** But the function never returns metrics when there is a waypoint to score. *)
Theorem C85_available_refuted : forall auc n t p, (0 < n)%nat ->
  compute_occupancy_flow_metrics auc n t p = Err (if Nat.eqb (length (flow_origin t)) 0 || Nat.eqb (length (flows p)) 0 then IndexError else RuntimeError).
Proof. exact OfmMetrics.metrics_fail. Qed.
Print Assumptions C85_available_refuted.
(** And waypoints without motion dilute the flow error. *)
Theorem C85_diluted_refuted : forall auc, exists t p w m,
  has_waypoints 2 1 t /\ has_waypoints 2 1 p /\ metrics_given auc 2 t p w = Ok m /\ vehicles_flow_epe m = 3 / 2 /\
  average (fun c => distance (fst c) (snd c)) (moving_cells (concat (flows t)) (concat (flows p))) = 3.
Proof.
  exact (fun auc => match OfmWitness.diluted auc with ex_intro _ m D => ex_intro _ OfmWitness.waits (ex_intro _ OfmWitness.guess (ex_intro _ _ (ex_intro _ m
    (conj (proj1 (OfmWitness.one_cell _ (or_introl eq_refl))) (conj (proj1 (OfmWitness.one_cell _ (or_intror eq_refl))) D))))) end).
Qed.
Print Assumptions C85_diluted_refuted.

Example C85_case : has_waypoints 2 1 OfmWitness.waits /\ all_binary OfmWitness.waits /\ all_probabilities OfmWitness.waits.
Proof. exact (OfmWitness.one_cell _ (or_introl eq_refl)). Qed.
Example C84_case : no_worse [1; 0] [1 / 2; 1 / 2] [1; 1 / 4] /\ binary [1; 0] /\ shows_something [1; 0].
Proof.
  split; [intros [|[|i]] H; cbn in *; [split; intros; lra|split; intros; lra|exfalso; apply (Nat.lt_irrefl 2), (Nat.le_lt_trans _ _ _ (le_n_S _ _ (le_n_S _ _ (Nat.le_0_l i))) H)]|].
  split; [intros x [<-|[<-|[]]]; auto|exists 1; split; [now left|lra]].
Qed.
