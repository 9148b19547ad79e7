(** What the metrics of the occupancy flow task should be, independent of their computation. *)
From Coq Require Import Reals List Lra Lia Arith Bool.
From Verif Require Import Base OfmModel.
Import ListNotations.
Open Scope R_scope.

(** Values of cells. *)
Definition probabilities (g : list R) : Prop := forall x, In x g -> 0 <= x <= 1.
Definition binary (g : list R) : Prop := forall x, In x g -> x = 0 \/ x = 1.
Definition shows_something (g : list R) : Prop := exists x, In x g /\ 0 < x.
Fixpoint total {A} (f : A -> R) (l : list A) : R := match l with [] => 0 | x :: l' => f x + total f l' end.
(** The mean of a score, zero if there is nothing to average. *)
Definition average {A} (f : A -> R) (l : list A) : R := match l with [] => 0 | _ => total f l / INR (length l) end.
(** Cells of two grids of the same shape, first the truth, then the prediction. *)
Definition occupied_cell (c : R * R) : bool := if Req_EM_T (fst c) 1 then true else false.
Definition predicted_cell (c : R * R) : bool := if Req_EM_T (snd c) 1 then true else false.
Definition occupied (truth pred : list R) : list (R * R) := filter occupied_cell (combine truth pred).
Definition free (truth pred : list R) : list (R * R) := filter (fun c => negb (occupied_cell c)) (combine truth pred).
(** A prediction no worse than another: no less on occupied cells, no more on free ones. *)
Definition no_worse (truth p q : list R) : Prop :=
  forall i, (i < length truth)%nat -> (nth i truth 0 = 1 -> nth i p 0 <= nth i q 0) /\ (nth i truth 0 = 0 -> nth i q 0 <= nth i p 0).
(** Flow. *)
Definition distance (v w : R * R) : R := sqrt ((fst v - fst w) ^ 2 + (snd v - snd w) ^ 2).
Definition at_rest (v : R * R) : Prop := v = (0, 0).
Definition moves (v : R * R) : bool := if Req_EM_T (fst v) 0 then if Req_EM_T (snd v) 0 then false else true else true.
Definition moving_cells (truth pred : list (R * R)) : list ((R * R) * (R * R)) :=
  filter (fun c => moves (fst c)) (combine truth pred).

(** All waypoints are there, with grids of [cells] cells. *)
Definition has_waypoints (n cells : nat) (w : vehicle_waypoints) : Prop :=
  (length (OfmModel.observed w) = n /\ length (OfmModel.occluded w) = n /\ length (flows w) = n) /\
  (forall g, In g (OfmModel.observed w) -> length g = cells) /\ (forall g, In g (OfmModel.occluded w) -> length g = cells) /\
  (forall g, In g (flows w) -> length g = cells).
Definition shown_at (l : list (list R)) (k : nat) : Prop := shows_something (nth k l []).
(** The waypoints that count: with occupancy, and with occupancy of the same kind at the waypoint before, if there is one. *)
Definition exactly (l : list nat) (p : nat -> Prop) : Prop := NoDup l /\ forall k, In k l <-> p k.
Definition kept (l : list (list R)) (k : nat) : Prop := shown_at l k /\ (k = 0%nat \/ shown_at l (k - 1)).
Definition flows_at (truth : vehicle_waypoints) (k : nat) : Prop := kept (OfmModel.observed truth) k \/ kept (OfmModel.occluded truth) k.
(** Occupancy by observed or hidden vehicles, and what is left of a grid after multiplying with another. *)
Definition either (a b : list R) : list R := map (fun c => Rmax 0 (Rmin 1 (fst c + snd c))) (combine a b).
Definition times (a b : list R) : list R := map (fun c => fst c * snd c) (combine a b).

(** The scores of a waypoint. *)
Section Scores.
Variables truth prediction : vehicle_waypoints.
Variable warped : list (list R).
Definition true_observed k := nth k (OfmModel.observed truth) [].
Definition pred_observed k := nth k (OfmModel.observed prediction) [].
Definition true_hidden k := nth k (OfmModel.occluded truth) [].
Definition pred_hidden k := nth k (OfmModel.occluded prediction) [].
Definition true_all k := either (true_observed k) (true_hidden k).
Definition grounded k := times (either (pred_observed k) (pred_hidden k)) (nth k warped []).
(** Every value is an average over exactly the waypoints that count, and their numbers are given. *)
Definition averages_scores (auc : list R -> list R -> R) (n : nat) (m : metrics) : Prop :=
  exists seen hidden moved,
    exactly seen (fun k => (k < n)%nat /\ shown_at (OfmModel.observed truth) k) /\
    exactly hidden (fun k => (k < n)%nat /\ shown_at (OfmModel.occluded truth) k) /\
    exactly moved (fun k => (k < n)%nat /\ flows_at truth k) /\
    (num_waypoints_with_observed_occupancy m = length seen /\ num_waypoints_with_occluded_occupancy m = length hidden /\
     num_waypoints_with_flow m = length moved) /\
    (vehicles_observed_auc m = average (fun k => auc (true_observed k) (pred_observed k)) seen /\
     vehicles_occluded_auc m = average (fun k => auc (true_hidden k) (pred_hidden k)) hidden /\
     vehicles_flow_warped_occupancy_auc m = average (fun k => auc (true_all k) (grounded k)) moved) /\
    (vehicles_observed_iou m = average (fun k => compute_occupancy_soft_iou (true_observed k) (pred_observed k)) seen /\
     vehicles_occluded_iou m = average (fun k => compute_occupancy_soft_iou (true_hidden k) (pred_hidden k)) hidden /\
     vehicles_flow_warped_occupancy_iou m = average (fun k => compute_occupancy_soft_iou (true_all k) (grounded k)) moved) /\
    vehicles_flow_epe m = average (fun k => compute_flow_epe (nth k (flows truth) []) (nth k (flows prediction) [])) moved.
End Scores.
Definition all_probabilities (w : vehicle_waypoints) : Prop :=
  (forall g, In g (OfmModel.observed w) -> probabilities g) /\ (forall g, In g (OfmModel.occluded w) -> probabilities g).
Definition all_binary (w : vehicle_waypoints) : Prop :=
  (forall g, In g (OfmModel.observed w) -> binary g) /\ (forall g, In g (OfmModel.occluded w) -> binary g).
