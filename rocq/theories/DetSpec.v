(** Specification of detection outcomes. *)
From Verif Require Import Base MotSpec DetModel.
Open Scope Z_scope.

(** A matching result: -1 for unmatched, otherwise mutual partners. *)
Definition match_ok (pm gm : list Z) : Prop :=
  (forall i m, nth_error pm i = Some m -> m = -1 \/ (0 <= m < Z.of_nat (length gm) /\ nth_error gm (Z.to_nat m) = Some (Z.of_nat i))) /\
  (forall g m, nth_error gm g = Some m -> m = -1 \/ (0 <= m < Z.of_nat (length pm) /\ nth_error pm (Z.to_nat m) = Some (Z.of_nat g))).

Definition counts_gt (c : dconfig) (fr : dframe) (g : nat) : Prop := gt_only c = true -> in_bd fr g = true.

Definition is_tp (c : dconfig) (fr : dframe) (pm : list Z) (p g : nat) : Prop :=
  nth_error pm p = Some (Z.of_nat g) /\ counts_gt c fr g /\ (min_ha c < ha fr p g)%Q.
(** g is a ground truth overlapping p by at least the threshold, no other overlaps more and none
    later overlaps as much. *)
Definition closest (fr : dframe) (p : nat) (t : Q) (g : nat) : Prop :=
  (g < n_gt fr)%nat /\ (t <= iou fr p g)%Q /\
  (forall g', (g' < n_gt fr)%nat -> (iou fr p g' <= iou fr p g)%Q) /\
  (forall g', (g < g' < n_gt fr)%nat -> (iou fr p g' < iou fr p g)%Q).
Definition is_fp (c : dconfig) (fr : dframe) (pm : list Z) (p : nat) : Prop :=
  nth_error pm p = Some (-1) /\ nlz fr p = false /\
  (gt_only c = true -> forall g, closest fr p (1 # 100) g -> in_bd fr g = true).
Definition is_fn (c : dconfig) (fr : dframe) (gm : list Z) (g : nat) : Prop :=
  nth_error gm g = Some (-1) /\ diff fr g <= level c /\ counts_gt c fr g.
