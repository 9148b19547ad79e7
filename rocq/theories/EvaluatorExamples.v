(** Small updates for the examples. *)
From Coq Require Import String.
From Verif Require Import Base EvaluatorModel EvaluatorSpec.
Open Scope list_scope.

Definition column (l : list nat) : array nat := Array [] l.
Definition some_predictions (l : list nat) : list (string * array nat) :=
  map (fun k => (k, column l)) prediction_fields.
Definition some_groundtruths (l : list nat) : list (string * array nat) :=
  map (fun k => (k, column l)) groundtruth_fields.
Definition speeds (l : list nat) : list (string * array nat) :=
  ("ground_truth_speed"%string, column l) :: some_groundtruths l.
(** An op that lists the predictions and counts the ground truths. *)
Definition list_op (a : op_args nat) : result (list nat * nat) :=
  Ok (rows (a_pred_bbox a), List.length (rows (a_gt_bbox a))).
