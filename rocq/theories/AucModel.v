(** The area under the precision recall curve of an occupancy grid:
    /repo/src/waymo_open_dataset/utils/occupancy_flow_metrics.py 167-189, which OfmModel.v leaves open.

    The function only makes a tf.keras.metrics.AUC with the arguments of 181-185, updates it once and asks for its result, so
    this file models that class for these arguments. Numbers are real numbers; the two tensors have the same shape, as their
    documentation asks (170-172), and are lists of the values of their cells. *)
From Coq Require Import Reals.
From Verif Require Import Base ResultLib GeomModel WayModel.
Open Scope list_scope.
Open Scope R_scope.

(** 182: num_thresholds=100. Keras spaces 98 of them evenly and puts one below 0 and one above 1, by its epsilon. *)
Definition num_thresholds : nat := 100.
Definition epsilon : R := / 10000000.
Definition threshold (i : nat) : R :=
  if Nat.eqb i 0 then - epsilon else if Nat.eqb i (num_thresholds - 1) then 1 + epsilon else INR i / INR (num_thresholds - 1).
(** 186-189: update_state. A label is a value that is not zero; a prediction is positive above the threshold. *)
Definition label (y : R) : bool := negb (if Req_EM_T y 0 then true else false).
Definition count (f : R * R -> bool) (cells : list (R * R)) : R := INR (length (filter f cells)).
Definition true_positives (cells : list (R * R)) (i : nat) : R := count (fun c => label (fst c) && rltb (threshold i) (snd c)) cells.
Definition false_positives (cells : list (R * R)) (i : nat) : R := count (fun c => negb (label (fst c)) && rltb (threshold i) (snd c)) cells.
Definition false_negatives (cells : list (R * R)) (i : nat) : R := count (fun c => label (fst c) && negb (rltb (threshold i) (snd c))) cells.
(** 183-184: curve PR with summation_method interpolation; the part between two thresholds. *)
Definition increment (tp fp fn : nat -> R) (i : nat) : R :=
  let dtp := tp i - tp (S i) in
  let p j := tp j + fp j in
  let dp := p i - p (S i) in
  let prec_slope := divide_no_nan dtp (Rmax dp 0) in
  let intercept := tp (S i) - prec_slope * p (S i) in
  let safe_p_ratio := if rltb 0 (p i) && rltb 0 (p (S i)) then divide_no_nan (p i) (Rmax (p (S i)) 0) else 1 in
  divide_no_nan (prec_slope * (dtp + intercept * ln safe_p_ratio)) (Rmax (tp (S i) + fn (S i)) 0).
Definition auc_value (cells : list (R * R)) : R :=
  reduce_sum (map (increment (true_positives cells) (false_positives cells) (false_negatives cells)) (seq 0 (num_thresholds - 1))).
(** 167-189: _compute_occupancy_auc. Keras asserts that predictions lie in the unit interval. *)
Definition compute_occupancy_auc (true_occupancy pred_occupancy : list R) : result R :=
  if forallb (fun p => rleb 0 p && rleb p 1) pred_occupancy then Ok (auc_value (combine true_occupancy pred_occupancy)) else Err ValueError.
