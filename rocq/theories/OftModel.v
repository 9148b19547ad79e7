(** The tutorial of the occupancy and flow challenge, /repo/tutorial/tutorial_occupancy_flow.ipynb. Lines are those of the notebook file.
    Tensors are lists of grid cells (batch, height and width flattened). The network, the gradient step, zlib and the metadata of a submission are not modelled.
    Numbers are rationals, without rounding of floats. *)
From Coq Require Import QArith Qabs Qminmax String.
From Verif Require Import Base ResultLib.
Open Scope list_scope.

(** The vehicle grids of occupancy_flow_grids.WaypointGrids, one entry for each waypoint; [A] are the occupancy cells and [B] the flow cells. *)
Record waypoints (A B : Type) := Waypoints { observed_occupancy : list (list A); occluded_occupancy : list (list A); flow : list (list B) }.
Arguments Waypoints {A B}. Arguments observed_occupancy {A B}. Arguments occluded_occupancy {A B}. Arguments flow {A B}.
Definition at_index {A} (l : list A) (k : nat) : result A := match nth_error l k with Some a => Ok a | None => Err IndexError end.

(** 784. *)
Definition NUM_PRED_CHANNELS : nat := 4.
(** Python slices of the channels of one cell. *)
Definition slice {A} (a b : nat) (l : list A) : list A := firstn (b - a) (skipn a l).
(** 944-967: _get_pred_waypoint_logits; a cell of the output is its list of channels. *)
Definition get_pred_waypoint_logits (num_waypoints : nat) (model_outputs : list (list Q)) : waypoints (list Q) (list Q) :=
  let channels k cell := slice (k * NUM_PRED_CHANNELS) (k * NUM_PRED_CHANNELS + NUM_PRED_CHANNELS) cell in
  Waypoints
    (map (fun k => map (fun cell => slice 0 1 (channels k cell)) model_outputs) (seq 0 num_waypoints))
    (map (fun k => map (fun cell => slice 1 2 (channels k cell)) model_outputs) (seq 0 num_waypoints))
    (map (fun k => map (fun cell => skipn 2 (channels k cell)) model_outputs) (seq 0 num_waypoints)).

(** tf.reduce_sum. *)
Fixpoint reduce_sum (l : list Q) : Q := match l with [] => 0%Q | a :: l' => (a + reduce_sum l')%Q end.
(** tf.math.add_n fails on an empty list. *)
Definition add_n (l : list Q) : result Q := match l with [] => Err ValueError | _ => Ok (reduce_sum l) end.
(** tf.math.divide_no_nan. *)
Definition divide_no_nan (a b : Q) : Q := if Qeq_bool b 0 then 0%Q else (a / b)%Q.
(** 1069-1085: _sigmoid_xe_loss with the default weight; [xe label logit] is the cross-entropy of one cell, any function here.
    Shapes must agree. For grids without cells the code has 0/0, here 0. *)
Definition sigmoid_xe_loss (xe : Q -> Q -> Q) (true_occupancy pred_occupancy : list Q) : result Q :=
  if (List.length true_occupancy =? List.length pred_occupancy)%nat then
    let xe_sum := reduce_sum (map (fun tp => xe (fst tp) (snd tp)) (combine true_occupancy pred_occupancy)) in
    Ok (1000 * xe_sum / inject_Z (Z.of_nat (List.length pred_occupancy)))%Q
  else Err ValueError.
(** 1099-1103: one channel for each cell. *)
Definition flow_exists (t : Q * Q) : Q := if (negb (Qeq_bool (fst t) 0) || negb (Qeq_bool (snd t) 0))%bool then 1%Q else 0%Q.
(** 1094, 1104-1105. *)
Definition diff_norm (tp : (Q * Q) * (Q * Q)) : Q :=
  let (t, p) := tp in (Qabs ((fst t - fst p) * flow_exists t) + Qabs ((snd t - snd p) * flow_exists t))%Q.
(** 1088-1109: _flow_loss with the default weight. *)
Definition flow_loss (true_flow pred_flow : list (Q * Q)) : result Q :=
  if (List.length true_flow =? List.length pred_flow)%nat then
    Ok (1 * divide_no_nan (reduce_sum (map diff_norm (combine true_flow pred_flow))) (reduce_sum (map flow_exists true_flow) / 2))%Q
  else Err ValueError.
(** 1027-1055: the loop over waypoints; line 1055 passes the predicted flow first. *)
Fixpoint loss_loop (xe : Q -> Q -> Q) (k n : nat) (true_waypoints pred : waypoints Q (Q * Q)) : result (list Q * list Q * list Q) :=
  match n with
  | O => Ok ([], [], [])
  | S n' =>
      do pred_observed <- at_index (observed_occupancy pred) k;
      do pred_occluded <- at_index (occluded_occupancy pred) k;
      do true_observed <- at_index (observed_occupancy true_waypoints) k;
      do true_occluded <- at_index (occluded_occupancy true_waypoints) k;
      do a <- sigmoid_xe_loss xe true_observed pred_observed;
      do b <- sigmoid_xe_loss xe true_occluded pred_occluded;
      do pred_flow <- at_index (flow pred) k;
      do true_flow <- at_index (flow true_waypoints) k;
      do c <- flow_loss pred_flow true_flow;
      do rest <- loss_loop xe (S k) n' true_waypoints pred;
      let '(la, lb, lc) := rest in Ok (a :: la, b :: lb, c :: lc)
  end.
(** 1002-1066: _occupancy_flow_loss: observed_xe, occluded_xe and flow. *)
Definition occupancy_flow_loss (xe : Q -> Q -> Q) (num_waypoints : nat) (true_waypoints pred : waypoints Q (Q * Q)) : result (Q * Q * Q) :=
  do r <- loss_loop xe 0 num_waypoints true_waypoints pred;
  let '(la, lb, lc) := r in
  let n := inject_Z (Z.of_nat num_waypoints) in
  do a <- add_n la; do b <- add_n lb; do c <- add_n lc;
  Ok (a / n, b / n, c / n)%Q.

(** 1278-1290: the images of the observed occupancy; the variable observed_occupancy_rgb keeps the last one. *)
Definition observed_cell {A} (num_waypoints : nat) (render : nat -> A) (observed_occupancy_rgb : A) : list A * A :=
  fold_left (fun st k => (fst st ++ [render k], render k)) (seq 0 num_waypoints) ([], observed_occupancy_rgb).
(** 1311-1323: the images of the occluded occupancy; each is rendered, but line 1321 appends the other variable. *)
Definition occluded_cell {A} (num_waypoints : nat) (render : nat -> A) (observed_occupancy_rgb : A) : list A :=
  fold_left (fun images k => let occluded_occupancy_rgb := render k in images ++ [observed_occupancy_rgb]) (seq 0 num_waypoints) [].

(** 1582, 1587: np.round is half to even; astype(np.uint8) keeps the lowest byte. *)
Definition occupancy_byte (q : Q) : Z := (round_half_even (q * 255) mod 256)%Z.
(** 1592: np.clip to the range of np.int8. *)
Definition flow_byte (q : Q) : Z := Z.min (Z.max (round_half_even q) (-128)) 127.
(** The bytes of one waypoint, before compression. *)
Record message := Message { m_observed : list Z; m_occluded : list Z; m_flow : list Z }.
(** 1572-1595: _add_waypoints_to_scenario_prediction; the flow is written dx, dy, cell by cell. *)
Definition add_waypoints (num_waypoints : nat) (pred : waypoints Q (Q * Q)) : result (list message) :=
  mapM (fun k =>
    do a <- at_index (observed_occupancy pred) k;
    do b <- at_index (occluded_occupancy pred) k;
    do c <- at_index (flow pred) k;
    Ok (Message (map occupancy_byte a) (map occupancy_byte b) (flat_map (fun f => [flow_byte (fst f); flow_byte (snd f)]) c))) (seq 0 num_waypoints).
(** 1605-1630: _generate_predictions_for_one_test_shard; an example is its id and what the model predicts for it. *)
Fixpoint generate_predictions (num_waypoints : nat) (test_scenario_ids : list string) (test_dataset : list (string * waypoints Q (Q * Q))) : result (list (string * list message)) :=
  match test_dataset with
  | [] => Ok []
  | (id, pred) :: l =>
      if existsb (String.eqb id) test_scenario_ids then
        do ms <- add_waypoints num_waypoints pred;
        do rest <- generate_predictions num_waypoints test_scenario_ids l;
        Ok ((id, ms) :: rest)
      else generate_predictions num_waypoints test_scenario_ids l
  end.
