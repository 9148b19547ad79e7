(** The motion tutorial, /repo/tutorial/tutorial_motion.ipynb. Lines are those of the notebook file.
    Rational numbers stand for floats. The regressor, its gradients and the drawing itself are not modelled. *)
From Coq Require Import QArith.
From Verif Require Import Base ResultLib.
Open Scope list_scope.

Definition point : Type := (Q * Q)%type.

(** * Parsing and targets *)
(** The states of one agent, each with its validity; [S] stands for the seven values of a state. *)
Record track (S : Type) := Track { past : list (bool * S); current : list (bool * S); future : list (bool * S) }.
Arguments Track {S}. Arguments past {S}. Arguments current {S}. Arguments future {S}.
(** 584 and 589-590: gt_future_states and gt_future_is_valid. *)
Definition gt_future {S} (t : track S) : list (bool * S) := past t ++ current t ++ future t.
(** 594-595. *)
Definition sample_is_valid {S} (t : track S) : bool := existsb fst (past t ++ current t).
(** 751-755: the training targets, with prediction_start = track_history_samples + 1. *)
Definition gt_targets {S} (track_history_samples : nat) (t : track S) : list (bool * S) := skipn (track_history_samples + 1) (gt_future t).
(** The slice [start::step] with a positive step. *)
Fixpoint slice_from {A} (wait step : nat) (l : list A) : list A :=
  match l with
  | [] => []
  | a :: l' => match wait with O => a :: slice_from (step - 1) step l' | S w => slice_from w step l' end
  end.
(** 716-720: subsampling in MotionMetrics.result. Division by zero (ZeroDivisionError) and a slice step of zero are errors;
    ValueError stands for both. With interval 0 the start is -1, but the step is refused first. *)
Definition subsample {A} (track_steps_per_second prediction_steps_per_second : nat) (l : list A) : result (list A) :=
  match prediction_steps_per_second with
  | O => Err ValueError
  | S _ =>
      let interval := (track_steps_per_second / prediction_steps_per_second)%nat in
      match interval with O => Err ValueError | S w => Ok (slice_from w interval l) end
  end.

(** * Loss *)
(** One agent: whether it is to be predicted, and for every future step the validity, the target and the prediction. *)
Definition agent : Type := (bool * list (bool * (point * point)))%type.
(** 760-763. *)
Definition weight (to_predict valid : bool) : Q := ((if valid then 1 else 0) * (if to_predict then 1 else 0))%Q.
(** Mean squared error over the two coordinates. *)
Definition squared_error (target pred : point) : Q :=
  (((fst target - fst pred) * (fst target - fst pred) + (snd target - snd pred) * (snd target - snd pred)) / 2)%Q.
Definition terms (batch : list agent) : list Q :=
  flat_map (fun a => map (fun s => (weight (fst a) (fst s) * squared_error (fst (snd s)) (snd (snd s)))%Q) (snd a)) batch.
Fixpoint qsum (l : list Q) : Q := match l with [] => 0%Q | a :: l' => (a + qsum l')%Q end.
(** 765: tf.keras.losses.MeanSquaredError with sample weights; the sum is divided by the number of entries, whatever their weights
    (and is zero if there are none). The agents of all scenarios of the batch in one list. *)
Definition loss_value (batch : list agent) : Q :=
  match terms batch with [] => 0%Q | l => (qsum l / inject_Z (Z.of_nat (List.length l)))%Q end.

(** * Training loop *)
(** 801: dataset.batch(n). *)
Definition batches {A} (n : nat) (l : list A) : list (list A) :=
  map (fun i => firstn n (skipn (i * n) l)) (seq 0 ((List.length l + n - 1) / n)).
(** 811-821: one epoch. [train w b] gives the new weights and the predictions appended to the metric (792-794). *)
Fixpoint run_batches {W B P} (train : W -> B -> W * list P) (num_batches_per_epoch step : nat) (bs : list B) (w : W) (acc : list P) : W * list P :=
  match bs with
  | [] => (w, acc)
  | b :: bs' =>
      let (w', ps) := train w b in
      if (num_batches_per_epoch <=? step)%nat then (w', acc ++ ps)
      else run_batches train num_batches_per_epoch (S step) bs' w' (acc ++ ps)
  end.
(** 806-824: what the metric is computed from at the end of each epoch. The metric is not reset in between. *)
Fixpoint run_epochs {W B P} (train : W -> B -> W * list P) (num_batches_per_epoch epochs : nat) (bs : list B) (w : W) (acc : list P) : list (list P) :=
  match epochs with
  | O => []
  | S e => let (w', acc') := run_batches train num_batches_per_epoch 0 bs w acc in acc' :: run_epochs train num_batches_per_epoch e bs w' acc'
  end.
(** 815-818: the step and the number of samples printed. *)
Definition progress {B} (num_batches_per_epoch : nat) (bs : list B) : list (nat * nat) :=
  map (fun step => (step, (step + 1) * 64)%nat)
    (filter (fun step => (step mod 10 =? 0)%nat) (seq 0 (Nat.min (List.length bs) (num_batches_per_epoch + 1)))).

(** * Pictures *)
Definition qmax (a b : Q) : Q := if Qle_bool b a then a else b.
Definition qmin (a b : Q) : Q := if Qle_bool a b then a else b.
(** np.max and np.min; an empty array is an error. *)
Definition np_max (l : list Q) : result Q := match l with [] => Err ValueError | a :: l' => Ok (fold_left qmax l' a) end.
Definition np_min (l : list Q) : result Q := match l with [] => Err ValueError | a :: l' => Ok (fold_left qmin l' a) end.
(** 333: all_states[all_states_mask]. *)
Definition select {A} (states : list (list (bool * A))) : list A :=
  flat_map (flat_map (fun p => if fst p : bool then [snd p] else [])) states.
(** 319-345: get_viewport, giving center_y, center_x and width. *)
Definition get_viewport (states : list (list (bool * point))) : result (Q * Q * Q) :=
  let v := select states in
  do max_y <- np_max (map snd v);
  do min_y <- np_min (map snd v);
  do max_x <- np_max (map fst v);
  do min_x <- np_min (map fst v);
  Ok (((max_y + min_y) / 2)%Q, ((max_x + min_x) / 2)%Q, qmax (max_y - min_y) (max_x - min_x)).
(** 382-387: the limits of the axes: left, right, bottom, top. *)
Definition limits (center_y center_x width : Q) : Q * Q * Q * Q :=
  let size := qmax 10 (width * 1) in
  ((- size / 2 + center_x)%Q, (size / 2 + center_x)%Q, (- size / 2 + center_y)%Q, (size / 2 + center_y)%Q).
Inductive title := Past (n : nat) | Current | Future (n : nat).
(** 446-453 and 464-471: with their titles. *)
Fixpoint past_images {S} (l : list S) : list (title * S) :=
  match l with [] => [] | s :: l' => (Past (List.length l), s) :: past_images l' end.
Fixpoint future_images {S} (i : nat) (l : list S) : list (title * S) :=
  match l with [] => [] | s :: l' => (Future (i + 1), s) :: future_images (i + 1) l' end.
(** 443-473: the images of all steps. [S] is the state of all agents at a step. np.split into no parts is an error. *)
Definition all_images {S} (past current future : list S) : result (list (title * S)) :=
  match past, current, future with
  | [], _, _ | _, _, [] => Err ValueError
  | _, [], _ => Err IndexError
  | _, c :: _, _ => Ok (past_images past ++ [(Current, c)] ++ future_images 0 future)
  end.
(** 518-525: the images shown by create_animation. *)
Definition animation {I} (images : list I) : list I := firstn (List.length images / 2) images.
