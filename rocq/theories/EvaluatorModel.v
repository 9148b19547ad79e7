(** The detection evaluator, src/waymo_open_dataset/metrics/python/wod_detection_evaluator.py.

    Conventions.
    - A tensor is the shape of a row and its list of rows; element types are
      one type [R], so that differences of dtype are outside the model.
    - A Python dict is an association list without repeated keys.
    - Values that are not tensors (recall_at_precision) are not told apart from
      tensors: they are stored and never used.
    - tf.concat of no tensor is a ValueError, of tensors whose row shapes differ
      an InvalidArgumentError (RuntimeError here).
    - An operation gives its outcome and the state it leaves, also when it raises. *)
From Coq Require Import String.
From Verif Require Import Base ResultLib ParseModel.
Open Scope list_scope.

Record array (R : Type) := Array { row_shape : list nat; rows : list R }.
Arguments Array {R} _ _.
Arguments row_shape {R} _.
Arguments rows {R} _.

(** tf.concat(values, axis=0). *)
Definition same_shape (a b : list nat) : bool := if list_eq_dec Nat.eq_dec a b then true else false.
Definition concat_arrays {R} (l : list (array R)) : result (array R) :=
  match l with
  | [] => Err ValueError
  | a :: l' => if forallb (fun b => same_shape (row_shape a) (row_shape b)) l'
               then Ok (Array (row_shape a) (flat_map rows l)) else Err RuntimeError
  end.

Section Evaluator.
Context {R M : Type}.
Notation dict := (list (string * array R)).
Notation store := (list (string * list (array R))).

(** 60-73. *)
Definition required_prediction_fields : list string :=
  ["prediction_frame_id"; "prediction_bbox"; "prediction_type"; "prediction_score";
   "prediction_overlap_nlz"]%string.
Definition required_groundtruth_fields : list string :=
  ["ground_truth_frame_id"; "ground_truth_bbox"; "ground_truth_type"; "ground_truth_difficulty"]%string.

(** self._predictions and self._groundtruths. *)
Record state := { predictions : store; groundtruths : store }.
(** reset_states 80-86. *)
Definition reset_states : state := {| predictions := []; groundtruths := [] |}.

Definition has_key {V} (k : string) (d : list (string * V)) : bool := existsb (fun e => String.eqb k (fst e)) d.
Definition check_fields (fields : list string) (d : dict) : result unit :=
  if forallb (fun k => has_key k d) fields then Ok tt else Err ValueError.
Definition append_all (s : store) (d : dict) : store :=
  fold_left (fun s e => update String.eqb [] (fst e) (push (snd e)) s) d s.

(** update_state 132-199. *)
Definition update_state (st : state) (gts preds : dict) : result unit * state :=
  match check_fields required_prediction_fields preds with
  | Err e => (Err e, st)
  | Ok _ =>
      let st1 := {| predictions := append_all (predictions st) preds; groundtruths := groundtruths st |} in
      match check_fields required_groundtruth_fields gts with
      | Err e => (Err e, st1)
      | Ok _ => (Ok tt, {| predictions := predictions st1; groundtruths := append_all (groundtruths st) gts |})
      end
  end.

(** The arguments of the detection_metrics op (the config is fixed). *)
Record op_args := {
  a_pred_bbox : array R; a_pred_type : array R; a_pred_score : array R; a_pred_frame_id : array R;
  a_pred_overlap_nlz : array R; a_gt_bbox : array R; a_gt_type : array R; a_gt_frame_id : array R;
  a_gt_difficulty : array R; a_gt_speed : option (array R)
}.
Variable detection_metrics : op_args -> result M.

Definition lookup (k : string) (s : store) : result (array R) :=
  if has_key k s then concat_arrays (get String.eqb [] k s) else Err KeyError.

(** The arguments evaluate 95-130 builds. *)
Definition evaluate_args (st : state) : result op_args :=
  do pb <- lookup "prediction_bbox" (predictions st);
  do pt <- lookup "prediction_type" (predictions st);
  do ps <- lookup "prediction_score" (predictions st);
  do pf <- lookup "prediction_frame_id" (predictions st);
  do pn <- lookup "prediction_overlap_nlz" (predictions st);
  do gb <- lookup "ground_truth_bbox" (groundtruths st);
  do gt <- lookup "ground_truth_type" (groundtruths st);
  do gf <- lookup "ground_truth_frame_id" (groundtruths st);
  do gd <- lookup "ground_truth_difficulty" (groundtruths st);
  do gs <- (if has_key "ground_truth_speed" (groundtruths st)
            then do s <- lookup "ground_truth_speed" (groundtruths st); Ok (Some s) else Ok None);
  Ok {| a_pred_bbox := pb; a_pred_type := pt; a_pred_score := ps; a_pred_frame_id := pf;
        a_pred_overlap_nlz := pn; a_gt_bbox := gb; a_gt_type := gt; a_gt_frame_id := gf;
        a_gt_difficulty := gd; a_gt_speed := gs |}.
(** evaluate 95-130. *)
Definition evaluate (st : state) : result M := do a <- evaluate_args st; detection_metrics a.

(** result 88-93: reset only if evaluate returns. *)
Definition result_ (st : state) : result M * state :=
  match evaluate st with
  | Ok m => (Ok m, reset_states)
  | Err e => (Err e, st)
  end.

(** Histories of calls; the answers of result and evaluate are recorded. *)
Inductive call := Update (gts preds : dict) | Result | Evaluate | Reset.
Definition step (st : state) (c : call) : list (result M) * state :=
  match c with
  | Update g p => ([], snd (update_state st g p))
  | Result => let '(m, st') := result_ st in ([m], st')
  | Evaluate => ([evaluate st], st)
  | Reset => ([], reset_states)
  end.
Fixpoint run (st : state) (cs : list call) : list (result M) * state :=
  match cs with
  | [] => ([], st)
  | c :: cs' => let '(o, st1) := step st c in let '(os, st2) := run st1 cs' in (o ++ os, st2)
  end.
End Evaluator.
Arguments op_args : clear implicits.
Arguments state : clear implicits.
Arguments call : clear implicits.
