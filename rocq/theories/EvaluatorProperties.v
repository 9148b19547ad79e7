(** C44: the detection evaluator as a function of its pending updates. *)
From Coq Require Import String.
From Verif Require Import Base ResultLib EvaluatorModel EvaluatorSpec EvaluatorProofs EvaluatorExamples.
Open Scope list_scope.
Open Scope nat_scope.

(** After every history of calls, each answer is that of the updates made since
    the last reset or successful result. *)
Theorem C44_history : forall (R M : Type) (op : op_args R -> result M) (cs : list (call R)),
  fst (run op reset_states cs) = expected op [] cs.
Proof. exact @history_answers. Qed.
Print Assumptions C44_history.

(** An update raises exactly when a required field is missing. *)
Theorem C44_update_outcome : forall (R : Type) (st : state R) g p,
  fst (update_state st g p) = if good (g, p) then Ok tt else Err ValueError.
Proof. exact @update_outcome. Qed.
Print Assumptions C44_update_outcome.

(** Several updates are equivalent to one with the concatenated tensors. *)
Theorem C44_updates_merge : forall (R M : Type) (op : op_args R -> result M) us g p,
  us <> [] -> Forall (fun u => good u = true) us -> merged us g p ->
  answer op [(g, p)] = answer op us.
Proof. exact @merged_answer. Qed.
Print Assumptions C44_updates_merge.

(** A successful result clears the state; a failed one keeps it. *)
Theorem C44_result_clears : forall (R M : Type) (op : op_args R -> result M) st m,
  evaluate op st = Ok m -> result_ op st = (Ok m, reset_states).
Proof. exact @done_result. Qed.
Print Assumptions C44_result_clears.

Theorem C44_failed_result_keeps : forall (R M : Type) (op : op_args R -> result M) st e,
  evaluate op st = Err e -> result_ op st = (Err e, st).
Proof. exact @failed_result. Qed.
Print Assumptions C44_failed_result_keeps.

(** An update rejected for its predictions changes nothing. *)
Theorem C44_rejected_predictions : forall (R : Type) (st : state R) g p,
  good_predictions (g, p) = false -> update_state st g p = (Err ValueError, st).
Proof. exact @rejected_predictions. Qed.
Print Assumptions C44_rejected_predictions.

(** One rejected for its ground truths does: the predictions are counted, and
    counted again when the update is repeated with the missing field. *)
Theorem C44_rejected_groundtruths_refuted : exists (g g' p : list (string * array nat)),
  fst (update_state reset_states g p) = Err ValueError
  /\ fst (run list_op reset_states [Update g' p; Result]) = [Ok ([7; 8], 2)]
  /\ fst (run list_op reset_states [Update g p; Update g' p; Result]) = [Ok ([7; 8; 7; 8], 2)].
Proof. exists [], (some_groundtruths [1; 2]), (some_predictions [7; 8]). repeat split. Qed.
Print Assumptions C44_rejected_groundtruths_refuted.

(** The tensors of each side have as many rows as all its updates together. *)
Theorem C44_rows : forall (R : Type) (np ng : list (string * array R) -> nat) us a,
  Forall (fun u => good u = true
     /\ NoDup (map fst (snd u)) /\ aligned prediction_fields (np (snd u)) (snd u)
     /\ NoDup (map fst (fst u))
     /\ aligned ("ground_truth_speed"%string :: groundtruth_fields) (ng (fst u)) (fst u)) us ->
  arguments us = Ok a ->
  Forall (fun x => row_count x = list_sum (map np (map snd us)))
    [a_pred_bbox a; a_pred_type a; a_pred_score a; a_pred_frame_id a; a_pred_overlap_nlz a]
  /\ Forall (fun x => row_count x = list_sum (map ng (map fst us)))
    [a_gt_bbox a; a_gt_type a; a_gt_frame_id a; a_gt_difficulty a]
  /\ forall s, a_gt_speed a = Some s ->
       row_count s = list_sum (map ng (filter (with_key "ground_truth_speed") (map fst us))).
Proof. exact @arguments_rows. Qed.
Print Assumptions C44_rows.

(** The optional speeds fit the boxes only if no update with boxes omitted them. *)
Theorem C44_speed_alignment : forall (R : Type) (np ng : list (string * array R) -> nat) us a s,
  Forall (fun u => good u = true
     /\ NoDup (map fst (snd u)) /\ aligned prediction_fields (np (snd u)) (snd u)
     /\ NoDup (map fst (fst u))
     /\ aligned ("ground_truth_speed"%string :: groundtruth_fields) (ng (fst u)) (fst u)) us ->
  arguments us = Ok a -> a_gt_speed a = Some s ->
  (row_count s = row_count (a_gt_bbox a)
   <-> forall u, In u us -> with_key "ground_truth_speed" (fst u) = false -> ng (fst u) = 0%nat).
Proof. exact @speed_rows. Qed.
Print Assumptions C44_speed_alignment.

Theorem C44_speed_alignment_refuted : exists us a s,
  Forall (fun u : list (string * array nat) * list (string * array nat) => good u = true) us
  /\ arguments us = Ok a /\ a_gt_speed a = Some s /\ row_count s <> row_count (a_gt_bbox a).
Proof.
  exists [(speeds [1; 2], some_predictions [7]); (some_groundtruths [3], some_predictions [8])].
  eexists. eexists. split; [repeat constructor|]. split; [reflexivity|]. split; [reflexivity|discriminate].
Qed.
Print Assumptions C44_speed_alignment_refuted.

(** Any other key, also the documented recall_at_precision, has no effect. *)
Theorem C44_other_keys_ignored : forall (R M : Type) (op : op_args R -> result M) k us,
  ~ In k ("ground_truth_speed"%string :: prediction_fields ++ groundtruth_fields) ->
  answer op (map (fun u => (filter (fun e => negb (String.eqb (fst e) k)) (fst u),
                            filter (fun e => negb (String.eqb (fst e) k)) (snd u))) us) = answer op us.
Proof. exact @other_keys. Qed.
Print Assumptions C44_other_keys_ignored.

Example C44_example_history :
  fst (run list_op reset_states
    [Evaluate; Update (some_groundtruths [1]) (some_predictions [7]); Evaluate;
     Update (some_groundtruths [2]) (some_predictions [8; 9]); Result; Result])
  = [Err KeyError; Ok ([7], 1); Ok ([7; 8; 9], 2); Err KeyError].
Proof. reflexivity. Qed.
Example C44_example_merge :
  merged [(some_groundtruths [1], some_predictions [7]); (some_groundtruths [2], some_predictions [8; 9])]
    (some_groundtruths [1; 2]) (some_predictions [7; 8; 9]).
Proof.
  split; intros k; unfold merges, values; cbn -[String.eqb];
    repeat (match goal with |- context [String.eqb ?a k] => destruct (String.eqb_spec a k) as [<-|?] end;
            [cbn; try (eexists; split; reflexivity)|]); reflexivity.
Qed.
Example C44_example_rows :
  Forall (fun u : list (string * array nat) * list (string * array nat) => good u = true
     /\ NoDup (map fst (snd u)) /\ aligned prediction_fields 2 (snd u)
     /\ NoDup (map fst (fst u))
     /\ aligned ("ground_truth_speed"%string :: groundtruth_fields) 3 (fst u))
    [(speeds [1; 2; 3], some_predictions [7; 8])].
Proof.
  constructor; [|constructor]. split; [reflexivity|]. cbn.
  split; [repeat (constructor; [cbn; intuition discriminate|]); constructor|].
  split; [intros k a _ I; cbn in I; repeat (destruct I as [I|I]; [inversion I; reflexivity|]); destruct I|].
  split; [repeat (constructor; [cbn; intuition discriminate|]); constructor|].
  intros k a _ I; cbn in I; repeat (destruct I as [I|I]; [inversion I; reflexivity|]); destruct I.
Qed.
