(** C118: the motion metrics op. *)
From Coq Require Import String Permutation.
From Verif Require Import Base MotionModel MotionSpec MotionExamples BreakdownModel MotionOpModel MotionOpSpec MotionOpProofs.
From Verif Require ParseModel.
Open Scope list_scope.
Open Scope Z_scope.
(** The op gives rows exactly when the metrics of the scenarios can be computed; otherwise a check fails. *)
Theorem C118_decided g c l : match motion_metrics g c (evaluated l) with Ok _ => exists rows, compute_rows g c l = Ok rows | Err _ => compute_rows g c l = Err CheckFailed end.
Proof. exact (rows_decided g c l). Qed.
Print Assumptions C118_decided.
(** Every row stands where the breakdown names say. It has the metrics of its type and step if some counted prediction is about that type, and -1 otherwise. *)
Theorem C118_rows g c dec l rows bs : compute_rows g c l = Ok rows -> motion_metrics g c (evaluated l) = Ok bs ->
  Forall2 (fun name r => exists t s, In t [1; 2; 3] /\ In s (map m_step (step_cfgs c)) /\ name = row_name dec t s /\ right_row l bs t s r)
    (cpp_motion_names dec (map m_step (step_cfgs c))) rows.
Proof. exact (rows_spec g c dec l rows bs). Qed.
Print Assumptions C118_rows.
(** Only the five object types can be measured. *)
Theorem C118_types l t : measured l t -> 0 <= t <= 4.
Proof. exact (measured_type l t). Qed.
Print Assumptions C118_types.
(** There are three rows for every configured step. *)
Theorem C118_count g c l rows : compute_rows g c l = Ok rows -> List.length rows = (3 * List.length (step_cfgs c))%nat.
Proof. exact (rows_count g c l rows). Qed.
Print Assumptions C118_count.
(** The order of the scenarios does not matter. *)
Theorem C118_order g c l l' : Permutation l l' ->
  match compute_rows g c l, compute_rows g c l' with
  | Ok r, Ok r' => Forall2 same_row r r'
  | Err e, Err e' => e = e'
  | _, _ => False
  end.
Proof. exact (rows_order g c l l'). Qed.
Print Assumptions C118_order.
(** The result does not depend on the order in which the hash map is traversed. *)
Theorem C118_traversal g c inp tr tr' : (forall x, Permutation x (tr x)) -> (forall x, Permutation x (tr' x)) ->
  match motion_op g c tr inp, motion_op g c tr' inp with
  | Ok r, Ok r' => Forall2 same_row r r'
  | Err e, Err e' => e = e'
  | _, _ => False
  end.
Proof. exact (op_order g c inp tr tr'). Qed.
Print Assumptions C118_traversal.
(** The scenarios are those parsed from the tensors. *)
Theorem C118_input g c tr inp : match ParseModel.parse_motion inp with
  | Ok x => motion_op g c tr inp = compute_rows g c (pairs (tr x))
  | Err e => motion_op g c tr inp = Err e
  end.
Proof. exact (op_rows g c tr inp). Qed.
Print Assumptions C118_input.
(** They are read as they were parsed. *)
Theorem C118_read x : Forall2 (fun e ps => reads_predictions (snd (snd e)) (fst ps) /\ reads_scenario (fst (snd e)) (snd ps)) x (pairs x).
Proof. exact (op_reads x). Qed.
Print Assumptions C118_read.
(** Two configurations of the same step are not told apart: both rows mix their results. *)
Theorem C118_merged_refuted : exists c c1 c2 l, step_cfgs c = step_cfgs c1 ++ step_cfgs c2 /\
  same_opt (miss_of (compute_rows ex_geom c1 l) 0) 1 /\ same_opt (miss_of (compute_rows ex_geom c2 l) 0) 0 /\
  same_opt (miss_of (compute_rows ex_geom c l) 0) (1 # 2) /\ same_opt (miss_of (compute_rows ex_geom c l) 1) (1 # 2).
Proof. exact (merged_refuted ). Qed.
Print Assumptions C118_merged_refuted.
(** Nothing to measure is reported as a perfect result. *)
Theorem C118_nothing_refuted : exists l rows r, compute_rows ex_geom (one_step 1) l = Ok rows /\ nth_error rows 0 = Some r /\
  (forall p s tr, In (p, s) l -> In tr (sc_tracks s) -> forall i st, (2 <= i)%nat -> nth_error (tr_states tr) i = Some st -> st_valid st = false) /\
  (min_ade r == 0)%Q /\ (min_fde r == 0)%Q /\ (out_miss_rate r == 0)%Q.
Proof. exact (nothing_refuted ). Qed.
Print Assumptions C118_nothing_refuted.

(** A vehicle is predicted: its row has metrics, the rows of the other types have none. *)
Example C118_nonvacuous : exists rows, compute_rows ex_geom (one_step 1) [(miss_preds, ex_scenario)] = Ok rows /\ List.length rows = 3%nat /\
  same_opt (miss_of (Ok rows) 0) 1 /\ same_opt (miss_of (Ok rows) 1) (-1) /\ same_opt (miss_of (Ok rows) 2) (-1).
Proof. eexists. split; [vm_compute; reflexivity|]. vm_compute. auto. Qed.
Example C118_stopped : compute_rows ex_geom (one_step 9) [(miss_preds, short_scenario)] = Err CheckFailed.
Proof. vm_compute. reflexivity. Qed.
