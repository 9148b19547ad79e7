(** C148: the tutorial of the camera-only detection challenge. *)
From Coq Require Import QArith String Lia.
From Verif Require Import Base ResultLib CotModel CotSpec CotProofs.
Open Scope list_scope.

(** The files: object i goes to file i modulo their number, in order, and nothing is lost. *)
Theorem C148_files (A : Type) n (objects : list A) : (0 < n)%nat -> exists ss, pack n objects = Ok ss /\ List.length ss = n /\
  forall s l, nth_error ss s = Some l -> forall k, nth_error l k = nth_error objects (s + k * n).
Proof. exact (pack_exact n objects). Qed.
Print Assumptions C148_files.
(** Without files only an empty submission can be packed. *)
Theorem C148_no_files (A : Type) (objects : list A) : pack 0 objects = match objects with [] => Ok [] | _ => Err RuntimeError end.
Proof. exact (pack_zero objects). Qed.
Print Assumptions C148_no_files.
(** The objects of a frame: one for each box, with its class and score. *)
Theorem C148_objects context time boxes classes scores os : make_inference_objects context time boxes classes scores = Ok os <->
  List.length os = List.length boxes /\ forall i, (i < List.length boxes)%nat -> exists o, nth_error os i = Some o /\ detection context time boxes classes scores i o.
Proof. exact (objects_exact context time boxes classes scores os). Qed.
Print Assumptions C148_objects.
(** Their ids are distinct. *)
Theorem C148_ids context time boxes classes scores os : make_inference_objects context time boxes classes scores = Ok os -> NoDup (map o_id os).
Proof. exact (ids_distinct context time boxes classes scores os). Qed.
Print Assumptions C148_ids.
(** The evaluation data: a row for each prediction and for each ground truth object that counts, in order and aligned. *)
Theorem C148_evaluation truths predictions p t : parse_metrics_objects truths predictions = Ok (p, t) -> exists kept, counted truths kept /\
  List.length (t_frame_id t) = List.length kept /\ List.length (t_bbox t) = List.length kept /\ List.length (t_type t) = List.length kept /\ List.length (t_difficulty t) = List.length kept /\
  (forall i g, nth_error kept i = Some g -> truth_row t i g) /\
  List.length (p_frame_id p) = List.length predictions /\ List.length (p_bbox p) = List.length predictions /\ List.length (p_type p) = List.length predictions /\ List.length (p_score p) = List.length predictions /\
  forall i o, nth_error predictions i = Some o -> prediction_row p i o.
Proof. exact (parse_rows truths predictions p t). Qed.
Print Assumptions C148_evaluation.
(** The only error: no prediction, or no ground truth object that counts. *)
Theorem C148_evaluation_error truths predictions : (parse_metrics_objects truths predictions = Err ValueError <-> predictions = [] \/ forall g, In g truths -> ~ counts g) /\
  forall e, parse_metrics_objects truths predictions = Err e -> e = ValueError.
Proof. exact (parse_error truths predictions). Qed.
Print Assumptions C148_evaluation_error.
(** Objects of different segments with the same time are put into the same frame. *)
Theorem C148_frames_refuted : exists g h predictions p t, counts g /\ counts h /\ g_context g <> g_context h /\ parse_metrics_objects [g; h] predictions = Ok (p, t) /\ nth_error (t_frame_id t) 0 = nth_error (t_frame_id t) 1.
Proof. exact (frames_refuted ). Qed.
Print Assumptions C148_frames_refuted.
(** An object without camera-synced box is evaluated with a box of zeros. *)
Theorem C148_missing_box_refuted : exists g o p t, g_synced g = None /\ parse_metrics_objects [g] [o] = Ok (p, t) /\ t_bbox t = [[0; 0; 0; 0; 0; 0; 0]]%Q.
Proof. exact (missing_box_refuted ). Qed.
Print Assumptions C148_missing_box_refuted.
(** The values by name: those at the place of the name, for the names that pass the filter. *)
Theorem C148_values keep names ap aph apl vs : metric_values keep 0 names ap aph apl = Ok vs -> forall n k v, In (n, k, v) vs <->
  exists j, nth_error names j = Some n /\ keep n = true /\ ((k = 0%nat /\ nth_error ap j = Some v) \/ (k = 1%nat /\ nth_error aph j = Some v) \/ (k = 2%nat /\ nth_error apl j = Some v)).
Proof. exact (values_exact keep names ap aph apl vs). Qed.
Print Assumptions C148_values.
(** They exist exactly if the arrays are long enough. *)
Theorem C148_values_accepts keep names ap aph apl : (forall j n, nth_error names j = Some n -> keep n = true -> (j < List.length ap)%nat /\ (j < List.length aph)%nat /\ (j < List.length apl)%nat) <->
  exists vs, metric_values keep 0 names ap aph apl = Ok vs.
Proof. exact (values_accepts keep names ap aph apl). Qed.
Print Assumptions C148_values_accepts.

Example C148_nonvacuous_objects : exists os, make_inference_objects "a" 5 [repeat 1%Q 7; repeat 2%Q 7] [1; 4]%Z [(1 # 2)%Q; 1%Q] = Ok os /\ map o_id os = [(1%Z, 0%nat); (4%Z, 1%nat)].
Proof. eexists. split; reflexivity. Qed.
Example C148_nonvacuous_files : pack 2 [1; 2; 3; 4; 5]%Z = Ok [[1; 3; 5]; [2; 4]]%Z.
Proof. reflexivity. Qed.
Example C148_nonvacuous_evaluation : exists p t, parse_metrics_objects [Truth "a" 1 "" 5 1 None 1; Truth "a" 1 "FRONT" 5 0 (Some (repeat 1%Q 7)) 2; Truth "a" 2 "FRONT" 0 1 None 1]
  [Object "a" 1 (repeat 2%Q 7) 1 (1%Z, 0%nat) 1%Q] = Ok (p, t) /\ t_frame_id t = [1%Z] /\ t_difficulty t = [2%Z] /\ p_type p = [1%Z].
Proof. do 2 eexists. split; [reflexivity|]. repeat split. Qed.
Example C148_nonvacuous_values : metric_values (fun n => negb (String.eqb n "b")) 0 ["a"; "b"; "c"]%string [1; 2; 3]%Q [4; 5; 6]%Q [7; 8; 9]%Q
  = Ok [("a", 0%nat, 1%Q); ("a", 1%nat, 4%Q); ("a", 2%nat, 7%Q); ("c", 0%nat, 3%Q); ("c", 1%nat, 6%Q); ("c", 2%nat, 9%Q)]%string.
Proof. reflexivity. Qed.
