(** C103 to C107: the streaming metric ops. *)
From Coq Require Import String Ascii.
From Verif Require Import Base BreakdownModel StreamModel StreamSpec StreamProofs StreamDict StreamValues.
Open Scope list_scope.
Open Scope Z_scope.

(** The variables hold the rows of all batches fed to the family since it was initialised, in order. *)
Theorem C103_accumulates ls h s0 : (forall f, layout_ok (ls f)) -> history_ok ls h ->
  exists s, run s0 h = Ok s /\
    forall f, (exists d, In (Init f d) h) -> forall x t, In (x, t) (ls f) ->
      s (variable_name f x) = Some (all_rows t (fed f x h [])).
Proof. exact (accumulates ls h s0). Qed.
Print Assumptions C103_accumulates.
(** How the data is cut into batches does not matter. *)
Theorem C103_split l f d bs bs' s0 s0' : layout_ok l -> declares l d -> Forall (batch_ok l) bs -> Forall (batch_ok l) bs' ->
  (forall x, concat (map data (concat (map (given x) bs))) = concat (map data (concat (map (given x) bs'))) /\
             list_sum (map first_dim (concat (map (given x) bs))) = list_sum (map first_dim (concat (map (given x) bs')))) ->
  exists s s', run s0 (Init f d :: feeds f bs) = Ok s /\ run s0' (Init f d :: feeds f bs') = Ok s' /\
    forall x, In x (map fst l) -> s (variable_name f x) = s' (variable_name f x) /\ s (variable_name f x) <> None.
Proof. exact (split_independent l f d bs bs' s0 s0'). Qed.
Print Assumptions C103_split.
(** Exactly when one update is accepted, and its result. *)
Theorem C103_update v u t : updated v u = Ok t <->
  exists n rest, shape u = n :: rest /\ (0 < size rest)%nat /\ Nat.divide (size rest) (length (data v)) /\
    t = Tensor ((length (data v) / size rest + n)%nat :: rest) (data v ++ data u).
Proof. exact (update_exact v u t). Qed.
Print Assumptions C103_update.
(** The declared fields of the three functions are such layouts. *)
Theorem C103_detection_layout b : b <> BOX_UNKNOWN -> layout_ok (detection_fields (box_width b)) /\ declares (detection_fields (box_width b)) (detection_decl b).
Proof. exact (detection_layout b). Qed.
Print Assumptions C103_detection_layout.
Theorem C103_tracking_layout b : b <> BOX_UNKNOWN -> layout_ok (tracking_fields (box_width b)) /\ declares (tracking_fields (box_width b)) (tracking_decl b).
Proof. exact (tracking_layout b). Qed.
Print Assumptions C103_tracking_layout.
Theorem C103_motion_layout m k n tp tg : (0 < m)%nat -> (0 < k)%nat -> (0 < n)%nat -> (0 < tp)%nat -> (0 < tg)%nat ->
  layout_ok (motion_fields m k n tp tg) /\
  declares (motion_fields m k n tp tg) (motion_decl (Z.of_nat m) (Z.of_nat k) (Z.of_nat n) (Z.of_nat tp) (Z.of_nat tg)).
Proof. exact (motion_layout m k n tp tg). Qed.
Print Assumptions C103_motion_layout.
(** Each field is fed the argument of its name, or the documented default. *)
Theorem C103_detection_fed x b : detection_dict x = Ok b -> detection_feeds x b.
Proof. exact (detection_fed x b). Qed.
Print Assumptions C103_detection_fed.
Theorem C103_tracking_fed x b : tracking_dict x = Ok b -> tracking_feeds x b.
Proof. exact (tracking_fed x b). Qed.
Print Assumptions C103_tracking_fed.
Theorem C103_motion_fed dec n x b : motion_dict dec n x = Ok b -> motion_feeds dec n x b.
Proof. exact (motion_fed dec n x b). Qed.
Print Assumptions C103_motion_fed.
Theorem C103_fed_exists x : (exists b, detection_dict x = Ok b) <-> (d_ground_truth_speed x = None -> shape (d_ground_truth_bbox x) <> []).
Proof. exact (fed_exists_detection x). Qed.
Print Assumptions C103_fed_exists.
(** With the default box type the variables cannot be initialised. *)
Theorem C103_unknown_box s : initialize Detection s (detection_decl BOX_UNKNOWN) = Err ValueError /\
  initialize Tracking s (tracking_decl BOX_UNKNOWN) = Err ValueError.
Proof. exact (unknown_box s). Qed.
Print Assumptions C103_unknown_box.
(** A batch with another box width is accepted and the old rows are cut anew. *)
Theorem C103_width_refuted : exists v u t n m rest rest', shape v = n :: rest /\ length (data v) = (n * size rest)%nat /\
  shape u = m :: rest' /\ length (data u) = (m * size rest')%nat /\ rest <> rest' /\ updated v u = Ok t.
Proof. exact (width_witness ). Qed.
Print Assumptions C103_width_refuted.
(** Two calls in one graph do not have variables of their own. *)
Theorem C103_calls_refuted : exists ls h f x s t, (forall g, layout_ok (ls g)) /\ history_ok ls h /\ In (x, t) (ls f) /\
  run (fun _ => None) h = Ok s /\ s (variable_name f x) <> Some (all_rows t (fed_to_call f 1 x h [])).
Proof. exact (calls_witness ). Qed.
Print Assumptions C103_calls_refuted.
(** Running all update ops of the dictionary adds a batch once, or never: when the first kept name comes
    again later, or no name is kept. *)
Theorem C104_detection show recall filter names s b : Forall no_slash names ->
  let d := detection_metric_ops show recall filter names in
  ((exists i name, first_kept filter names i /\ last_at names name i) ->
     run_updates Detection d s b = run_update Detection s b /\ run_updates_together Detection d s b = run_update Detection s b) /\
  (~ (exists i name, first_kept filter names i /\ last_at names name i) ->
     run_updates Detection d s b = Ok s /\ run_updates_together Detection d s b = Ok s).
Proof. exact (detection_once show recall filter names s b). Qed.
Print Assumptions C104_detection.
Theorem C104_tracking names s b : Forall no_slash names ->
  let d := tracking_metric_ops names in
  ((exists i name, first_kept None names i /\ last_at names name i) ->
     run_updates Tracking d s b = run_update Tracking s b /\ run_updates_together Tracking d s b = run_update Tracking s b) /\
  (~ (exists i name, first_kept None names i /\ last_at names name i) ->
     run_updates Tracking d s b = Ok s /\ run_updates_together Tracking d s b = Ok s).
Proof. exact (tracking_once names s b). Qed.
Print Assumptions C104_tracking.
Theorem C104_motion names s b : Forall no_slash names ->
  let d := motion_metric_ops names in
  ((exists i name, first_kept None names i /\ last_at names name i) ->
     run_updates MotionFamily d s b = run_update MotionFamily s b /\ run_updates_together MotionFamily d s b = run_update MotionFamily s b) /\
  (~ (exists i name, first_kept None names i /\ last_at names name i) ->
     run_updates MotionFamily d s b = Ok s /\ run_updates_together MotionFamily d s b = Ok s).
Proof. exact (motion_once names s b). Qed.
Print Assumptions C104_motion.
(** The names of every configuration meet the condition. *)
Theorem C104_names c names : py_names c = Ok names -> Forall no_slash names.
Proof. exact (names_no_slash c names). Qed.
Print Assumptions C104_names.
(** Without repeated generators or levels a batch is added once if any name is kept. *)
Theorem C104_config show recall filter c names s b : NoDup (generators c) -> (forall l, In l (difficulties c) -> NoDup l) ->
  py_names c = Ok names -> (exists n, In n names /\ kept filter n) ->
  run_updates Detection (detection_metric_ops show recall filter names) s b = run_update Detection s b /\
  run_updates_together Detection (detection_metric_ops show recall filter names) s b = run_update Detection s b.
Proof. exact (config_once show recall filter c names s b). Qed.
Print Assumptions C104_config.
Theorem C104_repeated_refuted : exists c names, py_names c = Ok names /\ names <> [] /\
  forall show s b, run_updates Detection (detection_metric_ops show None None names) s b = Ok s /\
                   run_updates Tracking (tracking_metric_ops names) s b = Ok s.
Proof. exact (repeated_witness ). Qed.
Print Assumptions C104_repeated_refuted.
Theorem C104_filter_refuted : exists c names filter, NoDup (generators c) /\ py_names c = Ok names /\ names <> [] /\
  forall show s b, run_updates Detection (detection_metric_ops show None (Some filter) names) s b = Ok s.
Proof. exact (filter_witness ). Qed.
Print Assumptions C104_filter_refuted.
(** The dictionary has exactly the metrics of the kept names. *)
Theorem C105_detection show recall filter names : Forall no_slash names ->
  reports (detection_metric_ops show recall filter names) filter names (detection_entry show recall).
Proof. exact (detection_reports show recall filter names). Qed.
Print Assumptions C105_detection.
Theorem C105_tracking names : Forall no_slash names -> reports (tracking_metric_ops names) None names tracking_entry.
Proof. exact (tracking_reports names). Qed.
Print Assumptions C105_tracking.
Theorem C105_motion names : Forall no_slash names -> reports (motion_metric_ops names) None names motion_entry.
Proof. exact (motion_reports names). Qed.
Print Assumptions C105_motion.
(** The value is the best recall among the cutoffs with a precision above the given one. *)
Theorem C106_recall p pr : pr <> [] -> (forall x, In x pr -> (0 <= snd x)%Q) ->
  exists v, recall_at p pr = Some v /\ best_recall p pr v.
Proof. exact (recall_best p pr). Qed.
Print Assumptions C106_recall.
(** At precision 1 it is always 0. *)
Theorem C106_at_one pr : pr <> [] -> (forall x, In x pr -> (fst x <= 1)%Q) -> recall_at 1 pr = Some 0%Q.
Proof. exact (recall_one pr). Qed.
Print Assumptions C106_at_one.
Theorem C106_perfect_refuted : exists pr : list (Q * Q), In (1, 1)%Q pr /\ (forall x, In x pr -> (fst x <= 1)%Q) /\ recall_at 1 pr = Some 0%Q.
Proof. exact (perfect_witness ). Qed.
Print Assumptions C106_perfect_refuted.
(** Documented shapes are accepted exactly when the ground truth has as many agents as a joint prediction. *)
Theorem C107_shapes b m k n tp tg a ids : motion_sizes (documented b m k n tp tg a ids) =
  if Z.eqb a n then Ok (Some m, Some k, Some n, Some tp, Some tg) else Err AssertionError.
Proof. exact (documented_accepted b m k n tp tg a ids). Qed.
Print Assumptions C107_shapes.
(** In general they are accepted exactly when the sizes agree. *)
Theorem C107_sizes x m k n tp tg : motion_sizes x = Ok (m, k, n, tp, tg) <-> agreeing x m k n tp tg.
Proof. exact (sizes_exact x m k n tp tg). Qed.
Print Assumptions C107_sizes.
(** Without ids a scenario is named by its position in its batch. *)
Theorem C107_ids dec sizes : (forall x y, 0 <= x -> 0 <= y -> dec x = dec y -> x = y) ->
  forall k l i j, (i < nth k sizes 0)%nat -> (j < nth l sizes 0)%nat ->
    (nth i (data (default_scenario_id dec (nth k sizes 0%nat))) (CS "") = nth j (data (default_scenario_id dec (nth l sizes 0%nat))) (CS "") <-> i = j).
Proof. exact (default_ids dec sizes). Qed.
Print Assumptions C107_ids.
Theorem C107_distinct dec sizes : (forall x y, 0 <= x -> 0 <= y -> dec x = dec y -> x = y) ->
  (NoDup (concat (map (fun n => data (default_scenario_id dec n)) sizes)) <->
   forall k l, k <> l -> nth k sizes 0%nat = 0%nat \/ nth l sizes 0%nat = 0%nat).
Proof. exact (default_ids_distinct dec sizes). Qed.
Print Assumptions C107_distinct.
Theorem C107_ids_refuted dec : exists sizes k l i j, k <> l /\ (i < nth k sizes 0)%nat /\ (j < nth l sizes 0)%nat /\
  nth i (data (default_scenario_id dec (nth k sizes 0%nat))) (CS "") = nth j (data (default_scenario_id dec (nth l sizes 0%nat))) (CS "").
Proof. exact (repeated_ids_witness dec). Qed.
Print Assumptions C107_ids_refuted.

(** Two batches of predictions in one graph. *)
Example C103_nonvacuous :
  let x := "prediction_score"%string in
  match run (fun _ => None) [Init Detection [(x, [0])]; Feed Detection 0 [(x, Tensor [2%nat] [CF 1; CF 2])]; Feed Detection 0 [(x, Tensor [1%nat] [CF 3])]] with
  | Ok s => s (variable_name Detection x) = Some (Tensor [3%nat] [CF 1; CF 2; CF 3])
  | Err _ => False
  end.
Proof. reflexivity. Qed.
Example C104_nonvacuous : forall show, map fst (filter is_update (detection_metric_ops show None (Some "TYPE_PED"%string)
  ["OBJECT_TYPE_TYPE_VEHICLE_LEVEL_1"; "OBJECT_TYPE_TYPE_PEDESTRIAN_LEVEL_1"; "OBJECT_TYPE_TYPE_PEDESTRIAN_LEVEL_2"]%string)) =
  ["OBJECT_TYPE_TYPE_PEDESTRIAN_LEVEL_1/AP"]%string.
Proof. reflexivity. Qed.
Example C105_nonvacuous : get_key (tracking_metric_ops ["A"; "B"]%string) "B/MISS" = Some (Element "miss" 1, NoOp) /\
  get_key (motion_metric_ops ["A"; "B"]%string) "A/minADE" = Some (Element "min_ade" 0, UpdateOp).
Proof. split; reflexivity. Qed.
Example C106_nonvacuous : recall_at (1 # 2) [(1, 1 # 4); (3 # 4, 1 # 2); (1 # 2, 1)]%Q = Some (1 # 2)%Q.
Proof. reflexivity. Qed.
Example C107_nonvacuous : is_ok (motion_sizes (documented None 4 6 8 16 91 8 true)) = true /\
  is_ok (motion_sizes (documented None 4 6 1 16 91 8 true)) = false.
Proof. split; reflexivity. Qed.
