(** C121: reading converted examples. *)
From Coq Require Import String.
From Verif Require Import Base ResultLib ScenarioModel ScenarioSpec ScenarioExamples TfReadModel TfReadSpec TfReadProofs TfReadWitness.
Open Scope list_scope.
Open Scope Z_scope.
(** A converted example can be read exactly when it was converted with the sizes of the task. *)
Theorem C121_readable pf cfg sc l : converted pf cfg sc l -> ((exists p, parse_tf_example l = Ok p) <-> task_sizes cfg).
Proof. exact (readable pf cfg sc l). Qed.
Print Assumptions C121_readable.
(** Otherwise reading raises. *)
Theorem C121_refused pf cfg sc l : converted pf cfg sc l -> ~ task_sizes cfg -> parse_tf_example l = Err ValueError.
Proof. exact (unreadable pf cfg sc l). Qed.
Print Assumptions C121_refused.
(** What is read under a name is what was written under it. *)
Theorem C121_contents l p name : parse_tf_example l = Ok p ->
  input name p = if existsb (String.eqb name) (map (fun d => fst (fst d)) features_description) then Ok (tensor name l) else Err KeyError.
Proof. exact (read_back l p name). Qed.
Print Assumptions C121_contents.
(** The names read are those written, except for seventeen. *)
Theorem C121_coverage cfg name : In name (map fst (shapes cfg)) <-> In name (map (fun d => fst (fst d)) features_description) \/ In name unread.
Proof. exact (coverage cfg name). Qed.
Print Assumptions C121_coverage.
(** The four fields of the self-driving cars of a batch: one value for each example whose car has a row, in order, and nothing for the others. *)
Theorem C121_sdc pf cfg : forall (exs : list (scenario * log)) ps,
  Forall (fun e => converted pf cfg (fst e) (snd e)) exs -> mapM parse_tf_example (map snd exs) = Ok ps ->
  exists rowss fields,
    Forall2 (fun e rows => exists modeled context, rows_ok pf (fst e) cfg modeled context rows) exs rowss
    /\ add_sdc_fields ps = Ok fields
    /\ map Some (sdc_x fields) = flat_map (sdc_part pf cfg "x") (combine (map fst exs) rowss)
    /\ map Some (sdc_y fields) = flat_map (sdc_part pf cfg "y") (combine (map fst exs) rowss)
    /\ map Some (sdc_z fields) = flat_map (sdc_part pf cfg "z") (combine (map fst exs) rowss)
    /\ map Some (sdc_yaw fields) = flat_map (sdc_part pf cfg "bbox_yaw") (combine (map fst exs) rowss).
Proof. exact (batch_sdc pf cfg). Qed.
Print Assumptions C121_sdc.
(** There is one value per example exactly when every car has a row. *)
Theorem C121_sdc_count pf cfg name scs rowss : List.length scs = List.length rowss ->
  (List.length (flat_map (sdc_part pf cfg name) (combine scs rowss)) <= List.length scs)%nat
  /\ (List.length (flat_map (sdc_part pf cfg name) (combine scs rowss)) = List.length scs
      <-> Forall2 (fun sc rows => sdc_kept sc rows = true) scs rowss).
Proof. exact (parts_length pf cfg name scs rowss). Qed.
Print Assumptions C121_sdc_count.
(** The car has a row if every track has one, *)
Theorem C121_kept_room pf sc cfg m c rows : well_formed sc -> rows_ok pf sc cfg m c rows ->
  count (tracks sc) <= max_num_agents cfg -> sdc_kept sc rows = true.
Proof. exact (kept_room pf sc cfg m c rows). Qed.
Print Assumptions C121_kept_room.
(** if it is modeled, *)
Theorem C121_kept_modeled pf sc cfg m c rows : rows_ok pf sc cfg m c rows -> In (sdc sc) (capped cfg (predictable sc cfg)) -> sdc_kept sc rows = true.
Proof. exact (kept_modeled pf sc cfg m c rows). Qed.
Print Assumptions C121_kept_modeled.
(** or if it comes before the others. *)
Theorem C121_kept_first pf sc cfg m c rows : well_formed sc -> rows_ok pf sc cfg m c rows ->
  count (capped cfg (predictable sc cfg)) < max_num_agents cfg ->
  (forall i, (i < List.length (tracks sc))%nat -> i <> sdc sc -> priority pf sc cfg (sdc sc) i) -> sdc_kept sc rows = true.
Proof. exact (kept_first pf sc cfg m c rows). Qed.
Print Assumptions C121_kept_first.
(** It has none if there are too many tracks and the others come before it. *)
Theorem C121_dropped pf sc cfg m c rows : well_formed sc -> rows_ok pf sc cfg m c rows -> max_num_agents cfg < count (tracks sc) ->
  ~ In (sdc sc) (capped cfg (predictable sc cfg)) ->
  (forall i, (i < List.length (tracks sc))%nat -> i <> sdc sc -> In i (capped cfg (predictable sc cfg)) \/ priority pf sc cfg i (sdc sc)) ->
  sdc_kept sc rows = false.
Proof. exact (dropped pf sc cfg m c rows). Qed.
Print Assumptions C121_dropped.
(** Examples converted with the default configuration cannot be read. *)
Theorem C121_default_refuted : (exists pf sc l, converted pf default_config sc l)
  /\ (forall pf sc l, converted pf default_config sc l -> parse_tf_example l = Err ValueError).
Proof. exact (default_refuted ). Qed.
Print Assumptions C121_default_refuted.
(** A batch of two examples for which there is a single value, that of the second. *)
Theorem C121_shift_refuted : exists pf cfg sc0 l0 sc1 l1 ps fields,
  task_sizes cfg /\ converted pf cfg sc0 l0 /\ converted pf cfg sc1 l1 /\ mapM parse_tf_example [l0; l1] = Ok ps
  /\ add_sdc_fields ps = Ok fields /\ map Some (sdc_x fields) = [sdc_value pf cfg sc1 "x"] /\ sdc_value pf cfg sc1 "x" <> sdc_value pf cfg sc0 "x".
Proof. exact (shift_refuted ). Qed.
Print Assumptions C121_shift_refuted.

(** A single example that is converted and read. *)
Example C121_nonvacuous : exists l p, converted ref_pf task_config alone l /\ parse_tf_example l = Ok p.
Proof.
  destruct (alone_converts task_config) as (l & C); try reflexivity.
  destruct (proj2 (readable ref_pf task_config alone l C) task_config_sizes) as (p & P). exists l, p. split; assumption.
Qed.
