(** C117: the segmentation metrics tool. *)
From Coq Require Import String Sorting Permutation.
From Verif Require Import Base SegModel SegSpec ToolModel SegToolModel SegToolSpec SegToolProofs.
Open Scope list_scope.
Open Scope Z_scope.
(** The frames of both files, each once and in ascending order, decide: the metrics are those of their points, and the first
    frame that cannot be compared stops the tool. *)
Theorem C117_outcome pds gts : exists keys, StronglySorted (fun a b => pair_ltb a b = true) keys /\
  (forall k, In k keys <-> exists f, In f (pds ++ gts) /\ id_of f = k) /\
  forall r, outcome (judged pds gts) keys r -> compute pds gts = reported r.
Proof. exact (tool_outcome pds gts). Qed.
Print Assumptions C117_outcome.
(** There always is such a decision. *)
Theorem C117_decided pds gts keys : exists r, outcome (judged pds gts) keys r.
Proof. exact (outcome_exists pds gts keys). Qed.
Print Assumptions C117_decided.
(** Metrics are printed exactly when every labelled frame can be compared. *)
Theorem C117_success pds gts : (exists m, compute pds gts = Ok (Some m)) <-> forall k, exists p, judged pds gts k (Points p).
Proof. exact (tool_success pds gts). Qed.
Print Assumptions C117_success.
(** The classes are those from 1 to 22. *)
Theorem C117_classes c : valid segmentation_types c = true <-> evaluated c.
Proof. exact (types_iff c). Qed.
Print Assumptions C117_classes.
(** The order of distinct frames does not matter. *)
Theorem C117_order pds pds' gts gts' : NoDup (map id_of pds) -> NoDup (map id_of gts) -> Permutation pds pds' -> Permutation gts gts' ->
  compute pds gts = compute pds' gts'.
Proof. exact (tool_order pds pds' gts gts'). Qed.
Print Assumptions C117_order.
(** Of frames with the same identity the last is used. *)
Theorem C117_last_wins pds a f b : (exists g, In g b /\ id_of g = id_of f) ->
  compute pds (a ++ f :: b) = compute pds (a ++ b) /\ compute (a ++ f :: b) pds = compute (a ++ b) pds.
Proof. exact (tool_last_wins pds a f b). Qed.
Print Assumptions C117_last_wins.
(** Predictions for frames without labels are not used. *)
Theorem C117_unlabelled a f b gts : (forall g, last_with (id_of f) gts g -> segmentation_labels g = []) ->
  compute (a ++ f :: b) gts = compute (a ++ b) gts.
Proof. exact (tool_unlabelled a f b gts). Qed.
Print Assumptions C117_unlabelled.
(** Without a prediction no point counts as correct. *)
Theorem C117_missing_prediction g pts c : compared g None (Points pts) -> evaluated c -> count (in_both c) pts = 0.
Proof. exact (tool_missing_prediction g pts c). Qed.
Print Assumptions C117_missing_prediction.
(** Without a prediction a frame is compared exactly if its two returns have equally many points. *)
Theorem C117_missing_compared g : (exists pts, compared g None (Points pts)) <->
  exists d1 d2, ri_return1 g = Some d1 /\ ri_return2 g = Some d2 /\ List.length d1 = List.length d2.
Proof. exact (tool_missing_iff g). Qed.
Print Assumptions C117_missing_compared.
(** Labels written with instance ids give the metrics of their classes if no instance id of the ground truth is the number of a class. *)
Theorem C117_instances pds gts : (forall f p, In f gts -> labels_in f p -> ~ evaluated (instance_id p)) ->
  compute (map (as_frame interleaved) pds) (map (as_frame interleaved) gts) = compute (map (as_frame classes) pds) (map (as_frame classes) gts).
Proof. exact (tool_instances pds gts). Qed.
Print Assumptions C117_instances.
(** In general the pairs of instance ids are counted as points too. *)
Theorem C117_channels p g : Permutation (combine (interleaved p) (interleaved g)) (combine (map instance_id p) (map instance_id g) ++ combine (classes p) (classes g)).
Proof. exact (interleaved_points p g). Qed.
Print Assumptions C117_channels.

(** Instance ids are taken for classes: a prediction with the right class everywhere has IoU 0 for cars, since the
    instance id of a building is 1. *)
Theorem C117_instances_refuted : exists pds gts m m',
  compute (map (as_frame classes) pds) (map (as_frame classes) gts) = Ok (Some m) /\ (forall c q, In (c, q) (per_class m) -> (q == 1)%Q) /\
  compute (map (as_frame interleaved) pds) (map (as_frame interleaved) gts) = Ok (Some m') /\ In (1, 0%Q) (per_class m').
Proof.
  exists [{| frame_context := "c"%string; frame_stamp := 0; lasers := [(TOP, Some [{| instance_id := 0; semantic_class := 14 |}], Some [])] |}],
         [{| frame_context := "c"%string; frame_stamp := 0; lasers := [(TOP, Some [{| instance_id := 1; semantic_class := 14 |}], Some [])] |}].
  eexists. eexists. split; [vm_compute; reflexivity|]. split; [intros c q I; cbn [per_class In] in I; repeat (destruct I as [E|I]; [injection E as <- <-; reflexivity|]); destruct I|].
  split; [vm_compute; reflexivity|]. cbn [per_class]. left. reflexivity.
Qed.
Print Assumptions C117_instances_refuted.
(** A labelled frame without prediction aborts the tool if the second return has another number of points. *)
Theorem C117_missing_prediction_refuted : exists gts, compute [] gts = Err CheckFailed /\
  forall f g, In f gts -> In g (segmentation_labels f) -> name g = TOP /\ ri_return1 g <> None /\ ri_return2 g <> None.
Proof.
  exists [{| context_name := "c"%string; frame_timestamp := 0; segmentation_labels := [{| name := TOP; ri_return1 := Some [1; 2]; ri_return2 := Some [3] |}] |}].
  split; [vm_compute; reflexivity|]. intros f g [<- |[]] [<- |[]]. repeat split; discriminate.
Qed.
Print Assumptions C117_missing_prediction_refuted.
(** A frame whose second return has no label is not skipped: the tool reads memory that was released. *)
Theorem C117_unset_refuted : exists gts, compute gts gts = Err RuntimeError /\ List.length gts = 1%nat.
Proof.
  exists [{| context_name := "c"%string; frame_timestamp := 0; segmentation_labels := [{| name := TOP; ri_return1 := Some [1; 2]; ri_return2 := None |}] |}].
  split; vm_compute; reflexivity.
Qed.
Print Assumptions C117_unset_refuted.

(** Two frames, the second without a prediction and given twice; a prediction without labels. *)
Definition ex (c : string) (t : Z) (a b : list Z) : seg_frame :=
  {| context_name := c; frame_timestamp := t; segmentation_labels := [{| name := TOP; ri_return1 := Some a; ri_return2 := Some b |}] |}.
Example C117_nonvacuous :
  (do r <- compute [ex "b" 1 [1; 2] [2; 2]; ex "z" 1 [7] []] [ex "b" 1 [1; 1] [2; 0]; ex "a" 5 [9] [9; 9]; ex "a" 5 [1; 2] [3; 0]];
   match r with Some m => Ok (firstn 3 (inters m), firstn 3 (unions m)) | None => Err ValueError end) = Ok ([1; 1; 0], [3; 3; 1]).
Proof. vm_compute. reflexivity. Qed.
Example C117_stopped : compute [] [ex "a" 5 [1] [1]; {| context_name := "a"; frame_timestamp := 6; segmentation_labels := [{| name := LASER_REAR; ri_return1 := None; ri_return2 := None |}] |}] = Ok None.
Proof. vm_compute. reflexivity. Qed.
