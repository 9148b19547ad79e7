(** C115: comparing latency results with a submission. *)
From Coq Require Import String Permutation.
From Verif Require Import Base HungarianSpec MatcherSpec ToolModel ToolSpec CompareModel CompareSpec CompareProofs.
Open Scope list_scope.
Open Scope Z_scope.

(** What acceptance says about every frame that has latency results. *)
Theorem C115_sound {B : Type} (overlap : bool -> B -> B -> Q) (uninitialised : bool) (threshold minimum : Q) (latency0 full : list (object (label B))) (last : object (label B)) : let latency := latency0 ++ [last] in let d3 := has_heading (label_box last) in
  proper (overlap d3) threshold (filter (considered minimum) latency) full ->
  CompareModel.compare overlap uninitialised threshold minimum latency full = Ok tt ->
  forall k a b, selects (in_frame minimum k) latency a -> selects (in_frame minimum k) full b -> a <> [] ->
    b <> [] /\ exists mu, best (overlap d3) threshold a b mu /\ tolerated a b mu.
Proof. exact (compare_sound overlap uninitialised threshold minimum latency0 full last). Qed.
Print Assumptions C115_sound.
(** It is accepted if that holds whichever best pairs the matcher finds. *)
Theorem C115_complete {B : Type} (overlap : bool -> B -> B -> Q) (uninitialised : bool) (threshold minimum : Q) (latency0 full : list (object (label B))) (last : object (label B)) : let latency := latency0 ++ [last] in let d3 := has_heading (label_box last) in
  proper (overlap d3) threshold (filter (considered minimum) latency) full ->
  (forall k a b, selects (in_frame minimum k) latency a -> selects (in_frame minimum k) full b -> a <> [] ->
    b <> [] /\ forall mu, best (overlap d3) threshold a b mu -> tolerated a b mu) ->
  CompareModel.compare overlap uninitialised threshold minimum latency full = Ok tt.
Proof. exact (compare_complete overlap uninitialised threshold minimum latency0 full last). Qed.
Print Assumptions C115_complete.
(** Equal results are accepted, unless two boxes in the same place have different scores. *)
Theorem C115_identical {B : Type} (overlap : bool -> B -> B -> Q) (uninitialised : bool) (threshold minimum : Q) (latency0 full : list (object (label B))) (last : object (label B)) : let latency := latency0 ++ [last] in let d3 := has_heading (label_box last) in
  proper (overlap d3) threshold (filter (considered minimum) latency) full ->
  (threshold <= 1)%Q ->
  (forall a, In a latency -> overlap d3 (shape (label_box a)) (shape (label_box a)) == 1)%Q ->
  (forall k a b, In a latency -> In b latency -> in_frame minimum k a -> in_frame minimum k b -> kind (label_box a) = kind (label_box b) ->
    (1 - (1 # 2000000) <= overlap d3 (shape (label_box a)) (shape (label_box b)))%Q -> close a b) ->
  (forall k a b, selects (in_frame minimum k) latency a -> selects (in_frame minimum k) full b -> a <> [] -> Permutation a b) ->
  CompareModel.compare overlap uninitialised threshold minimum latency full = Ok tt.
Proof. exact (compare_identical overlap uninitialised threshold minimum latency0 full last). Qed.
Print Assumptions C115_identical.
(** The same two detections, in another order, are refused. *)
Theorem C115_order_refuted : exists a b, a <> b /\
  CompareModel.compare exact_overlap true (9 # 10) 0 [a; b] [a; b] = Ok tt /\
  CompareModel.compare exact_overlap true (9 # 10) 0 [a; b] [b; a] = Err CheckFailed.
Proof. exact (order_matters ). Qed.
Print Assumptions C115_order_refuted.
(** A frame without latency results is not compared. *)
Theorem C115_missing_refuted : exists latency full, latency <> [] /\ (length full > 20 * length latency)%nat /\
  CompareModel.compare exact_overlap true (9 # 10) 0 latency (latency ++ full) = Ok tt.
Proof. exact (missing_accepted ). Qed.
Print Assumptions C115_missing_refuted.

Example C115_nonvacuous :
  CompareModel.compare exact_overlap true (9 # 10) 0 [detection 1 (9 # 10) 0; detection 1 (1 # 2) 1; detection 2 (1 # 2) 1]
    [detection 2 (1 # 2) 1; detection 1 (1 # 2) 1; detection 1 (92 # 100) 0; detection 3 1 5] = Ok tt /\
  CompareModel.compare exact_overlap true (9 # 10) 0 [detection 1 (9 # 10) 0; detection 1 (1 # 2) 1] [detection 1 (9 # 10) 0; detection 1 (6 # 10) 1] = Err CheckFailed /\
  proper (exact_overlap true) (9 # 10) [detection 1 (9 # 10) 0; detection 1 (1 # 2) 1] [detection 2 (1 # 2) 1].
Proof.
  split; [reflexivity|]. split; [reflexivity|]. split; [reflexivity|]. split.
  - intros a [<-|[<-|[]]]; cbn; lia.
  - intros a b Ia Ib. unfold exact_overlap. destruct (Nat.eqb _ _); split; discriminate.
Qed.
