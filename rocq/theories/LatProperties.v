(** C132: the latency evaluator. *)
From Coq Require Import String List.
From Verif Require Import Base ResultLib LatModel LatSpec LatProofs LatMain LatExample.
Import ListNotations.
Open Scope list_scope.
(** An output is accepted exactly when it is three arrays of the three names with the same number of rows. *)
Theorem C132_checked {V : Type} (first_dim : V -> option nat) (out : list (string * V)) : check_output first_dim out = Ok tt <-> detections first_dim out.
Proof. exact (check_exact first_dim out). Qed.
Print Assumptions C132_checked.
(** The evaluation succeeds exactly when the model gives such an output for every frame, in the order of the listing. *)
Theorem C132_outcome {V St : Type} (first_dim : V -> option nat) (sub : submission V St) input st : listing input -> initialize sub = Ok st ->
  (snd (evaluator first_dim sub input) = Ok tt <-> exists os st', runs first_dim sub st (frames input) os st').
Proof. exact (outcome first_dim sub input st). Qed.
Print Assumptions C132_outcome.
(** The calls of the model are determined. *)
Theorem C132_unique {V St : Type} (first_dim : V -> option nat) (sub : submission V St) st l os st' : runs first_dim sub st l os st' -> Forall (fun f => NoDup (map fst (arrays f))) l -> forall os' st'', runs first_dim sub st l os' st'' -> os = os' /\ st' = st''.
Proof. exact (runs_unique first_dim sub st l os st'). Qed.
Print Assumptions C132_unique.
(** A model that does not start leaves nothing. *)
Theorem C132_no_model {V St : Type} (first_dim : V -> option nat) (sub : submission V St) input e : initialize sub = Err e -> evaluator first_dim sub input = ([], Err e).
Proof. exact (no_model first_dim sub input e). Qed.
Print Assumptions C132_no_model.
(** After a success the results of every frame are complete, the latency file has one number for each frame, and nothing else is changed. *)
Theorem C132_success {V St : Type} (first_dim : V -> option nat) (sub : submission V St) input st (fs : files V) : listing input -> initialize sub = Ok st -> snd (evaluator first_dim sub input) = Ok tt ->
  exists os st', runs first_dim sub st (frames input) os st' /\
    let fs' := after (fst (evaluator first_dim sub input)) fs in
    Forall2 (complete sub fs') (frames input) os /\ fs' LatencyFile = Some (Numbers (map (fun o => toc o - tic o)%Z os)) /\
    forall p, p <> LatencyFile -> (forall f, In f (frames input) -> ~ of_frame f p) -> fs' p = fs p.
Proof. exact (success first_dim sub input st fs). Qed.
Print Assumptions C132_success.
(** After an error the earlier frames are complete, the frame of the error has its directory and no new file, the later frames and the latency file are as before. *)
Theorem C132_aborted {V St : Type} (first_dim : V -> option nat) (sub : submission V St) input st (fs : files V) e : listing input -> initialize sub = Ok st -> snd (evaluator first_dim sub input) = Err e ->
  exists before f rest os st', frames input = before ++ f :: rest /\ runs first_dim sub st before os st' /\ (forall o, ~ good_call first_dim sub st' f o) /\
    let fs' := after (fst (evaluator first_dim sub input)) fs in
    Forall2 (complete sub fs') before os /\ fs' (Dir (context f) (timestamp f)) = Some Made /\
    (forall n, fs' (File (context f) (timestamp f) n) = fs (File (context f) (timestamp f) n)) /\
    (forall g p, In g rest -> of_frame g p -> fs' p = fs p) /\ fs' LatencyFile = fs LatencyFile /\
    forall p, (forall f, In f (frames input) -> ~ of_frame f p) -> fs' p = fs p.
Proof. exact (aborted first_dim sub input st fs e). Qed.
Print Assumptions C132_aborted.
(** After a crash every file is as before, not complete, or final. *)
Theorem C132_crash_files {V St : Type} (first_dim : V -> option nat) (sub : submission V St) input st (fs : files V) n : listing input -> initialize sub = Ok st ->
  let tr := fst (evaluator first_dim sub input) in
  forall p, after (firstn n tr) fs p = fs p \/ after (firstn n tr) fs p = Some Partial \/ after (firstn n tr) fs p = after tr fs p.
Proof. exact (crash_files first_dim sub input st fs n). Qed.
Print Assumptions C132_crash_files.
(** After a crash some first frames are complete, and all but the next one and the latency file are as before. *)
Theorem C132_crash_frames {V St : Type} (first_dim : V -> option nat) (sub : submission V St) input st (fs : files V) n : listing input -> initialize sub = Ok st ->
  let fs' := after (firstn n (fst (evaluator first_dim sub input))) fs in
  exists before rest os st', frames input = before ++ rest /\ runs first_dim sub st before os st' /\ Forall2 (complete sub fs') before os /\
    (forall g p, In g (tl rest) -> of_frame g p -> fs' p = fs p) /\ (rest <> [] -> fs' LatencyFile = fs LatencyFile).
Proof. exact (crash_frames first_dim sub input st fs n). Qed.
Print Assumptions C132_crash_frames.
(** A second run after a crash leaves the same files as one run. *)
Theorem C132_rerun {V St : Type} (first_dim : V -> option nat) (sub : submission V St) input (fs : files V) n : let tr := fst (evaluator first_dim sub input) in forall p, after tr (after (firstn n tr) fs) p = after tr fs p.
Proof. exact (rerun first_dim sub input fs n). Qed.
Print Assumptions C132_rerun.
(** After an error the latency file may still hold the latencies of an earlier run. *)
Theorem C132_stale_refuted : ~ (forall (sub : submission nat Z) input fs e, listing input ->
  snd (evaluator Some sub input) = Err e -> forall l, after (fst (evaluator Some sub input)) fs LatencyFile <> Some (Numbers l)).
Proof. exact stale_latencies_refuted. Qed.
Print Assumptions C132_stale_refuted.
(** The written input fields are not always those that the model was given: a field requested twice is written twice. *)
Theorem C132_fields_refuted : ~ (forall (sub : submission nat Z) input st fs os st' f o data, listing input -> initialize sub = Ok st ->
  runs Some sub st (frames input) os st' -> In (f, o) (combine (frames input) os) -> given (data_fields sub) f data ->
  after (fst (evaluator Some sub input)) fs (File (context f) (timestamp f) "input_fields.txt") = Some (Lines (map fst data))).
Proof. exact repeated_field_refuted. Qed.
Print Assumptions C132_fields_refuted.
(** Two frames of which the second may fail. *)
Example C132_nonvacuous : listing ex_input /\ length (frames ex_input) = 2%nat /\ initialize (ex_model 9) = Ok 0%Z /\
  snd (evaluator Some (ex_model 9) ex_input) = Ok tt /\ snd (evaluator Some (ex_model 3) ex_input) = Err RuntimeError /\
  after (fst (evaluator Some (ex_model 9) ex_input)) (fun _ => None) LatencyFile = Some (Numbers [2; 5]%Z).
Proof. split; [exact ex_listing|]. split; [reflexivity|]. split; [reflexivity|]. split; [apply ex_success|]. split; [exact ex_abort|]. apply ex_success. Qed.
