(** C139: the column types of components. *)
From Coq Require Import String List.
From Verif Require Import Base ResultLib ComponentModel ComponentSpec ArrowModel ArrowSpec ArrowProofs ArrowExample.
Import ListNotations.
Open Scope string_scope.
Open Scope list_scope.
(** The schema exists exactly if every leaf has a type; it then has the columns of every instance. *)
Theorem C139_schema c : NoDup (schema (erase_component c)) ->
  ((forall n r t, In (n, r, t) (tfields c) -> annotated t) -> exists s, typed_schema c = Ok s /\ map fst s = schema (erase_component c) /\
     map (fun p => (fst p, Some (snd p))) s = component_arrow_types c) /\
  (~ (forall n r t, In (n, r, t) (tfields c) -> annotated t) -> typed_schema c = Err RuntimeError).
Proof. exact (schema_exact c). Qed.
Print Assumptions C139_schema.
(** The components of the dataset, without their types. *)
Theorem C139_dataset_names : map erase_component typed_components = components.
Proof. exact (dataset_erased ). Qed.
Print Assumptions C139_dataset_names.
(** They all have a schema. *)
Theorem C139_dataset_schema c : In c typed_components -> exists s, typed_schema c = Ok s /\ map fst s = schema (erase_component c).
Proof. exact (dataset_schema c). Qed.
Print Assumptions C139_dataset_schema.
(** A column of two of them is part of the key and has the same type in both. *)
Theorem C139_dataset_agree c c' s s' n a a' : In c typed_components -> In c' typed_components -> typed_schema c = Ok s -> typed_schema c' = Ok s' ->
  tname c <> tname c' -> In (n, a) s -> In (n, a') s' -> (exists r, n = ("key." ++ r)%string) /\ a = a'.
Proof. exact (dataset_agree c c' s s' n a a'). Qed.
Print Assumptions C139_dataset_agree.
(** All columns of a repeated field of the dataset are lists. *)
Theorem C139_dataset_repeated c : In c typed_components -> repeated_lists (TNode false (tfields c)).
Proof. exact (dataset_repeated c). Qed.
Print Assumptions C139_dataset_repeated.
(** This is not ensured for other components. *)
Theorem C139_repeated_refuted : exists c s, typed_schema c = Ok s /\ NoDup (schema (erase_component c)) /\ ~ repeated_lists (TNode false (tfields c)).
Proof. exact (repeated_refuted ). Qed.
Print Assumptions C139_repeated_refuted.
(** The schema of the component of the documentation. *)
Theorem C139_documented : typed_schema documented =
  Ok [("key.context_name", Text); ("key.object_id", Text); ("[MyComponent].bar[*].foo.name", ListOf Text);
      ("[MyComponent].bar[*].foo.value", ListOf Int32); ("[MyComponent].baz.value", Float32)].
Proof. exact (documented_schema ). Qed.
Print Assumptions C139_documented.

(** A row of an instance fits the schema exactly if each of its leaves fits its own type, null fitting all. *)
Theorem C139_rows : forall V (none : V) (fits : option arrow -> V -> Prop), (forall a, fits a none) ->
  forall c vs, instance (erase_component c) vs -> NoDup (schema (erase_component c)) ->
  (row_fits fits (component_arrow_types c) (to_flatten_dict none (erase_component c) vs) <-> Forall2 (fun f v => conforms fits (snd f) v) (tfields c) vs).
Proof. exact (@rows_fit). Qed.
Print Assumptions C139_rows.
Example C139_nonvacuous : forall n, In pose typed_components /\ instance (erase_component pose) (pose_of n) /\
  (row_fits column_holds (component_arrow_types pose) (to_flatten_dict Null (erase_component pose) (pose_of n)) <-> n = 16%nat).
Proof. exact pose_fits. Qed.
Example C139_nonvacuous_untyped : typed_schema untyped = Err RuntimeError /\ NoDup (schema (erase_component untyped)).
Proof. exact untyped_schema. Qed.
