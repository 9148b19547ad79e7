(** What the latency evaluator should write. Shared with the model: the entries of directories, the submission, the paths
    and the contents of files. *)
From Coq Require Import String Permutation.
From Verif Require Import Base LatModel.
Open Scope list_scope.

Section Spec.
Context {V St : Type} (first_dim : V -> option nat).

(** The frames of the input: the directories in the directories, in the order of the listings. *)
Record frame := { context : string; timestamp : string; arrays : list (string * V) }.
Definition frames (input : list (context_entry V)) : list frame :=
  flat_map (fun c => map (fun f => {| context := c_name c; timestamp := f_name f; arrays := f_files f |}) (filter f_is_dir (c_entries c))) (filter c_is_dir input).
Definition place (f : frame) : string * string := (context f, timestamp f).
(** A directory has no two entries, and a frame no two arrays, of the same name. *)
Definition listing (input : list (context_entry V)) : Prop :=
  NoDup (map place (frames input)) /\ Forall (fun f => NoDup (map fst (arrays f))) (frames input).

(** The model is given the arrays of the requested fields, each once, in the order of the requests. *)
Definition given (fields : list string) (f : frame) (data : list (string * V)) : Prop :=
  map fst data = rev (nodup string_dec (rev fields)) /\ incl data (arrays f).
(** Its output: three arrays with the same number of rows. *)
Definition detections (out : list (string * V)) : Prop :=
  exists b s c n, Permutation out [("boxes"%string, b); ("scores"%string, s); ("classes"%string, c)] /\
    first_dim b = Some n /\ first_dim s = Some n /\ first_dim c = Some n.
(** The frames are processed one after the other, the state passed on. *)
Definition good_call (sub : submission V St) (st : St) (f : frame) (o : called V St) : Prop :=
  exists data, given (data_fields sub) f data /\ run_model sub st data = Ok o /\ detections (output o).
Inductive runs (sub : submission V St) : St -> list frame -> list (called V St) -> St -> Prop :=
| runs_nil st : runs sub st [] [] st
| runs_cons st f fs o os st' : good_call sub st f o -> runs sub (next o) fs os st' -> runs sub st (f :: fs) (o :: os) st'.

(** The results of a frame are complete. *)
Definition complete (sub : submission V St) (fs : files V) (f : frame) (o : called V St) : Prop :=
  fs (Dir (context f) (timestamp f)) = Some Made /\
  fs (File (context f) (timestamp f) "input_fields.txt") = Some (Lines (data_fields sub)) /\
  forall k v, In (k, v) (output o) -> fs (File (context f) (timestamp f) (k ++ ".npy")) = Some (Array v).
(** The paths of a frame. *)
Definition of_frame (f : frame) (p : path) : Prop :=
  p = Dir (context f) (timestamp f) \/ exists n, p = File (context f) (timestamp f) n.
Definition same_on (P : path -> Prop) (a b : files V) : Prop := forall p, P p -> a p = b p.
End Spec.
Arguments frame V : clear implicits.
