(** The latency evaluator: /repo/src/waymo_open_dataset/latency/wod_latency_evaluator.py 42-121, as a program with effects on files.

    Simplifications that apply to the whole file:
    - a directory is the list of its entries in the order of os.listdir; the .npy files of a frame are given by their base names;
    - the submitted module is a state machine: its state, a call of run_model with the state after it, its output and the
      readings of the clock before and after the call (65-67), as whole numbers;
    - a write is two effects, a created file that is not complete and the complete file, so that a crash can fall between them;
    - an array has a first dimension or none; the text of a number and of a list of lines is not modelled (ObjsModel.v for the lines);
    - a file that does not exist is a RuntimeError; the disk does not fill up, and no output path is a file where a directory is due. *)
From Coq Require Import String.
From Verif Require Import Base ResultLib KpModel.
Open Scope list_scope.

Section Evaluator.
Context {V St : Type} (first_dim : V -> option nat).

Record frame_entry := { f_name : string; f_is_dir : bool; f_files : list (string * V) }.
Record context_entry := { c_name : string; c_is_dir : bool; c_entries : list frame_entry }.
Record called := { next : St; output : list (string * V); tic : Z; toc : Z }.
Record submission := { data_fields : list string; initialize : result St; run_model : St -> list (string * V) -> result called }.

Inductive path := Dir (c t : string) | File (c t name : string) | LatencyFile.
Inductive content := Made | Partial | Array (v : V) | Lines (l : list string) | Numbers (l : list Z).
Inductive effect := Mkdir (p : path) | Create (p : path) | Fill (p : path) (x : content).

(** A program: the effects up to its end or to its error. *)
Definition io (A : Type) : Type := list effect * result A.
Definition ret {A} (a : A) : io A := ([], Ok a).
Definition lift {A} (r : result A) : io A := ([], r).
Definition emit (l : list effect) : io unit := (l, Ok tt).
Definition then_ {A B} (m : io A) (f : A -> io B) : io B :=
  match snd m with
  | Err e => (fst m, Err e)
  | Ok a => let r := f a in (fst m ++ fst r, snd r)
  end.

(** 60-63. *)
Definition load_fields (fields : list string) (files : list (string * V)) : result (list (string * V)) :=
  foldM (fun d f => match dict_get String.eqb f files with Some v => Ok (dict_set String.eqb f v d) | None => Err RuntimeError end) fields [].
(** 71-76. *)
Definition KEYS : list string := ["boxes"; "scores"; "classes"]%string.
Definition keys_match (out : list (string * V)) : bool :=
  forallb (fun kv => existsb (String.eqb (fst kv)) KEYS) out && forallb (fun k => existsb (String.eqb k) (map fst out)) KEYS.
Definition shape0 (k : string) (out : list (string * V)) : result nat :=
  match dict_get String.eqb k out with
  | None => Err KeyError
  | Some v => match first_dim v with None => Err IndexError | Some n => Ok n end
  end.
Definition check_output (out : list (string * V)) : result unit :=
  if negb (Nat.eqb (length out) 3) then Err AssertionError else
  if negb (keys_match out) then Err AssertionError else
  do num_objs <- shape0 "boxes" out;
  do n <- shape0 "scores" out;
  if negb (Nat.eqb n num_objs) then Err AssertionError else
  do n <- shape0 "classes" out;
  if negb (Nat.eqb n num_objs) then Err AssertionError else Ok tt.
(** 79-80, 83-84: np.save adds the suffix. *)
Definition write (p : path) (x : content) : list effect := [Create p; Fill p x].
Definition save (c t : string) (kv : string * V) : list effect := write (File c t (fst kv ++ ".npy")) (Array (snd kv)).
(** 42-87 process_example. *)
Definition process_example (sub : submission) (st : St) (c t : string) (files : list (string * V)) : io (St * Z) :=
  then_ (lift (load_fields (data_fields sub) files)) (fun data =>
  then_ (lift (run_model sub st data)) (fun o =>
  then_ (lift (check_output (output o))) (fun _ =>
  then_ (emit (flat_map (save c t) (output o))) (fun _ =>
  then_ (emit (write (File c t "input_fields.txt") (Lines (data_fields sub)))) (fun _ =>
  ret (next o, toc o - tic o)%Z))))).
(** 109-117: the frames of a context. *)
Fixpoint process_context (sub : submission) (c : string) (l : list frame_entry) (st : St) (latencies : list Z) : io (St * list Z) :=
  match l with
  | [] => ret (st, latencies)
  | f :: l =>
      if negb (f_is_dir f) then process_context sub c l st latencies else
      then_ (emit [Mkdir (Dir c (f_name f))]) (fun _ =>
      then_ (process_example sub st c (f_name f) (f_files f)) (fun r =>
      process_context sub c l (fst r) (latencies ++ [snd r])))
  end.
(** 105-117. *)
Fixpoint process_contexts (sub : submission) (l : list context_entry) (st : St) (latencies : list Z) : io (St * list Z) :=
  match l with
  | [] => ret (st, latencies)
  | c :: l =>
      if negb (c_is_dir c) then process_contexts sub l st latencies else
      then_ (process_context sub (c_name c) (c_entries c) st latencies) (fun r =>
      process_contexts sub l (fst r) (snd r))
  end.
(** 90-121. *)
Definition evaluator (sub : submission) (input : list context_entry) : io unit :=
  then_ (lift (initialize sub)) (fun st =>
  then_ (process_contexts sub input st []) (fun r =>
  emit (write LatencyFile (Numbers (snd r))))).

(** The files after some effects. *)
Definition files := path -> option content.
Definition path_dec (p q : path) : {p = q} + {p <> q}.
Proof. decide equality; apply string_dec. Defined.
Definition set_file (p : path) (x : content) (fs : files) : files := fun q => if path_dec p q then Some x else fs q.
Definition apply_effect (fs : files) (e : effect) : files :=
  match e with
  | Mkdir p => set_file p Made fs
  | Create p => set_file p Partial fs
  | Fill p x => set_file p x fs
  end.
Definition after (l : list effect) (fs : files) : files := fold_left apply_effect l fs.
End Evaluator.
Arguments frame_entry V : clear implicits.
Arguments context_entry V : clear implicits.
Arguments called V St : clear implicits.
Arguments submission V St : clear implicits.
Arguments content V : clear implicits.
Arguments effect V : clear implicits.
Arguments files V : clear implicits.
