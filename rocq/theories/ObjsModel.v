(** Objects from the results of the latency evaluator: latency/make_objects_file_from_latency_results.py and
    the part of latency/wod_latency_evaluator.py that writes the input fields (in src/waymo_open_dataset).

    Conventions.
    - A floating point number is NaN or an exact rational (SubmitModel.v); scores are already floats.
    - The names of the input fields contain no carriage return.
    - Errors: AssertionError for assert, ValueError for the raised errors and for enumeration values that do
      not exist, IndexError for reading outside of an array. *)
From Coq Require Import String Ascii.
From Verif Require Import Base ResultLib SubmitModel ToolModel.
Open Scope list_scope.
Open Scope Z_scope.

Definition newline : ascii := Ascii.ascii_of_nat 10.
(** A separator join of the DATA_FIELDS (wod_latency_evaluator.py:86-87). *)
Fixpoint join_fields (l : list string) : string :=
  match l with
  | [] => EmptyString
  | [s] => s
  | s :: l' => (s ++ String newline (join_fields l'))%string
  end.
(** readlines of a text file: every line keeps its line feed. *)
Fixpoint read_lines (s : string) : list string :=
  match s with
  | EmptyString => []
  | String c s' =>
      if Ascii.eqb c newline then String c EmptyString :: read_lines s' else
      match s' with
      | EmptyString => [String c EmptyString]
      | _ => match read_lines s' with
             | [] => [String c EmptyString]
             | line :: l => String c line :: l
             end
      end
  end.
(** endswith and the slice that drops the last six characters. *)
Definition image_suffix : string := "_IMAGE".
Definition ends_with (s : string) : bool := Nat.leb 6 (String.length s) && String.eqb (String.substring (String.length s - 6) 6 s) image_suffix.
Definition without_suffix (s : string) : string := String.substring 0 (String.length s - 6) s.

(** The double constant 0.01. *)
Definition min_extent : Q := 5764607523034235 # 576460752303423488.
(** The arrays of one frame: [rows] boxes with [columns] numbers, the classes and the scores. *)
Record arrays := { rows : nat; columns : nat; at_ : nat -> nat -> num; classes : list Z; scores : list num; fields : option string }.
(** The Object that is made: a number that is not set is None. *)
Record made := { context_name : string; timestamp : Z; mscore : num; mtype : Z; mcamera : option camera_name;
  mx : option num; my : option num; mz : option num; ml : option num; mw : option num; mh : option num; mheading : option num }.
(** Reading a number that is not set gives 0. *)
Definition value (x : option num) : num := match x with None => Num 0 | Some v => v end.

Section Frame.
Variables (a : arrays) (ctx : string) (ts : Z).
(** make_objects_file_from_latency_results.py:66-71. *)
Definition input_fields : list string := match fields a with None => [] | Some s => read_lines s end.
(** 103-117. *)
Definition camera_of : result camera_name :=
  match input_fields with
  | [f] => if ends_with f then match parse_camera (without_suffix f) with Some c => Ok c | None => Err ValueError end else Err ValueError
  | _ => Err ValueError
  end.
Definition is_class (c : Z) : bool := (0 <=? c) && (c <=? 4).
(** 78-117: the object of row [i]. *)
Definition make_object (i : nat) : result made :=
  match nth_error (scores a) i, nth_error (classes a) i with
  | Some s, Some c =>
      if negb (is_class c) then Err ValueError else
      if Nat.eqb (columns a) 7 then
        Ok {| context_name := ctx; timestamp := ts; mscore := s; mtype := c; mcamera := None; mx := Some (at_ a i 0%nat); my := Some (at_ a i 1%nat);
              mz := Some (at_ a i 2%nat); ml := Some (at_ a i 3%nat); mw := Some (at_ a i 4%nat); mh := Some (at_ a i 5%nat); mheading := Some (at_ a i 6%nat) |}
      else if Nat.eqb (columns a) 4 then
        do cam <- camera_of;
        Ok {| context_name := ctx; timestamp := ts; mscore := s; mtype := c; mcamera := Some cam; mx := Some (at_ a i 0%nat); my := Some (at_ a i 1%nat);
              mz := None; ml := Some (at_ a i 2%nat); mw := Some (at_ a i 3%nat); mh := None; mheading := None |}
      else
        Ok {| context_name := ctx; timestamp := ts; mscore := s; mtype := c; mcamera := None; mx := None; my := None; mz := None; ml := None;
              mw := None; mh := None; mheading := None |}
  | _, _ => Err IndexError
  end.
(** 119-125. *)
Definition skipped (o : made) : bool :=
  lessb (mscore o) min_score || lessb (value (ml o)) min_extent || lessb (value (mw o)) min_extent ||
  match mh o with Some h => lessb h min_extent | None => false end.
(** make_object_list_from_subdir (32-129). *)
Definition make_object_list : result (list made) :=
  if negb (Nat.eqb (length (classes a)) (rows a)) then Err AssertionError else
  if negb (Nat.eqb (length (scores a)) (rows a)) then Err AssertionError else
  do l <- mapM make_object (seq 0 (rows a));
  Ok (filter (fun o => negb (skipped o)) l).
End Frame.
(** The object as the submission tool reads it. *)
Definition as_submitted (o : made) : SubmitModel.object (string * Z * Z * option camera_name) :=
  {| SubmitModel.score := mscore o;
     obox := {| center_x := value (mx o); center_y := value (my o); center_z := value (mz o); blength := value (ml o); bwidth := value (mw o);
                bheight := value (mh o); heading := value (mheading o) |};
     rest := (context_name o, timestamp o, mtype o, mcamera o) |}.
