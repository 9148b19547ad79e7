(** Writing submission shards: metrics/tools/create_submission.cc in src/waymo_open_dataset.

    Conventions.
    - A floating point number is NaN or an exact rational; infinities are not modelled.
    - Decoding and encoding the bytes of an Object are parameters, as is whether they parse.
    - The text template is given by its names and by the objects in its inference_results. *)
From Verif Require Import Base ResultLib WireModel.
Open Scope Z_scope.

Inductive num := NaN | Num (q : Q).
Definition lessb (a : num) (b : Q) : bool := match a with NaN => false | Num q => negb (Qle_bool b q) end.
Definition is_nan (a : num) : bool := match a with NaN => true | Num _ => false end.
(** std::max(a, b): a < b ? b : a. *)
Definition max_num (a : num) (b : Q) : num := if lessb a b then Num b else a.
(** The double constants 0.03 and 1e-6. *)
Definition min_score : Q := 1080863910568919 # 36028797018963968.
Definition min_size : Q := 4722366482869645 # 4722366482869645213696.

(** Label.Box (label.proto:22-34) and the Object message (metrics.proto): [rest] are the other fields. *)
Record box := { center_x : num; center_y : num; center_z : num; blength : num; bwidth : num; bheight : num; heading : num }.
Record object (R : Type) := { score : num; obox : box; rest : R }.
Arguments score {R}. Arguments obox {R}. Arguments rest {R}.

Section Submit.
Context {R : Type}.
Notation obj := (object R).
(** create_submission.cc:173-187. *)
Definition dropped (o : obj) : bool :=
  lessb (score o) min_score ||
  (is_nan (blength (obox o)) || is_nan (bwidth (obox o)) || is_nan (bheight (obox o)) || is_nan (center_x (obox o)) ||
   is_nan (center_y (obox o)) || is_nan (center_z (obox o)) || is_nan (heading (obox o))).
(** create_submission.cc:188-193. *)
Definition resized (o : obj) : obj :=
  let b := obox o in
  {| score := score o;
     obox := {| center_x := center_x b; center_y := center_y b; center_z := center_z b; blength := max_num (blength b) min_size;
                bwidth := max_num (bwidth b) min_size; bheight := max_num (bheight b) min_size; heading := heading b |};
     rest := rest o |}.
Fixpoint append_at (k : nat) (o : obj) (shards : list (list obj)) : list (list obj) :=
  match shards, k with
  | [], _ => []
  | s :: l, O => (s ++ [o]) :: l
  | s :: l, S k' => s :: append_at k' o l
  end.
(** The loop over the objects of one file (create_submission.cc:171-198). *)
Fixpoint add_file (n i : nat) (objs : list obj) (shards : list (list obj)) : list (list obj) :=
  match objs with
  | [] => shards
  | o :: l => add_file n (S i) l (if dropped o then shards else append_at (Nat.modulo i n) (resized o) shards)
  end.
Definition add_files (n : nat) (files : list (list obj)) (shards : list (list obj)) : list (list obj) :=
  fold_left (fun s f => add_file n 0 f s) files shards.

Record template := { method_name : list Z; account_name : list Z; results : list obj }.
Variables valid_object valid_polygon : list Z -> bool.
Variable decode : list Z -> obj.
(** Run (create_submission.cc:143-205) with ValidateFlags (104-124): the objects of each output file.
    The output file name and the submission file name are assumed to be set. *)
Definition run (num_shards : Z) (files : list (list Z)) (t : template) : result (list (list obj)) :=
  if Nat.eqb (length files) 0 then Err CheckFailed else
  if num_shards <=? 0 then Err CheckFailed else
  do all <- mapM (read_input valid_object valid_polygon) files;
  if Nat.eqb (length (method_name t)) 0 || Nat.eqb (length (account_name t)) 0 then Err CheckFailed else
  let n := Z.to_nat num_shards in
  Ok (add_files n (map (map decode) all) (repeat (results t) n)).
End Submit.
Arguments template R : clear implicits.
