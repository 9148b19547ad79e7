(** Joining component tables: v2/dataframe_utils.py.

    Conventions.
    - A table is a list of named columns and a list of rows, each with one cell per column.
    - Scalars are numbers or null; text and timestamps are treated as numbers. Dtypes (and so
      lines 42-45, _cast_keys) are not modelled.
    - pandas behaviour relied upon: groupby drops rows with a null key and gives one row per
      distinct key; agg(list) keeps the order of rows; merge pairs null keys with each other,
      fills absent cells with null and adds _x and _y to the names of shared columns that are
      not joined on.
    - pandas sorts the groups and the rows of an outer join; the sorting is a parameter
      [arrange], assumed by the theorems to be a reordering.
    - The order of a Python set is not modelled: keys are taken in the order of the left table,
      which only affects the order of the columns of a grouped table. *)
From Coq Require Import String.
From Verif Require Import Base ResultLib.
Open Scope list_scope.

Inductive cell := Null | Val (v : Z) | Items (l : list cell).
Notation row := (list cell).
Record table := { columns : list string; rows : list row }.

(** c in keys. *)
Definition mem (c : string) (cs : list string) : bool := existsb (String.eqb c) cs.
(** row[c]. *)
Fixpoint field (cols : list string) (r : row) (c : string) : cell :=
  match cols, r with
  | k :: cols', x :: r' => if String.eqb c k then x else field cols' r' c
  | _, _ => Null
  end.
(** Equality of two key cells. Lists cannot be keys: pandas raises TypeError (unhashable). *)
Definition key_eqb (a b : cell) : bool :=
  match a, b with
  | Null, Null => true
  | Val x, Val y => Z.eqb x y
  | _, _ => false
  end.
Definition is_null (a : cell) : bool := match a with Null => true | _ => false end.

(** dataframe_utils.py:27-28, _select_key_columns. *)
Definition select_key_columns (prefix : string) (t : table) : list string :=
  filter (String.prefix prefix) (columns t).

(** dataframe_utils.py:31-39, _how. *)
Inductive join := Outer | Right | Left | Inner.
Definition how (left_nullable right_nullable : bool) : join :=
  if left_nullable && right_nullable then Outer
  else if left_nullable && negb right_nullable then Right
  else if negb left_nullable && right_nullable then Left
  else Inner.

(** The rows whose keys are those of [r], and the first row of each distinct key. *)
Definition same_key (keys : list string) (cols : list string) (r s : row) : bool :=
  forallb (fun c => key_eqb (field cols r c) (field cols s c)) keys.
Fixpoint leaders (keys cols : list string) (rs : list row) (seen : list row) : list row :=
  match rs with
  | [] => []
  | r :: rs' =>
      if existsb (same_key keys cols r) seen then leaders keys cols rs' seen
      else r :: leaders keys cols rs' (r :: seen)
  end.

(** dataframe_utils.py:48-52, _group_by. groupby([]) raises 'No group keys passed!'. *)
Definition group_by (arrange : list row -> list row) (keys : list string) (t : table) : result table :=
  match keys with
  | [] => Err ValueError
  | _ =>
      let cols := columns t in
      let others := filter (fun c => negb (mem c keys)) cols in
      let kept := filter (fun r => negb (existsb (fun c => is_null (field cols r c)) keys)) (rows t) in
      let group r :=
        map (field cols r) keys ++
        map (fun c => Items (map (fun s => field cols s c) (filter (same_key keys cols r) kept))) others in
      Ok {| columns := keys ++ others; rows := arrange (map group (leaders keys cols kept [])) |}
  end.

(** left.merge(right, on=on, how=how). With an empty [on] pandas fails while it unpacks the
    (empty) list of key columns. Renamed columns are assumed not to clash (pandas raises MergeError). *)
Definition pd_merge (arrange : list row -> list row) (left right : table) (on : list string) (h : join)
    : result table :=
  match on with
  | [] => Err ValueError
  | _ =>
      let lc := columns left in
      let rc := columns right in
      let rest := filter (fun c => negb (mem c on)) rc in
      let shared c := mem c lc && mem c rc && negb (mem c on) in
      let rename suffix c := if shared c then String.append c suffix else c in
      let matches l r := forallb (fun c => key_eqb (field lc l c) (field rc r c)) on in
      let both l r := l ++ map (field rc r) rest in
      let only_left l := l ++ map (fun _ => Null) rest in
      let only_right r :=
        map (fun c => if mem c on then field rc r c else Null) lc ++ map (field rc r) rest in
      let per_left l :=
        match filter (matches l) (rows right) with
        | [] => [only_left l]
        | ms => map (both l) ms
        end in
      let per_right r :=
        match filter (fun l => matches l r) (rows left) with
        | [] => [only_right r]
        | ms => map (fun l => both l r) ms
        end in
      let unmatched := filter (fun r => negb (existsb (fun l => matches l r) (rows left))) (rows right) in
      let out :=
        match h with
        | Inner => flat_map (fun l => map (both l) (filter (matches l) (rows right))) (rows left)
        | Left => flat_map per_left (rows left)
        | Right => flat_map per_right (rows right)
        | Outer => arrange (flat_map per_left (rows left) ++ map only_right unmatched)
        end in
      Ok {| columns := map (rename "_x"%string) lc ++ map (rename "_y"%string) rest; rows := out |}
  end.

(** dataframe_utils.py:55-102, merge. *)
Definition merge (arrange : list row -> list row) (left right : table)
    (left_nullable right_nullable left_group right_group : bool) (key_prefix : string) : result table :=
  let left_keys := select_key_columns key_prefix left in
  let right_keys := select_key_columns key_prefix right in
  let common_keys := filter (fun c => mem c right_keys) left_keys in
  let differs keys := negb (forallb (fun c => mem c common_keys) keys) in
  do left' <- (if left_group && differs left_keys then group_by arrange common_keys left else Ok left);
  do right' <- (if right_group && differs right_keys then group_by arrange common_keys right else Ok right);
  pd_merge arrange left' right' common_keys (how left_nullable right_nullable).
