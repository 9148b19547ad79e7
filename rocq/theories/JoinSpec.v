(** What joining two component tables means, in terms of rows and columns. *)
From Coq Require Import String Sorted.
From Verif Require Import Base JoinModel.
Open Scope list_scope.

(** Row [r] of a table with columns [cols] holds [v] in column [c]. *)
Definition holds (cols : list string) (r : row) (c : string) (v : cell) : Prop :=
  exists i, nth_error cols i = Some c /\ nth_error r i = Some v.
Definition scalar (v : cell) : Prop := forall l, v <> Items l.
(** A table: distinct column names, full rows, and no list in a key column. *)
Definition well_formed (keys : string -> Prop) (t : table) : Prop :=
  NoDup (columns t) /\
  (forall r, In r (rows t) -> List.length r = List.length (columns t)) /\
  (forall r c v, In r (rows t) -> keys c -> holds (columns t) r c v -> scalar v).

(** A key column is one whose name starts with the prefix. *)
Definition is_key (prefix : string) (t : table) (c : string) : Prop :=
  In c (columns t) /\ exists rest, c = String.append prefix rest.
Definition common_key (prefix : string) (left right : table) (c : string) : Prop :=
  is_key prefix left c /\ is_key prefix right c.

(** Two rows carry the same values in the given columns. *)
Definition agree (on : string -> Prop) (left right : table) (l r : row) : Prop :=
  forall c v, on c -> holds (columns left) l c v <-> holds (columns right) r c v.
Definition row_at (t : table) (i : nat) (r : row) : Prop := nth_error (rows t) i = Some r.

(** The table [g] is [t] grouped by the columns [on]: the rows of [t] without a null key are split
    into classes with equal keys; row [k] of [g] has the keys of the rows of class [k], and in every
    other column the list of their values, in their order. *)
Definition grouped (on : string -> Prop) (t g : table) : Prop :=
  (forall c, In c (columns g) <-> In c (columns t)) /\ NoDup (columns g) /\
  exists classes : list (list nat),
    NoDup (concat classes) /\
    (forall i, In i (concat classes) <->
       exists r, row_at t i r /\ forall c, on c -> ~ holds (columns t) r c Null) /\
    (forall cls i j ri rj, In cls classes -> In i cls -> row_at t i ri -> row_at t j rj ->
       (In j cls <-> agree on t t ri rj)) /\
    Forall2 (fun cls r' =>
      List.length r' = List.length (columns g) /\
      cls <> [] /\ Sorted.StronglySorted lt cls /\
      (forall i r, In i cls -> row_at t i r -> agree on t g r r') /\
      (forall c, In c (columns t) -> ~ on c -> exists vs,
         holds (columns g) r' c (Items vs) /\
         Forall2 (fun i v => exists r, row_at t i r /\ holds (columns t) r c v) cls vs))
      classes (rows g).

(** No two rows of the table have the same values in the given columns. *)
Definition unique_on (on : string -> Prop) (t : table) : Prop :=
  forall i j ri rj, row_at t i ri -> row_at t j rj -> agree on t t ri rj -> i = j.

(** The name in the output of a column of the left or right table. *)
Definition out_name (on : string -> Prop) (left right : table) (suffix c name : string) : Prop :=
  (In c (columns left) /\ In c (columns right) /\ ~ on c -> name = String.append c suffix) /\
  (~ (In c (columns left) /\ In c (columns right) /\ ~ on c) -> name = c).

(** An output row is made of a row of each table, or of one row and nulls. *)
Definition made_of (on : string -> Prop) (left right out : table) (src : option nat * option nat) (o : row) : Prop :=
  (forall c name, In c (columns left) -> out_name on left right "_x" c name ->
     exists v, holds (columns out) o name v /\
       match src with
       | (Some i, _) => exists l, row_at left i l /\ holds (columns left) l c v
       | (None, Some j) => (on c -> exists r, row_at right j r /\ holds (columns right) r c v) /\ (~ on c -> v = Null)
       | (None, None) => False
       end) /\
  (forall c name, In c (columns right) -> ~ on c -> out_name on left right "_y" c name ->
     exists v, holds (columns out) o name v /\
       match snd src with
       | Some j => exists r, row_at right j r /\ holds (columns right) r c v
       | None => v = Null
       end).

(** The join of two tables: one row for every pair of rows that agree, one for every left row with
    no partner if right columns may be null, and one for every right row with no partner if left
    columns may be null. *)
Definition joined (on : string -> Prop) (left_nullable right_nullable : bool) (left right out : table) : Prop :=
  exists sources : list (option nat * option nat),
    NoDup sources /\
    (forall i j, In (Some i, Some j) sources <->
       exists l r, row_at left i l /\ row_at right j r /\ agree on left right l r) /\
    (forall i, In (Some i, None) sources <->
       right_nullable = true /\ exists l, row_at left i l /\
         forall j r, row_at right j r -> ~ agree on left right l r) /\
    (forall j, In (None, Some j) sources <->
       left_nullable = true /\ exists r, row_at right j r /\
         forall i l, row_at left i l -> ~ agree on left right l r) /\
    ~ In (None, None) sources /\
    Forall2 (made_of on left right out) sources (rows out).

(** Whether a table has a key that the other has not. *)
Definition extra_key (prefix : string) (t other : table) : Prop :=
  exists c, is_key prefix t c /\ ~ is_key prefix other c.

(** What becomes of a table before the join. *)
Definition prepared (on : string -> Prop) (prefix : string) (flag : bool) (t other t' : table) : Prop :=
  (flag = true /\ extra_key prefix t other /\ grouped on t t') \/
  (~ (flag = true /\ extra_key prefix t other) /\ t' = t).

(** Non-key columns have different names in the two tables. *)
Definition share_only (on : string -> Prop) (left right : table) : Prop :=
  forall c, In c (columns left) -> In c (columns right) -> on c.
(** Some cell of the table holds the value, alone or in a list. *)
Definition mentions (t : table) (c : string) (v : cell) : Prop :=
  exists r x, In r (rows t) /\ holds (columns t) r c x /\
    (x = v \/ exists l, x = Items l /\ In v l).
