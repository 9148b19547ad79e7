(** Properties of joining component tables (property C75). *)
From Coq Require Import String Permutation.
From Verif Require Import Base JoinModel JoinSpec JoinMain.
Open Scope list_scope.
Open Scope nat_scope.

(** C75: tables with a common key are joined, after grouping when asked for and needed. *)
Theorem C75_join arrange prefix left right left_nullable right_nullable left_group right_group :
  (forall l, Permutation (arrange l) l) ->
  let on := common_key prefix left right in
  well_formed on left -> well_formed on right -> (exists c, on c) ->
  exists left' right' out,
    prepared on prefix left_group left right left' /\ prepared on prefix right_group right left right' /\
    merge arrange left right left_nullable right_nullable left_group right_group prefix = Ok out /\
    joined on left_nullable right_nullable left' right' out.
Proof. exact (merge_is_join arrange prefix left right left_nullable right_nullable left_group right_group). Qed.
Print Assumptions C75_join.

(** C75: tables without a common key are refused. *)
Theorem C75_no_common_key arrange prefix left right left_nullable right_nullable left_group right_group :
  ~ (exists c, common_key prefix left right c) ->
  merge arrange left right left_nullable right_nullable left_group right_group prefix = Err ValueError.
Proof. exact (merge_refuses arrange prefix left right left_nullable right_nullable left_group right_group). Qed.
Print Assumptions C75_no_common_key.

(** C75: the output has the columns of both tables, each once, if only keys are shared. *)
Theorem C75_columns arrange prefix left right left_nullable right_nullable left_group right_group out :
  (forall l, Permutation (arrange l) l) ->
  let on := common_key prefix left right in
  well_formed on left -> well_formed on right -> share_only on left right ->
  merge arrange left right left_nullable right_nullable left_group right_group prefix = Ok out ->
  NoDup (columns out) /\ (forall c, In c (columns out) <-> In c (columns left) \/ In c (columns right)).
Proof.
  exact (fun Ha WL WR Hs Hm =>
    let H := merge_columns arrange prefix left right left_nullable right_nullable left_group right_group out Ha WL WR Hs Hm in
    conj (proj1 H) (proj1 (proj2 H))).
Qed.
Print Assumptions C75_columns.

(** C75: attaching a table with unique keys, or a grouped one, keeps the number of records. *)
Theorem C75_one_row_per_record arrange prefix left right right_group out :
  (forall l, Permutation (arrange l) l) ->
  let on := common_key prefix left right in
  well_formed on left -> well_formed on right ->
  unique_on on right \/ (right_group = true /\ extra_key prefix right left) ->
  merge arrange left right false true false right_group prefix = Ok out ->
  List.length (rows out) = List.length (rows left).
Proof. exact (one_row_per_record arrange prefix left right right_group out). Qed.
Print Assumptions C75_one_row_per_record.

(** C75: with both tables grouped no two output rows have the same keys. *)
Theorem C75_no_cross_product arrange prefix left right left_nullable right_nullable out :
  (forall l, Permutation (arrange l) l) ->
  let on := common_key prefix left right in
  well_formed on left -> well_formed on right -> share_only on left right ->
  extra_key prefix left right -> extra_key prefix right left ->
  merge arrange left right left_nullable right_nullable true true prefix = Ok out ->
  unique_on on out.
Proof. exact (no_cross_product arrange prefix left right left_nullable right_nullable out). Qed.
Print Assumptions C75_no_cross_product.

(** C75: the documentation says that tables whose key sets differ are grouped first to avoid cross
    products; by default they are not. *)
Theorem C75_groups_by_default_refuted : forall arrange, exists left right out,
  let on := common_key "key." left right in
  well_formed on left /\ well_formed on right /\ share_only on left right /\
  extra_key "key." left right /\ extra_key "key." right left /\
  merge arrange left right false false false false "key." = Ok out /\
  ~ unique_on on out /\
  List.length (rows left) < List.length (rows out) /\ List.length (rows right) < List.length (rows out).
Proof. exact cross_product_example. Qed.
Print Assumptions C75_groups_by_default_refuted.

(** C75: the documentation says that an outer join outputs all rows of both tables; a row with a
    null key is lost when its table is grouped. *)
Theorem C75_outer_keeps_all_refuted : forall arrange, (forall l, Permutation (arrange l) l) ->
  exists left right out i r,
  let on := common_key "key." left right in
  well_formed on left /\ well_formed on right /\
  merge arrange left right true true true false "key." = Ok out /\
  row_at left i r /\ holds (columns left) r "size" (Val 101) /\ ~ mentions out "size" (Val 101).
Proof. exact lost_record_example. Qed.
Print Assumptions C75_outer_keeps_all_refuted.

(** The hypotheses are met: boxes and images by frame, one table grouped. *)
Example C75_example :
  well_formed (common_key "key." boxes_table images_table) boxes_table /\
  well_formed (common_key "key." boxes_table images_table) images_table /\
  common_key "key." boxes_table images_table "key.frame" /\
  share_only (common_key "key." boxes_table images_table) boxes_table images_table /\
  extra_key "key." boxes_table images_table /\ extra_key "key." images_table boxes_table /\
  merge (fun l => l) boxes_table images_table false true false true "key." =
  Ok {| columns := ["key.frame"; "key.laser_object"; "size"; "key.camera"; "image"]%string;
        rows := [[Val 1; Val 10; Val 100; Items [Val 7; Val 8]; Items [Val 200; Val 201]];
                 [Val 1; Val 11; Val 101; Items [Val 7; Val 8]; Items [Val 200; Val 201]];
                 [Val 2; Val 10; Val 102; Null; Null]] |}.
Proof.
  split; [apply boxes_ok|]. split; [apply images_ok|]. split; [apply frame_common; cbn; tauto|].
  split; [exact share_frame|]. split; [exact boxes_extra|]. split; [exact images_extra|]. reflexivity.
Qed.
Example C75_grouped_both :
  merge (fun l => l) boxes_table images_table true true true true "key." =
  Ok {| columns := ["key.frame"; "key.laser_object"; "size"; "key.camera"; "image"]%string;
        rows := [[Val 1; Items [Val 10; Val 11]; Items [Val 100; Val 101]; Items [Val 7; Val 8]; Items [Val 200; Val 201]];
                 [Val 2; Items [Val 10]; Items [Val 102]; Null; Null];
                 [Val 3; Null; Null; Items [Val 7]; Items [Val 202]]] |}.
Proof. reflexivity. Qed.
