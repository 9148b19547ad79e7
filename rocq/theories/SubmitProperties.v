(** C114: the shards of a submission. *)
From Coq Require Import Permutation.
From Verif Require Import Base ResultLib WireModel WireSpec WireProofs SubmitModel SubmitSpec SubmitProofs.
Open Scope Z_scope.

(** An input file is read as its objects, unless its last byte is a line feed. *)
Theorem C114_input (valid_object valid_polygon : list Z -> bool) objs b : Forall (fun b => fits_varint (Z.of_nat (length b)) /\ valid_object b = true) (objs ++ [b]) ->
  read_input valid_object valid_polygon (objects_file (objs ++ [b])) =
  if last b 0 =? 10 then Err CheckFailed else Ok (objs ++ [b]).
Proof. exact (input_read valid_object valid_polygon objs b). Qed.
Print Assumptions C114_input.
(** With a line feed added it always is. *)
Theorem C114_input_line_feed (valid_object valid_polygon : list Z -> bool) objs : Forall (fun b => fits_varint (Z.of_nat (length b)) /\ valid_object b = true) objs ->
  read_input valid_object valid_polygon (objects_file objs ++ [10]) = Ok objs.
Proof. exact (input_newline valid_object valid_polygon objs). Qed.
Print Assumptions C114_input_line_feed.
(** A valid file that is refused. *)
Theorem C114_input_refuted : exists objs, forall valid_object valid_polygon, Forall (fun b => valid_object b = true) objs ->
  read_objects_file valid_object valid_polygon (objects_file objs) = Ok objs /\
  read_input valid_object valid_polygon (objects_file objs) = Err CheckFailed.
Proof. exact (input_refuted ). Qed.
Print Assumptions C114_input_refuted.
(** When shards are written. *)
Theorem C114_accepted {R : Type} (valid_object valid_polygon : list Z -> bool) (decode : list Z -> object R) num files t : (exists shards, run valid_object valid_polygon decode num files t = Ok shards) <->
  0 < num /\ files <> [] /\ method_name t <> [] /\ account_name t <> [] /\ exists contents, mapM (read_input valid_object valid_polygon) files = Ok contents.
Proof. exact (run_refused valid_object valid_polygon decode num files t). Qed.
Print Assumptions C114_accepted.
(** What they contain: every submitted object once, in the shard of its position in its file. *)
Theorem C114_shards {R : Type} (valid_object valid_polygon : list Z -> bool) (decode : list Z -> object R) num files t contents : 0 < num -> files <> [] -> method_name t <> [] -> account_name t <> [] ->
  mapM (read_input valid_object valid_polygon) files = Ok contents ->
  exists shards, run valid_object valid_polygon decode num files t = Ok shards /\ length shards = Z.to_nat num /\
    (forall k, (k < Z.to_nat num)%nat -> shard_of (Z.to_nat num) k (results t) (map (map decode) contents) (nth k shards [])) /\
    exists all, Forall2 (picks (fun _ => True) 0) (map (map decode) contents) all /\
      Permutation (concat shards) (concat (repeat (results t) (Z.to_nat num)) ++ concat all).
Proof. exact (run_shards valid_object valid_polygon decode num files t contents). Qed.
Print Assumptions C114_shards.
(** This determines the shards. *)
Theorem C114_shard_unique {R : Type} n k t fs (a b : list (object R)) : shard_of n k t fs a -> shard_of n k t fs b -> a = b.
Proof. exact (shard_unique n k t fs a b). Qed.
Print Assumptions C114_shard_unique.
(** The boxes written have no NaN and are not empty. *)
Theorem C114_usable {R : Type} o (o' : object R) : submitted o -> written o o' ->
  ~ In NaN (box_numbers (obox o')) /\ at_least (blength (obox o')) min_size /\ at_least (bwidth (obox o')) min_size /\ at_least (bheight (obox o')) min_size.
Proof. exact (written_usable o o'). Qed.
Print Assumptions C114_usable.
(** A NaN score passes the check of the scores. *)
Theorem C114_nan_score_refuted : submitted {| score := NaN; obox := unit_box; rest := tt |}.
Proof. exact (nan_score ). Qed.
Print Assumptions C114_nan_score_refuted.
(** The score 0.03, as the nearest float, is dropped. *)
Theorem C114_float_score_refuted : ~ submitted {| score := Num float_0_03; obox := unit_box; rest := tt |} /\
  (Qabs.Qabs (float_0_03 - (3 # 100)) < 1 # 1000000000)%Q.
Proof. exact (float_threshold ). Qed.
Print Assumptions C114_float_score_refuted.
(** Files of one object each all go to the first shard. *)
Theorem C114_balance_refuted (R : Type) valid_object valid_polygon decode num files (t : template R) contents shards : mapM (read_input valid_object valid_polygon) files = Ok contents -> Forall (fun c => (length c <= 1)%nat) contents ->
  results t = [] -> run valid_object valid_polygon decode num files t = Ok shards ->
  forall k, (0 < k)%nat -> nth k shards [] = [].
Proof. exact (one_per_file R valid_object valid_polygon decode num files t contents shards). Qed.
Print Assumptions C114_balance_refuted.

Definition example_object (s : num) (l : num) (r : nat) : object nat :=
  {| score := s; obox := {| center_x := Num 0; center_y := Num 0; center_z := Num 0; blength := l; bwidth := Num 1; bheight := Num 1; heading := Num 0 |}; rest := r |}.
Example C114_nonvacuous :
  let decode b := match b with [x; y] => example_object (Num (1 # 2)) (if y =? 5 then NaN else Num (inject_Z y)) (Z.to_nat y) | _ => example_object NaN NaN 0 end in
  match run (fun _ => true) (fun _ => true) decode 2 [objects_file [[40; 1]; [40; 5]; [40; 2]; [40; 3]]; objects_file [[40; 4]]]
    {| method_name := [74]; account_name := [75]; results := [] |} with
  | Ok l => map (map rest) l = [[1; 2; 4]; [3]]%nat
  | Err _ => False
  end.
Proof. reflexivity. Qed.
