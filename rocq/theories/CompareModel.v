(** Comparing latency results with a submission: latency/compare_objects_file_to_submission_main.cc in
    src/waymo_open_dataset.

    Conventions.
    - Floats are exact rationals; rounding the difference of two scores and the product with the
      double 0.05 is not modelled (they are compared with 1/20; for the product the outcome is the same
      below 2^48 detections).
    - The overlap of two boxes is a parameter: of 3D boxes for [true], of axis aligned boxes for [false].
    - [uninitialised] is the value of the variable is_2d that no statement sets if there are no latency
      results.
    - Objects come from ReadObjectsFromFile (WireModel.v). *)
From Coq Require Import String.
From Verif Require Import Base ResultLib MatcherModel ToolModel.
Open Scope list_scope.
Open Scope Z_scope.

(** The Label of an Object: its type, its box and whether the box has a heading. *)
Record label (B : Type) := { kind : nat; shape : B; has_heading : bool }.
Arguments kind {B}. Arguments shape {B}. Arguments has_heading {B}.

(** std::tuple comparison. *)
Definition camera_code (c : camera_name) : Z :=
  match c with
  | CAM_UNKNOWN => 0 | FRONT => 1 | FRONT_LEFT => 2 | FRONT_RIGHT => 3 | SIDE_LEFT => 4 | SIDE_RIGHT => 5
  | REAR_LEFT => 6 | REAR => 7 | REAR_RIGHT => 8
  end.
Definition tuple_ltb (a b : string * Z * camera_name) : bool :=
  pair_ltb (fst a) (fst b) || (negb (pair_ltb (fst b) (fst a)) && (camera_code (snd a) <? camera_code (snd b))).

Section Compare.
Context {B : Type}.
Notation obj := (ToolModel.object (label B)).
(** KeyTuple (compare_objects_file_to_submission_main.cc:131-132). *)
Definition tuple_key (o : obj) : string * Z * camera_name := (context o, stamp o, camera o).
(** compare_objects_file_to_submission_main.cc:130. *)
Definition considered (minimum : Q) (o : obj) : bool := Qle_bool minimum (score o) && Nat.ltb 0 (kind (label_box o)).
Definition to_match (o : obj) : MatcherModel.object B :=
  {| otype := kind (label_box o); oscore := score o; obox := shape (label_box o) |}.
(** GetConfig (58-76). *)
Definition get_config (overlap : bool -> B -> B -> Q) (is_3d : bool) (threshold : Q) : config B :=
  {| thresholds := [threshold; threshold; threshold; threshold; threshold]; iou_fn := overlap is_3d; affinity_fn := None |}.
(** The loop over the detections (180-205): 1 for each that does not match. *)
Definition mismatch (latency full : list obj) (matches : list (option nat)) (i : nat) : result Z :=
  do m <- nth_result matches i IndexError;
  match m with
  | None => Ok 1
  | Some j =>
      do a <- nth_result latency i IndexError;
      do b <- nth_result full j IndexError;
      Ok (if Qlt_bool (1 # 20) (Qabs.Qabs (score a - score b)) then 1 else 0)
  end.
(** One frame (155-215). *)
Definition compare_frame (cfg : config B) (latency full : list obj) : result unit :=
  let n := length latency in
  do r <- hungarian_match B cfg {| preds := map to_match latency; gts := map to_match full |} (seq 0 n) (seq 0 (length full));
  do l <- mapM (mismatch latency full (fst r)) (seq 0 n);
  let unmatched := Z.of_nat (length full - n) + fold_right Z.add 0 l in
  if Qlt_bool ((1 # 20) * inject_Z (Z.of_nat n)) (inject_Z unmatched) then Err CheckFailed else Ok tt.
(** Compute (107-222). *)
Definition compare (overlap : bool -> B -> B -> Q) (uninitialised : bool) (threshold minimum : Q) (latency full : list obj) : result unit :=
  let is_3d := fold_left (fun _ o => has_heading (label_box o)) latency uninitialised in
  let latency_map := keyed tuple_ltb tuple_key (filter (considered minimum) latency) in
  let full_map := keyed tuple_ltb tuple_key (filter (considered minimum) full) in
  let cfg := get_config overlap is_3d threshold in
  do r <- mapM (fun kv => match get tuple_ltb (fst kv) full_map with
                          | None => Err CheckFailed
                          | Some f => compare_frame cfg (snd kv) f
                          end) latency_map;
  Ok tt.
End Compare.
