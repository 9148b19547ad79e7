(** Model of metrics/breakdown_generator.cc, metrics/config_util.cc,
    metrics/python/config_util_py.py and BuildSubsets of metrics/metrics_utils.cc. *)
From Coq Require Import String.
From Verif Require Import Base ResultLib CutoffModel.
Open Scope Z_scope.

(** Label.Type (label.proto:63-69), closed proto2 enumeration. *)
Inductive otype := TYPE_UNKNOWN | TYPE_VEHICLE | TYPE_PEDESTRIAN | TYPE_SIGN | TYPE_CYCLIST.
Definition type_num (t : otype) : Z :=
  match t with TYPE_UNKNOWN => 0 | TYPE_VEHICLE => 1 | TYPE_PEDESTRIAN => 2 | TYPE_SIGN => 3 | TYPE_CYCLIST => 4 end.
Definition type_max : Z := 4.
(** Label::Type_Name: the empty string for a number outside the enumeration. *)
Definition type_name_of_num (n : Z) : string :=
  (match n with 0 => "TYPE_UNKNOWN" | 1 => "TYPE_VEHICLE" | 2 => "TYPE_PEDESTRIAN" | 3 => "TYPE_SIGN" | 4 => "TYPE_CYCLIST" | _ => "" end)%string.
(** Breakdown.GeneratorId (protos/breakdown.proto:27-58). *)
Inductive genid := UNKNOWN_GENERATOR | ONE_SHARD | OBJECT_TYPE | RANGE | TIME_OF_DAY | LOCATION | WEATHER | VELOCITY | ALL_BUT_SIGN | SIZE | CAMERA.
Definition gen_name (g : genid) : string :=
  (match g with
   | UNKNOWN_GENERATOR => "UNKNOWN" | ONE_SHARD => "ONE_SHARD" | OBJECT_TYPE => "OBJECT_TYPE" | RANGE => "RANGE"
   | TIME_OF_DAY => "TIME_OF_DAY" | LOCATION => "LOCATION" | WEATHER => "WEATHER" | VELOCITY => "VELOCITY"
   | ALL_BUT_SIGN => "ALL_BUT_SIGN" | SIZE => "SIZE" | CAMERA => "CAMERA" end)%string.
(** CameraName.Name (dataset.proto:50-63). *)
Inductive camera := CAM_UNKNOWN | FRONT | FRONT_LEFT | FRONT_RIGHT | SIDE_LEFT | SIDE_RIGHT | REAR_LEFT | REAR | REAR_RIGHT.

(** The parts of an object that breakdowns read. Simplifications: [speed] is present when both speed
    components are; [most_visible] is the parsed camera name, [Some None] when parsing fails;
    [bearing] is atan2(center_y, center_x) in degrees. *)
Record object := { typ : otype; cx : Q; cy : Q; cz : Q; len : Q; wid : Q; hei : Q;
  speed : option (Q * Q); camera_name : option camera; most_visible : option (option camera); bearing : Q; score : Q }.

(** GetShardOffsetByCameraName (breakdown_generator.cc:394-409); LOG(FATAL) is an error value. *)
Definition camera_offset (c : camera) : result Z :=
  match c with FRONT => Ok 0 | FRONT_LEFT => Ok 1 | FRONT_RIGHT => Ok 2 | SIDE_LEFT => Ok 3 | SIDE_RIGHT => Ok 4 | _ => Err CheckFailed end.
(** EstimateCameraNamesByFov (411-447). *)
Definition in_fov (deg center : Q) : bool := Qlt_bool (center - (252#10))%Q deg && Qlt_bool deg (center + (252#10))%Q.
Definition cameras_by_fov (deg : Q) : list camera :=
  (if in_fov deg 0 then [FRONT] else []) ++ (if in_fov deg 45 then [FRONT_LEFT] else []) ++
  (if in_fov deg (-45) then [FRONT_RIGHT] else []) ++ (if in_fov deg 90 then [SIDE_LEFT] else []) ++
  (if in_fov deg (-90) then [SIDE_RIGHT] else []).

(** Create (450-470) as a check: unimplemented generators are fatal. *)
Definition implemented (g : genid) : bool :=
  match g with OBJECT_TYPE | ONE_SHARD | RANGE | VELOCITY | ALL_BUT_SIGN | SIZE | CAMERA => true | _ => false end.
(** NumShards (51, 70, 97, 135-137, 187-189, 263-265, 356-358). *)
Definition num_shards (g : genid) : Z :=
  match g with
  | ONE_SHARD => 1 | ALL_BUT_SIGN => 2 | OBJECT_TYPE => type_max | RANGE => 3 * type_max | SIZE => 2 * type_max
  | VELOCITY => 5 * type_max | CAMERA => 5 * type_max | _ => 0
  end.
Definition sq (x : Q) : Q := (x * x)%Q.
Definition qmax2 (a b : Q) : Q := if Qlt_bool a b then b else a.
(** The single precision constant 0.2. *)
Definition k_stationary : Q := 13421773 # 67108864.
(** Shard of each generator (47, 61-66, 86-90, 112-131, 164-183, 219-250, 304-337). Comparing a
    length with a bound is modelled as comparing squares, without the rounding of sqrt. *)
Definition shard (g : genid) (o : object) : result Z :=
  match g with
  | ONE_SHARD => Ok 0
  | ALL_BUT_SIGN => match typ o with TYPE_SIGN => Ok 1 | _ => Ok 0 end
  | OBJECT_TYPE => Ok (type_num (typ o) - 1)
  | RANGE =>
      let range2 := (sq (cx o) + sq (cy o) + sq (cz o))%Q in
      match typ o with
      | TYPE_UNKNOWN => Ok (-1)
      | t =>
          let off := 3 * (type_num t - 1) in
          if off <? 0 then Ok (-1)
          else if Qlt_bool range2 (sq 30) then Ok (0 + off)
          else if Qlt_bool range2 (sq 50) then Ok (1 + off) else Ok (2 + off)
      end
  | SIZE =>
      let size := qmax2 (qmax2 (len o) (wid o)) (hei o) in
      match typ o with
      | TYPE_UNKNOWN => Ok (-1)
      | t =>
          let off := 2 * (type_num t - 1) in
          if off <? 0 then Ok (-1)
          else if Qlt_bool size 7 then Ok (0 + off) else Ok (1 + off)
      end
  | VELOCITY =>
      let v := match speed o with Some v => v | None => (0, 0)%Q end in
      let v2 := (sq (fst v) + sq (snd v))%Q in
      match typ o with
      | TYPE_UNKNOWN => Ok (-1)
      | t =>
          let off := 5 * (type_num t - 1) in
          if Qlt_bool v2 (sq k_stationary) then Ok (0 + off)
          else if Qlt_bool v2 (sq 1) then Ok (1 + off)
          else if Qlt_bool v2 (sq 3) then Ok (2 + off)
          else if Qlt_bool v2 (sq 10) then Ok (3 + off) else Ok (4 + off)
      end
  | CAMERA =>
      match typ o with
      | TYPE_UNKNOWN => Ok (-1)
      | t =>
          let off := 5 * (type_num t - 1) in
          let with_camera c := do k <- camera_offset c; if k <? 0 then Ok (-1) else Ok (off + k) in
          match camera_name o with
          | Some c => with_camera c
          | None =>
              match most_visible o with
              | Some (Some c) => with_camera c
              | Some None => Ok (-1)
              | None => match cameras_by_fov (bearing o) with [] => Ok (-1) | c :: _ => with_camera c end
              end
          end
      end
  | _ => Err CheckFailed
  end.
(** ShardsForMatching (breakdown_generator.h:48-50, .cc:252-261, 339-354). *)
Definition shards_for_matching (g : genid) (o : object) : result (list Z) :=
  match g with
  | VELOCITY =>
      match typ o with
      | TYPE_UNKNOWN => Ok []
      | t => Ok (map (fun i => 5 * (type_num t - 1) + Z.of_nat i) (seq 0 5))
      end
  | CAMERA =>
      match typ o with
      | TYPE_UNKNOWN => Ok []
      | t =>
          match camera_name o with
          | Some _ => do s <- shard CAMERA o; Ok [s]
          | None => mapM (fun c => do k <- camera_offset c; Ok (5 * (type_num t - 1) + k)) (cameras_by_fov (bearing o))
          end
      end
  | _ => do s <- shard g o; Ok [s]
  end.
(** IsGroundTruthOnlyBreakdown (breakdown_generator.h:64, .cc:293, 387). *)
Definition gt_only (g : genid) : bool := match g with VELOCITY | CAMERA => true | _ => false end.

Definition cat (l : list string) : string := String.concat "" l.
(** ShardName (53, 72-81, 99-102, 139-159, 191-209, 269-291, 362-385); C++ division truncates. *)
Definition bucketed_name (g : genid) (k shard : Z) (bucket : Z -> result string) : result string :=
  let t := Z.quot shard k + 1 in
  if negb (t <=? type_max) then Err CheckFailed else
  if negb (1 <=? t) then Err CheckFailed else
  do b <- bucket (Z.rem shard k);
  Ok (cat [gen_name g; "_"; type_name_of_num t; "_"; b]%string).
Definition shard_name (g : genid) (shard : Z) : result string :=
  match g with
  | ONE_SHARD => Ok "ONE_SHARD"%string
  | ALL_BUT_SIGN => match shard with 0 => Ok "ALL_BUT_SIGN" | 1 => Ok "SIGN" | _ => Err CheckFailed end%string
  | OBJECT_TYPE => Ok (cat [gen_name g; "_"; type_name_of_num (shard + 1)]%string)
  | RANGE => bucketed_name g 3 shard (fun b =>
      match b with 0 => Ok "[0, 30)" | 1 => Ok "[30, 50)" | 2 => Ok "[50, +inf)" | _ => Err CheckFailed end)%string
  | SIZE => bucketed_name g 2 shard (fun b => match b with 0 => Ok "small" | 1 => Ok "large" | _ => Err CheckFailed end)%string
  | VELOCITY => bucketed_name g 5 shard (fun b =>
      match b with 0 => Ok "STATIONARY" | 1 => Ok "SLOW" | 2 => Ok "MEDIUM" | 3 => Ok "FAST" | 4 => Ok "VERY_FAST" | _ => Err CheckFailed end)%string
  | CAMERA => bucketed_name g 5 shard (fun b =>
      match b with 0 => Ok "FRONT" | 1 => Ok "FRONT-LEFT" | 2 => Ok "FRONT-RIGHT" | 3 => Ok "SIDE-LEFT" | 4 => Ok "SIDE-RIGHT" | _ => Err CheckFailed end)%string
  | _ => Err CheckFailed
  end.

(** Label.DifficultyLevel (label.proto:75-79). *)
Inductive level := LEVEL_UNKNOWN | LEVEL_1 | LEVEL_2.
Definition level_name (l : level) : string := (match l with LEVEL_UNKNOWN => "UNKNOWN" | LEVEL_1 => "LEVEL_1" | LEVEL_2 => "LEVEL_2" end)%string.
Record config := { generators : list genid; difficulties : list (list level); cutoffs : list Q }.
(** GetDifficultyLevels (metrics_utils.cc:175-190). *)
Definition difficulty_levels (c : config) (i : nat) : result (list level) :=
  match nth_error (difficulties c) i with
  | None => Err IndexError
  | Some [] => Ok [LEVEL_2]
  | Some l => Ok l
  end.
(** GetBreakdownNamesFromConfig (config_util.cc:32-49). *)
Definition zrange (n : Z) : list Z := map Z.of_nat (seq 0 (Z.to_nat n)).
Definition cpp_names (c : config) : result (list string) :=
  do ls <- mapM (fun ig =>
    let '(i, g) := ig in
    if negb (implemented g) then Err CheckFailed else
    do levels <- difficulty_levels c i;
    do ns <- mapM (fun s => mapM (fun l => do n <- shard_name g s; Ok (cat [n; "_"; level_name l]%string)) levels) (zrange (num_shards g));
    Ok (concat ns)) (combine (seq 0 (length (generators c))) (generators c));
  Ok (concat ls).

(** Python: tables (config_util_py.py:25-34), _get_num_breakdown_shards (37-69),
    _get_breakdown_shard_name (72-127). Negative list indices do not occur. *)
Definition py_types : list Z := [1; 2; 3; 4].
Definition py_buckets (g : genid) : list string :=
  (match g with
   | VELOCITY => ["STATIONARY"; "SLOW"; "MEDIUM"; "FAST"; "VERY_FAST"]
   | RANGE => ["[0, 30)"; "[30, 50)"; "[50, +inf)"]
   | SIZE => ["small"; "large"]
   | CAMERA => ["FRONT"; "FRONT-LEFT"; "FRONT-RIGHT"; "SIDE-LEFT"; "SIDE-RIGHT"]
   | ALL_BUT_SIGN => ["ALL_BUT_SIGN"; "SIGN"]
   | _ => [] end)%string.
Definition zlen {A} (l : list A) : Z := Z.of_nat (length l).
Definition py_num_shards (g : genid) : result Z :=
  match g with
  | ONE_SHARD => Ok 1
  | ALL_BUT_SIGN => Ok (zlen (py_buckets g))
  | SIZE | RANGE | VELOCITY | CAMERA => Ok (zlen (py_buckets g) * zlen py_types)
  | OBJECT_TYPE => Ok (zlen py_types)
  | _ => Err ValueError
  end.
Definition py_index {A} (l : list A) (i : Z) : result A :=
  match nth_error l (Z.to_nat i) with Some a => Ok a | None => Err IndexError end.
Definition py_shard_name (g : genid) (shard : Z) : result string :=
  match g with
  | ONE_SHARD => Ok (gen_name g)
  | ALL_BUT_SIGN => py_index (py_buckets g) shard
  | OBJECT_TYPE => do t <- py_index py_types shard; Ok (cat [gen_name g; "_"; type_name_of_num t]%string)
  | VELOCITY | RANGE | SIZE | CAMERA =>
      do t <- py_index py_types (shard / zlen (py_buckets g));
      do b <- py_index (py_buckets g) (shard mod zlen (py_buckets g));
      Ok (cat [gen_name g; "_"; type_name_of_num t; "_"; b]%string)
  | _ => Err ValueError
  end.
(** get_breakdown_names_from_config (130-165). *)
Definition py_names (c : config) : result (list string) :=
  do ls <- mapM (fun ig =>
    let '(i, g) := ig in
    do n <- py_num_shards g;
    do ns <- mapM (fun s =>
      do levels <- py_index (difficulties c) (Z.of_nat i);
      do name <- py_shard_name g s;
      match levels with
      | [] => Ok [cat [name; "_"; "LEVEL_2"]%string]
      | _ => Ok (map (fun l => cat [name; "_"; level_name l]%string) levels)
      end) (zrange n);
    Ok (concat ns)) (combine (seq 0 (length (generators c))) (generators c));
  Ok (concat ls).

(** Motion names: GetBreakdownNamesFromMotionConfig (config_util.cc:51-64) and
    get_breakdown_names_from_motion_config (config_util_py.py:168-192). [dec] prints an integer. *)
Definition motion_types : list string := ["TYPE_VEHICLE"; "TYPE_PEDESTRIAN"; "TYPE_CYCLIST"]%string.
Definition cpp_motion_names (dec : Z -> string) (steps : list Z) : list string :=
  concat (map (fun t => map (fun s => cat [t; "_"; dec s]%string) steps) motion_types).
Definition py_motion_names (dec : Z -> string) (steps : list Z) : list string :=
  fold_left (fun names t => fold_left (fun names s => names ++ [cat [t; "_"; dec s]%string]) steps names) motion_types [].

(** BuildSubsets (metrics_utils.cc:118-173). *)
Record subset := { gen_index : nat; sub_shard : Z; indices : list (list nat) }.
Definition push (subs : list (list nat)) (s : Z) (i : nat) : list (list nat) :=
  map (fun ks => if Z.of_nat (fst ks) =? s then snd ks ++ [i] else snd ks) (combine (seq 0 (length subs)) subs).
Definition assign (g : genid) (is_detection : bool) (subs : list (list nat)) (io : nat * object) : result (list (list nat)) :=
  let '(i, o) := io in
  let n := num_shards g in
  if is_detection && gt_only g then
    do shards <- shards_for_matching g o;
    foldM (fun subs s => if negb (0 <=? s) then Err CheckFailed else if negb (s <? n) then Err CheckFailed else Ok (push subs s i)) shards subs
  else
    do s <- shard g o;
    if negb (s <? n) then Err CheckFailed else Ok (if 0 <=? s then push subs s i else subs).
Definition select (objs : list object) (cutoff : Q) (js : list nat) : list nat :=
  filter (fun j => match nth_error objs j with Some o => Qle_bool cutoff (score o) | None => false end) js.
Definition generator_subsets (c : config) (objs : list object) (is_gt is_detection : bool) (ig : nat * genid) : result (list subset) :=
  let '(i, g) := ig in
  if negb (implemented g) then Err CheckFailed else
  do subs <- foldM (assign g is_detection) (combine (seq 0 (length objs)) objs) (repeat [] (Z.to_nat (num_shards g)));
  Ok (map (fun s => {| gen_index := i; sub_shard := s;
                       indices := let js := nth (Z.to_nat s) subs [] in
                                  if is_gt then [js] else map (fun q => select objs q js) (cutoffs c) |})
          (zrange (num_shards g))).
Definition build_subsets (c : config) (objs : list object) (is_gt is_detection : bool) : result (list subset) :=
  do ls <- mapM (generator_subsets c objs is_gt is_detection) (combine (seq 0 (length (generators c))) (generators c));
  Ok (concat ls).
