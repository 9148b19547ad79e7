(** C19: breakdown shards. C20: breakdown names of the C++ and Python libraries.
    C51: subsets of objects per breakdown shard and score cutoff. *)
From Coq Require Import String.
From Verif Require Import Base BreakdownModel BreakdownSpec BreakdownProofs BreakdownNames BreakdownSubsets.
Open Scope Z_scope.

(** An object's shard is -1 exactly when it belongs to no breakdown; otherwise it is in range, and its
    name is the one breakdown the object belongs to. *)
Theorem C19_shard g o s : implemented g = true -> shard g o = Ok s ->
  (s = -1 /\ forall n, ~ belongs g o n) \/
  (0 <= s < num_shards g /\ exists n, shard_name g s = Ok n /\ belongs g o n /\ forall n', belongs g o n' -> n' = n).
Proof. exact (shard_meaning g o s). Qed.
Print Assumptions C19_shard.
Theorem C19_names_distinct g s s' : implemented g = true -> 0 <= s < num_shards g -> 0 <= s' < num_shards g ->
  shard_name g s = shard_name g s' -> s = s'.
Proof. exact (shard_name_inj g s s'). Qed.
Print Assumptions C19_names_distinct.
(** The program stops exactly on a camera that has no shard. *)
Theorem C19_total g o : implemented g = true -> (is_ok (shard g o) = true <-> ~ (g = CAMERA /\ camera_unsupported o)).
Proof. exact (shard_ok g o). Qed.
Print Assumptions C19_total.
Definition sample_object : object := {| typ := TYPE_CYCLIST; cx := 30; cy := 0; cz := 0; len := 1; wid := 7; hei := 1; speed := Some (3, 4)%Q;
  camera_name := None; most_visible := None; bearing := 22; score := 1 # 2 |}.
Theorem C19_camera_total_refuted : exists o, typ o <> TYPE_UNKNOWN /\ shard CAMERA o = Err CheckFailed.
Proof.
  exists {| typ := TYPE_VEHICLE; cx := 0; cy := 0; cz := 0; len := 1; wid := 1; hei := 1; speed := None; camera_name := Some REAR;
            most_visible := None; bearing := 0; score := 1 |}. split; [discriminate|reflexivity].
Qed.
Print Assumptions C19_camera_total_refuted.

(** The C++ and the Python library give the same names in the same order, or both fail. *)
Theorem C20_agree c : agree (cpp_names c) (py_names c).
Proof. exact (names_agree_all c). Qed.
Print Assumptions C20_agree.
Theorem C20_distinct c names : NoDup (generators c) -> (forall l, In l (difficulties c) -> NoDup l) -> cpp_names c = Ok names -> NoDup names.
Proof. exact (names_nodup c names). Qed.
Print Assumptions C20_distinct.
Theorem C20_motion dec steps : cpp_motion_names dec steps = py_motion_names dec steps.
Proof. exact (motion_names_agree dec steps). Qed.
Print Assumptions C20_motion.

(** The subsets are, in the order of the names, the member objects in input order, restricted to the
    score cutoff for predictions. *)
Theorem C51_subsets c objs is_gt is_detection : (forall g, In g (generators c) -> implemented g = true) ->
  (forall o, In o objs -> ~ (In CAMERA (generators c) /\ camera_unsupported o)) ->
  build_subsets c objs is_gt is_detection = Ok (expected_subsets c objs is_gt is_detection).
Proof. exact (build_value c objs is_gt is_detection). Qed.
Print Assumptions C51_subsets.
(** Ground truth is present for matching in its own speed shard. *)
Theorem C51_velocity_own o s : shard VELOCITY o = Ok s -> 0 <= s -> member VELOCITY true o s = true.
Proof. exact (velocity_own o s). Qed.
Print Assumptions C51_velocity_own.
(** It is present in its own camera shard exactly when it is a 2D object or that camera's view
    contains its center; otherwise it takes no part in matching there. *)
Theorem C51_camera_own o s c : typ o <> TYPE_UNKNOWN -> object_camera c o -> shard CAMERA o = Ok s -> 0 <= s ->
  (member CAMERA true o s = true <-> camera_name o <> None \/ sees c o).
Proof. exact (camera_own o s c). Qed.
Print Assumptions C51_camera_own.
Theorem C51_camera_own_refuted : exists o s, shard CAMERA o = Ok s /\ 0 <= s /\ member CAMERA true o s = false.
Proof.
  exists {| typ := TYPE_VEHICLE; cx := 1; cy := 0; cz := 0; len := 1; wid := 1; hei := 1; speed := None; camera_name := None;
            most_visible := Some (Some FRONT); bearing := 30; score := 1 |}, 0. split; [reflexivity|]. split; [lia|reflexivity].
Qed.
Print Assumptions C51_camera_own_refuted.

Example C19_nonvacuous : shard RANGE sample_object = Ok 10 /\ shard_name RANGE 10 = Ok "RANGE_TYPE_CYCLIST_[30, 50)"%string /\
  shard VELOCITY sample_object = Ok 18 /\ shard CAMERA sample_object = Ok 15 /\ shards_for_matching CAMERA sample_object = Ok [15; 16].
Proof. repeat split; reflexivity. Qed.
Example C20_nonvacuous : cpp_names {| generators := [ALL_BUT_SIGN; ONE_SHARD]; difficulties := [[LEVEL_1; LEVEL_2]; []]; cutoffs := [] |} =
  Ok ["ALL_BUT_SIGN_LEVEL_1"; "ALL_BUT_SIGN_LEVEL_2"; "SIGN_LEVEL_1"; "SIGN_LEVEL_2"; "ONE_SHARD_LEVEL_2"]%string.
Proof. reflexivity. Qed.
Example C51_nonvacuous : map indices (expected_subsets {| generators := [ALL_BUT_SIGN]; difficulties := []; cutoffs := [0; 1]%Q |} [sample_object; sample_object] false true)
  = [[[0%nat; 1%nat]; []]; [[]; []]].
Proof. reflexivity. Qed.
