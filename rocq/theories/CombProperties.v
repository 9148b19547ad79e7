(** C131: the combined keypoint metric. *)
From Coq Require Import Reals QArith Qreals Ascii String List.
From Verif Require Import Base ResultLib KpModel KpSpec GeomModel PoseModel OksModel CombModel CombSpec CombNames CombProofs CombResults CombExample CombSides.
Import ListNotations.
Open Scope list_scope.
(** A configuration is accepted exactly when every type of the source and of the subsets has a scale. *)
Theorem C131_config c : mappings c ->
  (acceptable c -> make_config c = Ok c) /\ (~ acceptable c -> make_config c = Err ValueError).
Proof. exact (config_accepted c). Qed.
Print Assumptions C131_config.
(** Two thresholds are written alike exactly when they have the same sign and the same nearest hundredths. *)
Theorem C131_formatted a b : format_2f a = format_2f b <-> ((a < 0)%Q <-> (b < 0)%Q) /\ exists n, nearest_hundredths a n /\ nearest_hundredths b n.
Proof. exact (written_alike a b). Qed.
Print Assumptions C131_formatted.
(** The names of the results are distinct when the formatted thresholds are. *)
Theorem C131_distinct c : mappings c -> told_apart (pck_thresholds c) -> told_apart (oks_thresholds c) -> NoDup (expected_keys c).
Proof. exact (keys_distinct c). Qed.
Print Assumptions C131_distinct.
(** A result has each of the expected names once, and no other. *)
Theorem C131_keys c two_d kind batches d : mappings c -> evaluate c two_d kind batches = Ok d ->
  NoDup (map fst d) /\ forall k, In k (map fst d) <-> In k (expected_keys c).
Proof. exact (reported_keys c two_d kind batches d). Qed.
Print Assumptions C131_keys.
(** They come in the order of the metrics, the subsets and the thresholds. *)
Theorem C131_order c two_d kind batches d : mappings c -> told_apart (pck_thresholds c) -> told_apart (oks_thresholds c) ->
  evaluate c two_d kind batches = Ok d -> map fst d = expected_keys c.
Proof. exact (reported_in_order c two_d kind batches d). Qed.
Print Assumptions C131_order.
(** Each value is that of a metric of its own, fed the keypoints of its subset. *)
Theorem C131_values c two_d kind batches d : mappings c -> evaluate c two_d kind batches = Ok d ->
  forall k v, In (k, v) d -> value c two_d kind batches k v.
Proof. exact (reported_values c two_d kind batches d). Qed.
Print Assumptions C131_values.
(** No result is lost exactly when the thresholds of each metric are written differently. *)
Theorem C131_all c two_d kind batches d : mappings c -> subsets c <> [] -> evaluate c two_d kind batches = Ok d ->
  let all := (length (subsets c) * (length (pck_thresholds c) + length (oks_thresholds c) + 2))%nat in
  (length d <= all)%nat /\ (length d = all <-> told_apart (pck_thresholds c) /\ told_apart (oks_thresholds c)).
Proof. exact (reported_all c two_d kind batches d). Qed.
Print Assumptions C131_all.
(** Distinct thresholds are not enough: 0.501 and 0.502 share a name. *)
Theorem C131_lost_refuted : ~ (forall c two_d batches d, mappings c -> acceptable c -> NoDup (pck_thresholds c) -> NoDup (oks_thresholds c) ->
  evaluate c two_d Unweighted batches = Ok d -> length d = (length (subsets c) * (length (pck_thresholds c) + length (oks_thresholds c) + 2))%nat).
Proof. exact (threshold_lost_refuted ). Qed.
Print Assumptions C131_lost_refuted.
(** Without weights every batch of the right shape is accepted. *)
Theorem C131_unweighted c two_d batches : mappings c -> acceptable c -> well_shaped c batches -> exists d, evaluate c two_d Unweighted batches = Ok d.
Proof. exact (unweighted_result c two_d batches). Qed.
Print Assumptions C131_unweighted.
(** With a subset that is empty or not a part of the source no batch with a sample is accepted. *)
Theorem C131_stray c two_d kind batches s types b x : mappings c -> In (s, types) (subsets c) -> In b batches -> In x b ->
  ~ incl types (src_order c) \/ types = [] -> forall d, evaluate c two_d kind batches <> Ok d.
Proof. exact (stray_subset c two_d kind batches s types b x). Qed.
Print Assumptions C131_stray.
(** The configuration does not check that the subsets are parts of the source. *)
Theorem C131_checked_refuted : ~ (forall c, mappings c -> make_config c = Ok c -> forall s types, In (s, types) (subsets c) -> incl types (src_order c)).
Proof. exact (checked_subsets_refuted ). Qed.
Print Assumptions C131_checked_refuted.
(** Weights of objects are never accepted. *)
Theorem C131_object_weights c two_d batches s types b : mappings c -> In (s, types) (subsets c) -> In b batches -> forall d, evaluate c two_d PerObject batches <> Ok d.
Proof. exact (object_weights_refused c two_d batches s types b). Qed.
Print Assumptions C131_object_weights.
(** Weights of the source keypoints are not restricted to a subset: they are not accepted when a subset has another size. *)
Theorem C131_point_weights c two_d batches s types b x : mappings c -> In (s, types) (subsets c) -> In b batches -> In x b ->
  length (s_weight x) = length (src_order c) -> length types <> length (src_order c) -> length (src_order c) <> 1%nat -> forall d, evaluate c two_d PerPoint batches <> Ok d.
Proof. exact (point_weights_refused c two_d batches s types b x). Qed.
Print Assumptions C131_point_weights.
(** The default configurations give 144 results with distinct names. *)
Theorem C131_defaults c two_d batches : In c [DEFAULT_CONFIG_CAMERA; DEFAULT_CONFIG_LASER; DEFAULT_CONFIG_ALL] ->
  (forall b x, In b batches -> In x b -> length (s_gt x) = length (src_order c) /\ length (s_pr x) = length (src_order c)) ->
  exists d, evaluate c two_d Unweighted batches = Ok d /\ map fst d = expected_keys c /\ NoDup (map fst d) /\ length d = 144%nat.
Proof. exact (defaults c two_d batches). Qed.
Print Assumptions C131_defaults.
(** None of them accepts weights of objects or of keypoints. *)
Theorem C131_defaults_weighted c two_d kind batches b x : In c [DEFAULT_CONFIG_CAMERA; DEFAULT_CONFIG_LASER; DEFAULT_CONFIG_ALL] -> In b batches -> In x b ->
  kind = PerObject \/ kind = PerPoint /\ length (s_weight x) = length (src_order c) -> forall d, evaluate c two_d kind batches <> Ok d.
Proof. exact (defaults_weighted c two_d kind batches b x). Qed.
Print Assumptions C131_defaults_weighted.
(** Left and right keypoints have the same scale, and all scales are positive. *)
Theorem C131_sides c k a : In c [DEFAULT_CONFIG_CAMERA; DEFAULT_CONFIG_LASER; DEFAULT_CONFIG_ALL] -> (5 <= k <= 10)%Z ->
  (In (k, a) (per_type_scales c) <-> In ((k + 8)%Z, a) (per_type_scales c)).
Proof. exact (scales_sides c k a). Qed.
Print Assumptions C131_sides.
Theorem C131_scales c k a : In c [DEFAULT_CONFIG_CAMERA; DEFAULT_CONFIG_LASER; DEFAULT_CONFIG_ALL] -> In (k, a) (per_type_scales c) -> (0 < a)%R.
Proof. exact (scales_positive c k a). Qed.
Print Assumptions C131_scales.

(** A configuration with two thresholds that are told apart and one that are not. *)
Example C131_nonvacuous : mappings (fine_config [1 # 2; 3 # 4]) /\ acceptable (fine_config [1 # 2; 3 # 4]) /\
  told_apart [1 # 2; 3 # 4] /\ ~ told_apart [501 # 1000; 502 # 1000] /\
  exists d, evaluate (fine_config [1 # 2; 3 # 4]) false Unweighted [] = Ok d /\ length d = 6%nat.
Proof.
  destruct (fine_fine [1 # 2; 3 # 4]) as (M & A & W). split; [exact M|]. split; [exact A|].
  assert (told_apart [1 # 2; 3 # 4]) as T by (apply (nodupb_ok name_eqb name_eqb_eq); vm_compute; reflexivity). split; [exact T|]. split.
  - intros H. unfold told_apart in H. vm_compute in H. inversion H as [|x l Hx]. apply Hx. now left.
  - destruct (unweighted_result _ false [] M A W) as (d & E). exists d. split; [exact E|].
    exact (proj2 (proj2 (reported_all _ false Unweighted [] d M ltac:(discriminate) E)) (conj T T)).
Qed.
