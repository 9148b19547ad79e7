(** The properties of components and their columns. *)
From Coq Require Import String.
From Verif Require Import Base ComponentModel ComponentSpec ComponentProofs.
Open Scope string_scope.

(** * C28 *)
(** Unflattening the columns of any instance gives the instance, missing dataclasses becoming ones with None leaves. *)
Theorem C28_round_trip : forall V (none : V) c vs, unshadowed c -> instance c vs ->
  from_dict c (to_flatten_dict none c vs) = Ok (filled_fields none (cfields c) vs).
Proof. exact @round_trip. Qed.
Print Assumptions C28_round_trip.
(** The condition is exact. *)
Theorem C28_round_trip_iff : forall c, unshadowed c <->
  forall V (none : V) vs, instance c vs -> forallb full vs = true -> from_dict c (to_flatten_dict none c vs) = Ok vs.
Proof. exact unshadowed_iff. Qed.
Print Assumptions C28_round_trip_iff.
(** Every component class of the perception dataset satisfies it. *)
Theorem C28_dataset_components_unshadowed : forall c, In c components -> unshadowed c.
Proof. exact all_unshadowed. Qed.
Print Assumptions C28_dataset_components_unshadowed.
Theorem C28_columns_are_the_schema : forall V (none : V) c vs, instance c vs -> NoDup (schema c) -> map fst (to_flatten_dict none c vs) = schema c.
Proof. exact @columns_are_schema. Qed.
Print Assumptions C28_columns_are_the_schema.
Theorem C28_dataset_columns_distinct : forall c, In c components -> NoDup (schema c).
Proof. exact all_nodup. Qed.
Print Assumptions C28_dataset_columns_distinct.
Theorem C28_components_share_only_keys : forall c c' x, In c components -> In c' components -> cname c <> cname c' ->
  In x (schema c) -> In x (schema c') -> exists r, x = "key." ++ r.
Proof. exact all_shared. Qed.
Print Assumptions C28_components_share_only_keys.
(** A nested leaf is overwritten by a later sibling of the same name. *)
Theorem C28_nested_names_are_separate_refuted : exists c vs, instance c vs /\ forallb full vs = true /\ NoDup (schema c) /\
  from_dict c (to_flatten_dict 0%Z c vs) = Ok [VNode [VNode [VLeaf 2%Z]; VLeaf 2%Z]] /\ vs = [VNode [VNode [VLeaf 1%Z]; VLeaf 2%Z]].
Proof.
  exists {| cname := "C"; cfields := [node "a" [node "b" [leaf "x"]; leaf "x"]] |}, [VNode [VNode [VLeaf 1%Z]; VLeaf 2%Z]].
  split; [vm_compute; intuition discriminate|]. split; [reflexivity|]. split; [apply nodupb_ok; reflexivity|]. split; reflexivity.
Qed.
Print Assumptions C28_nested_names_are_separate_refuted.
(** A missing optional dataclass does not come back as None. *)
Theorem C28_none_comes_back_refuted : exists c vs, In c components /\ instance c vs /\ forall ws, from_dict c (to_flatten_dict 0%Z c vs) = Ok ws -> ws <> vs.
Proof.
  exists {| cname := "ObjectAssetRefinedPoseComponent"; cfields := [key LaserLabelKey; node "box_from_vehicle" Transform] |}, [VNode [VLeaf 1%Z; VLeaf 2%Z; VLeaf 3%Z]; VNone].
  split; [vm_compute; intuition|]. split; [vm_compute; intuition discriminate|]. intros ws H. vm_compute in H. injection H as <-. discriminate.
Qed.
Print Assumptions C28_none_comes_back_refuted.
(** Without its key a component cannot be read back. *)
Theorem C28_missing_key_is_readable_refuted : exists c (vs : list (val Z)), In c components /\ typed_fields (cfields c) vs /\ from_dict c (to_flatten_dict 0%Z c vs) = Err AssertionError.
Proof.
  exists {| cname := "CameraToLiDARBoxAssociationComponent"; cfields := [key CameraToLiDARBoxAssociationKey] |}, [VNone]. split; [vm_compute; intuition|]. vm_compute. auto.
Qed.
Print Assumptions C28_missing_key_is_readable_refuted.
Example C28_hypotheses_met : exists c (vs : list (val Z)), In c components /\ instance c vs /\ forallb full vs = true /\
  to_flatten_dict 0%Z c vs = [("key.segment_context_name", 1%Z); ("key.frame_timestamp_micros", 2%Z); ("key.camera_name", 3%Z); ("key.laser_object_id", 4%Z);
    ("[ProjectedLiDARBoxComponent].box.center.x", 5%Z); ("[ProjectedLiDARBoxComponent].box.center.y", 6%Z); ("[ProjectedLiDARBoxComponent].box.size.x", 7%Z);
    ("[ProjectedLiDARBoxComponent].box.size.y", 8%Z); ("[ProjectedLiDARBoxComponent].type", 9%Z)].
Proof.
  exists {| cname := "ProjectedLiDARBoxComponent"; cfields := [key ProjectedLaserLabelKey; node "box" BoxAxisAligned2d; leaf "type"] |},
    [VNode [VLeaf 1; VLeaf 2; VLeaf 3; VLeaf 4]; VNode [VNode [VLeaf 5; VLeaf 6]; VNode [VLeaf 7; VLeaf 8]]; VLeaf 9]%Z.
  split; [vm_compute; intuition|]. split; [vm_compute; intuition discriminate|]. split; reflexivity.
Qed.
