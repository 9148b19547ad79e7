(** What keypoint tensors and grouped labels must contain. *)
From Verif Require Import Base KpModel.
Open Scope list_scope.
Open Scope Z_scope.

(** [x] is the last element of the list with the property. *)
Definition last_with {A} (P : A -> Prop) (l : list A) (x : A) : Prop :=
  exists before after, l = before ++ x :: after /\ P x /\ Forall (fun y => ~ P y) after.
Definition none_with {A} (P : A -> Prop) (l : list A) : Prop := Forall (fun y => ~ P y) l.

Section Spec.
Context {V : Type}.
(** The row of the tensors for a keypoint type: missing (0), occluded (1) or visible (2). *)
Definition keypoint_row (protos : list (keypoint_proto V)) (default : V) (type : Z) (row : V * Z) : Prop :=
  (none_with (fun k => kp_type k = type) protos /\ row = (default, 0)) \/
  (exists k, last_with (fun k => kp_type k = type) protos k /\
     fst row = kp_location k /\ snd row = (if kp_occluded k then 1 else 2)).

(** The poses that reach the tensors. *)
Definition with_keypoints (poses : list (pose V)) : list (pose V) :=
  filter (fun p => match pose_keypoints p with Some _ => true | None => false end) poses.
Definition pose_rows (default : V) (order : list Z) (p : pose V) (rows : list (V * Z)) : Prop :=
  exists ks, pose_keypoints p = Some ks /\ Forall2 (keypoint_row ks default) order rows.
Definition box_row (p : pose V) (b : box_tensor) : Prop :=
  exists lb, pose_box p = Some lb /\
    center b = (center_x lb, center_y lb, center_z lb) /\ size b = (length_ lb, width lb, height lb) /\
    box_heading b = heading lb.
Definition has_box (p : pose V) : Prop := pose_box p <> None.

(** All camera labels of a frame, in order, with their cameras. *)
Definition all_camera_labels (f : frame V) : list (Z * camera_label V) :=
  flat_map (fun cl => map (fun l => (fst cl, l)) (snd cl)) (camera_labels f).
(** The entry of an object: its last laser label, and for every camera the last label associated with it. *)
Definition object_entry (f : frame V) (id : Z) (o : object_label V) : Prop :=
  (exists l, last_with (fun l => l_id l = id) (laser_labels f) l /\
     laser o = {| object_type := l_type l; pose_box := Some (l_box l); pose_keypoints := Some (l_keypoints l) |}) /\
  match camera o with
  | None => none_with (fun nl => c_association (snd nl) = Some id) (all_camera_labels f)
  | Some m =>
      NoDup (map fst m) /\ m <> [] /\
      forall name l, In (name, l) m <->
        last_with (fun nl => fst nl = name /\ c_association (snd nl) = Some id) (all_camera_labels f) (name, l)
  end.
End Spec.
