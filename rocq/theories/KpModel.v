(** Keypoint labels and tensors: utils/keypoint_data.py.

    Conventions.
    - Coordinates are an abstract type [V]; a location is a value of it (numpy vector).
    - Keypoint types, camera names, object types and object ids are numbers.
    - A Python dict is a list of pairs with distinct keys in the order of insertion.
    - Tensors are lists; dtypes are not modelled. *)
From Verif Require Import Base ResultLib.
Open Scope list_scope.
Open Scope Z_scope.

(** Python dicts: d[k] = v and d.get(k). *)
Fixpoint dict_set {K A} (eqb : K -> K -> bool) (k : K) (v : A) (d : list (K * A)) : list (K * A) :=
  match d with
  | [] => [(k, v)]
  | (k', v') :: d' => if eqb k k' then (k', v) :: d' else (k', v') :: dict_set eqb k v d'
  end.
Fixpoint dict_get {K A} (eqb : K -> K -> bool) (k : K) (d : list (K * A)) : option A :=
  match d with
  | [] => None
  | (k', v') :: d' => if eqb k k' then Some v' else dict_get eqb k d'
  end.

Section Keypoints.
Context {V : Type}.

(** keypoint_pb2.LaserKeypoint and CameraKeypoint: type, location and visibility. *)
Record keypoint_proto := { kp_type : Z; kp_location : V; kp_occluded : bool }.
(** 56-66, Point. *)
Record point := { location : V; is_occluded : bool }.
(** 202-205, 214-217, point_from_camera and point_from_laser. *)
Definition point_from_proto (k : keypoint_proto) : point :=
  {| location := kp_location k; is_occluded := kp_occluded k |}.
(** 208-211, 220-223, camera_keypoint_coordinates and laser_keypoint_coordinates. *)
Definition keypoint_coordinates (ks : list keypoint_proto) : list (Z * point) :=
  fold_left (fun d k => dict_set Z.eqb (kp_type k) (point_from_proto k) d) ks [].

(** 226-254, select_subset, for one sample: [values] has one element per keypoint.
    tf.concat refuses an empty list. *)
Definition src_index (src_order : list Z) : list (Z * nat) :=
  fold_left (fun d it => dict_set Z.eqb (snd it) (fst it) d) (combine (seq 0 (length src_order)) src_order) [].
Definition select_subset {A} (values : list A) (src_order dst_order : list Z) : result (list A) :=
  if negb (Nat.eqb (length values) (length src_order)) then Err ValueError
  else if negb (forallb (fun t => existsb (Z.eqb t) src_order) dst_order) then Err ValueError
  else match dst_order with
  | [] => Err ValueError
  | _ => mapM (fun t =>
      match dict_get Z.eqb t (src_index src_order) with
      | None => Err KeyError
      | Some i => match nth_error values i with None => Err IndexError | Some v => Ok v end
      end) dst_order
  end.

(** 257-270, Visibility. *)
Definition visibility_from_point (p : option point) : Z :=
  match p with
  | None => 0
  | Some p => if is_occluded p then 1 else 2
  end.
(** 350-373, create_tensors_from_points: the rows of location and of visibility together. *)
Definition create_tensors_from_points (point_by_type : list (Z * point)) (default_location : V) (order : list Z)
    : list (V * Z) :=
  let points := map (fun t => dict_get Z.eqb t point_by_type) order in
  map (fun p => (match p with Some p => location p | None => default_location end, visibility_from_point p)) points.
(** 384-423, create_laser_keypoints_tensors and create_camera_keypoints_tensors. *)
Definition create_keypoints_tensors (protos : list keypoint_proto) (default_location : V) (order : list Z) : list (V * Z) :=
  create_tensors_from_points (keypoint_coordinates protos) default_location order.

(** label_pb2.Label.Box; numbers of the boxes are rationals. *)
Record label_box := { center_x : Q; center_y : Q; center_z : Q; length_ : Q; width : Q; height : Q; heading : Q }.
(** 426-482, BoundingBoxTensors of one box: center, size and heading. *)
Record box_tensor := { center : Q * Q * Q; size : Q * Q * Q; box_heading : Q }.
(** 494-502, create_laser_box_tensors. *)
Definition create_laser_box_tensors (b : label_box) : box_tensor :=
  {| center := (center_x b, center_y b, center_z b); size := (length_ b, width b, height b); box_heading := heading b |}.
(** box_pb2.Box3d. *)
Record box3d := { b_center : Q * Q * Q; b_size : Q * Q * Q; b_heading : Q }.
(** 555-565, label_box_from_box_proto. *)
Definition label_box_from_box_proto (b : box3d) : label_box :=
  let '(cx, cy, cz) := b_center b in
  let '(sx, sy, sz) := b_size b in
  {| center_x := cx; center_y := cy; center_z := cz; width := sx; length_ := sy; height := sz; heading := b_heading b |}.

(** 75-109, PoseLabel and PosePrediction (only a prediction may have no box). *)
Record pose := { object_type : Z; pose_box : option label_box; pose_keypoints : option (list keypoint_proto) }.
(** 568-628, create_pose_estimation_tensors. A proto message is true as a condition even when empty. *)
Definition create_pose_estimation_tensors (poses : list pose) (default_location : V) (order : list Z)
    : list (list (V * Z)) * option (list box_tensor) :=
  let '(keypoints, boxes) :=
    fold_left (fun acc p =>
      let '(keypoints, boxes) := acc in
      match pose_keypoints p with
      | None => (keypoints, boxes)
      | Some ks =>
          (keypoints ++ [create_keypoints_tensors ks default_location order],
           match pose_box p with
           | Some b => boxes ++ [create_laser_box_tensors b]
           | None => boxes
           end)
      end) poses ([], []) in
  let box_tensors :=
    match boxes with
    | _ :: _ => Some boxes
    | [] => match keypoints with _ :: _ => None | [] => Some [] end
    end in
  (keypoints, box_tensors).

(** dataset_pb2.Frame: the laser labels and, per camera, the camera labels. Keypoints of a label are
    always present as a (maybe empty) message. *)
Record laser_label := { l_id : Z; l_type : Z; l_box : label_box; l_keypoints : list keypoint_proto }.
Record camera_label := { c_association : option Z; c_box : label_box; c_keypoints : list keypoint_proto }.
Record frame := { laser_labels : list laser_label; camera_labels : list (Z * list camera_label) }.

(** 145-153, _index_laser_labels. *)
Definition pose_of_label (l : laser_label) : pose :=
  {| object_type := l_type l; pose_box := Some (l_box l); pose_keypoints := Some (l_keypoints l) |}.
Definition index_laser_labels (f : frame) : list (Z * pose) :=
  fold_left (fun d l => dict_set Z.eqb (l_id l) (pose_of_label l) d) (laser_labels f) [].

(** 156-170, _get_accosiated_id and _index_camera_labels. *)
Definition opt_eqb (a b : option Z) : bool :=
  match a, b with
  | None, None => true
  | Some x, Some y => Z.eqb x y
  | _, _ => false
  end.
Definition add_camera_label (name : Z) (d : list (option Z * list (Z * camera_label))) (l : camera_label)
    : list (option Z * list (Z * camera_label)) :=
  let k := c_association l in
  let inner := match dict_get opt_eqb k d with Some m => m | None => [] end in
  dict_set opt_eqb k (dict_set Z.eqb name l inner) d.
Definition index_camera_labels (f : frame) : list (option Z * list (Z * camera_label)) :=
  fold_left (fun d cl => fold_left (add_camera_label (fst cl)) (snd cl) d) (camera_labels f) [].

(** 173-191, group_object_labels. *)
Record object_label := { laser : pose; camera : option (list (Z * camera_label)) }.
Definition group_object_labels (f : frame) : list (Z * object_label) :=
  let camera_labels := index_camera_labels f in
  fold_left (fun d il => dict_set Z.eqb (fst il)
      {| laser := snd il; camera := dict_get opt_eqb (Some (fst il)) camera_labels |} d)
    (index_laser_labels f) [].
End Keypoints.
Arguments keypoint_proto : clear implicits.
Arguments point : clear implicits.
Arguments pose : clear implicits.
Arguments laser_label : clear implicits.
Arguments camera_label : clear implicits.
Arguments frame : clear implicits.
Arguments object_label : clear implicits.
