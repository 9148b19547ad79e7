(** Specification of the segmentation tool: which frames are compared, with what, and which points they give. *)
From Coq Require Import String Sorting.
From Verif Require Import Base SegModel SegSpec ToolModel SegToolModel.
Open Scope list_scope.
Open Scope Z_scope.

Definition frame_id : Type := string * Z.
Definition id_of (f : seg_frame) : frame_id := (context_name f, frame_timestamp f).
(** [f] is the last frame of the list with this identity. *)
Definition last_with (k : frame_id) (l : list seg_frame) (f : seg_frame) : Prop :=
  exists a b, l = a ++ f :: b /\ id_of f = k /\ forall g, In g b -> id_of g <> k.
(** The classes that are evaluated: 1 to 22. *)
Definition evaluated (c : Z) : Prop := 1 <= c <= 22.

(** The laser whose labels are the prediction of a frame: a frame with one laser, the top one. *)
Inductive predicts (pds : list seg_frame) (k : frame_id) : option laser -> Prop :=
| has_prediction f l : last_with k pds f -> segmentation_labels f = [l] -> name l = TOP -> predicts pds k (Some l)
| no_prediction : (forall f l, last_with k pds f -> segmentation_labels f = [l] -> name l <> TOP) -> predicts pds k None.
(** Labels of a return; a missing prediction is as many undefined labels as the FIRST return has points. *)
Inductive labels (g : laser) (r : laser -> option (list Z)) : option laser -> list Z -> Prop :=
| given p d : r p = Some d -> labels g r (Some p) d
| undefined d1 : ri_return1 g = Some d1 -> labels g r None (repeat 0 (List.length d1)).
Definition comparable (g : laser) (pd : option laser) (r : laser -> option (list Z)) (pts : list (Z * Z)) : Prop :=
  exists p d, labels g r pd p /\ r g = Some d /\ List.length p = List.length d /\ pts = combine p d.
Definition sizes_differ (g : laser) (pd : option laser) (r : laser -> option (list Z)) : Prop :=
  exists p d, labels g r pd p /\ r g = Some d /\ List.length p <> List.length d.
Definition unreadable (g : laser) (pd : option laser) (r : laser -> option (list Z)) : Prop :=
  r g = None \/ exists p, pd = Some p /\ r p = None.

Inductive verdict := Points (pts : list (Z * Z)) | Unsupported | Mismatch | Unreadable.
(** A labelled frame: the points of both returns, or what stops the tool first. *)
Inductive compared (g : laser) (pd : option laser) : verdict -> Prop :=
| both a b : comparable g pd ri_return1 a -> comparable g pd ri_return2 b -> compared g pd (Points (a ++ b))
| size1 : sizes_differ g pd ri_return1 -> compared g pd Mismatch
| size2 a : comparable g pd ri_return1 a -> sizes_differ g pd ri_return2 -> compared g pd Mismatch
| read1 : unreadable g pd ri_return1 -> compared g pd Unreadable
| read2 a : comparable g pd ri_return1 a -> unreadable g pd ri_return2 -> compared g pd Unreadable.
Inductive judged (pds gts : list seg_frame) (k : frame_id) : verdict -> Prop :=
| unlabelled : (forall f, last_with k gts f -> segmentation_labels f = []) -> judged pds gts k (Points [])
| other_laser f : last_with k gts f -> segmentation_labels f <> [] ->
    (forall l, segmentation_labels f = [l] -> name l <> TOP) -> judged pds gts k Unsupported
| top_laser f g pd v : last_with k gts f -> segmentation_labels f = [g] -> name g = TOP -> predicts pds k pd ->
    compared g pd v -> judged pds gts k v.

(** The frames in order: the first that is not comparable decides. *)
Inductive outcome (J : frame_id -> verdict -> Prop) : list frame_id -> result (option (list (Z * Z))) -> Prop :=
| all_done : outcome J [] (Ok (Some []))
| counted k ks p q : J k (Points p) -> outcome J ks (Ok (Some q)) -> outcome J (k :: ks) (Ok (Some (p ++ q)))
| later k ks p r : J k (Points p) -> outcome J ks r -> (forall q, r <> Ok (Some q)) -> outcome J (k :: ks) r
| stopped k ks : J k Unsupported -> outcome J (k :: ks) (Ok None)
| aborted k ks : J k Mismatch -> outcome J (k :: ks) (Err CheckFailed)
| broken k ks : J k Unreadable -> outcome J (k :: ks) (Err RuntimeError).
(** What is printed for the points. *)
Definition reported (r : result (option (list (Z * Z)))) : result (option seg_metrics) :=
  match r with
  | Ok (Some pts) => Ok (Some (metrics_of segmentation_types pts))
  | Ok None => Ok None
  | Err e => Err e
  end.

(** A label image with two channels (dataset.proto:252-265): instance id and class of each point. *)
Record point_label := { instance_id : Z; semantic_class : Z }.
Definition interleaved (l : list point_label) : list Z := flat_map (fun p => [instance_id p; semantic_class p]) l.
Definition classes (l : list point_label) : list Z := map semantic_class l.
(** The labels of a frame: of each laser, its name and the labels of its returns. *)
Record label_frame := { frame_context : string; frame_stamp : Z;
  lasers : list (laser_name * option (list point_label) * option (list point_label)) }.
Definition as_frame (write : list point_label -> list Z) (f : label_frame) : seg_frame :=
  {| context_name := frame_context f; frame_timestamp := frame_stamp f;
     segmentation_labels := map (fun '(n, r1, r2) =>
       {| name := n; ri_return1 := option_map write r1; ri_return2 := option_map write r2 |}) (lasers f) |}.
Definition labels_in (f : label_frame) (p : point_label) : Prop :=
  exists n r1 r2 l, In (n, r1, r2) (lasers f) /\ (r1 = Some l \/ r2 = Some l) /\ In p l.
