(** Axis aligned boxes and the tree of boxes (C37). *)
From Coq Require Import QArith List.
From Verif Require Import Base BoxModel BoxSpec BoxProofs.
Import ListNotations.
Local Open Scope Q_scope.

(** A query reports every other box sharing a point with the given one, once, and nothing else. *)
Theorem C37_query_exact (boxes : list (aabox QK)) : boxes <> [] -> (forall b, In b boxes -> proper b) ->
  exists t, build_tree boxes = Ok t /\
  forall index box, nth_error boxes index = Some box ->
  exists hits, collect_overlaps boxes t index = Ok hits /\
    NoDup hits /\
    forall k, In k hits <-> k <> index /\ exists b, nth_error boxes k = Some b /\ share_point box b.
Proof. exact (tree_query_geometric boxes). Qed.
Print Assumptions C37_query_exact.

(** Overlap is mutual. *)
Theorem C37_query_symmetric (boxes : list (aabox QK)) t i j hi hj :
  build_tree boxes = Ok t -> collect_overlaps boxes t i = Ok hi -> collect_overlaps boxes t j = Ok hj ->
  In j hi <-> In i hj.
Proof. exact (tree_mutual boxes t i j hi hj). Qed.
Print Assumptions C37_query_symmetric.

(** Building on no boxes and querying an index that does not exist read outside the vectors. *)
Theorem C37_out_of_range (K : num) :
  build_tree (@nil (aabox K)) = Err IndexError /\
  forall (boxes : list (aabox K)) t index, (length boxes <= index)%nat -> collect_overlaps boxes t index = Err IndexError.
Proof. exact (@tree_errors K). Qed.
Print Assumptions C37_out_of_range.

(** With integer coordinates whatever is reported does overlap and is reported once... *)
Theorem C37_integer_sound (boxes : list (aabox ZK)) : boxes <> [] ->
  (forall b, In b boxes -> (0 <= hx b)%Z /\ (0 <= hy b)%Z) ->
  exists t, build_tree boxes = Ok t /\
  forall index box, nth_error boxes index = Some box ->
  exists hits, collect_overlaps boxes t index = Ok hits /\
    NoDup hits /\
    forall k, In k hits -> k <> index /\ exists b, nth_error boxes k = Some b /\
      exists x y, zin_box box x y /\ zin_box b x y.
Proof. exact (ztree_sound boxes). Qed.
Print Assumptions C37_integer_sound.

(** ... but overlapping boxes can be missed, since halving the bounds truncates. *)
Theorem C37_integer_complete_refuted :
  exists (boxes : list (aabox ZK)) t index box k b, build_tree boxes = Ok t /\
    (forall b, In b boxes -> (0 <= hx b)%Z /\ (0 <= hy b)%Z) /\
    nth_error boxes index = Some box /\ nth_error boxes k = Some b /\ k <> index /\
    (exists x y, zin_box box x y /\ zin_box b x y) /\
    collect_overlaps boxes t index = Ok [].
Proof. exact ztree_incomplete. Qed.
Print Assumptions C37_integer_complete_refuted.

(** The area of the intersection is the product of the common lengths. *)
Theorem C37_intersection_area (a b : aabox QK) : proper a -> proper b -> intersection_area a b == common_area a b.
Proof. exact (intersection_area_q a b). Qed.
Print Assumptions C37_intersection_area.

(** A point is inside exactly when it belongs to the closed rectangle. *)
Theorem C37_inside (b : aabox QK) (x y : Q) : inside b x y = true <-> in_box b x y.
Proof. exact (inside_q b x y). Qed.
Print Assumptions C37_inside.

(** The squared distance is the least over the points of the rectangle. *)
Theorem C37_distance (b : aabox QK) (x y : Q) : proper b ->
  (exists x' y', in_box b x' y' /\ distance_sqr b x y == dist2 x y x' y') /\
  (forall x' y', in_box b x' y' -> distance_sqr b x y <= dist2 x y x' y').
Proof. exact (distance_min b x y). Qed.
Print Assumptions C37_distance.

(** The union is the smallest box containing both. *)
Theorem C37_union (a b : aabox QK) : proper a -> proper b ->
  proper (union a b) /\
  (forall x y, in_box a x y \/ in_box b x y -> in_box (union a b) x y) /\
  (forall c : aabox QK, (forall x y, in_box a x y \/ in_box b x y -> in_box c x y) ->
     forall x y, in_box (union a b) x y -> in_box c x y).
Proof. exact (union_smallest a b). Qed.
Print Assumptions C37_union.

(** Initialising from corners gives back the corners; translating moves every point. *)
Theorem C37_init (minx miny maxx maxy : Q) :
  let b := @init QK minx miny maxx maxy in
  fst (get_min b) == minx /\ snd (get_min b) == miny /\ fst (get_max b) == maxx /\ snd (get_max b) == maxy.
Proof. exact (init_edges minx miny maxx maxy). Qed.
Print Assumptions C37_init.
Theorem C37_xywh (b : aabox QK) : let '(x, y, w, h) := get_xywh b in
  (x : Q) == fst (get_min b) /\ (y : Q) == snd (get_min b) /\ (x : Q) + w == fst (get_max b) /\ (y : Q) + h == snd (get_max b).
Proof. exact (xywh_box b). Qed.
Print Assumptions C37_xywh.
Theorem C37_translate (b : aabox QK) (dx dy x y : Q) : in_box (translate b dx dy) (x + dx) (y + dy) <-> in_box b x y.
Proof. exact (translate_box b dx dy x y). Qed.
Print Assumptions C37_translate.

(** A row of unit boxes, deep enough to be split twice: the ends touch one neighbour, the others two. *)
Example row_boxes : list (aabox QK) :=
  map (fun i => {| cx := inject_Z (Z.of_nat i) : QK; cy := 0 : QK; hx := 1 # 2 : QK; hy := 1 # 2 : QK |}) (seq 0 12).
Example row_queries :
  (do t <- build_tree row_boxes; collect_overlaps row_boxes t 0) = Ok [1%nat] /\
  (do t <- build_tree row_boxes; collect_overlaps row_boxes t 5) = Ok [4%nat; 6%nat].
Proof. split; vm_compute; reflexivity. Qed.
Example row_proper : row_boxes <> [] /\ forall b, In b row_boxes -> proper b.
Proof.
  split; [discriminate|]. intros b H. unfold row_boxes in H. apply in_map_iff in H. destruct H as (i & <- & _). split; discriminate.
Qed.
