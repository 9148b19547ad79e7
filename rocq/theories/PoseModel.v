(** Pose estimation: matching of predicted and labelled people and the PEM metric,
    /repo/src/waymo_open_dataset/metrics/python/keypoint_metrics.py and utils/keypoint_data.py.

    Conventions.
    - Numbers are real numbers; rounding is not modelled.  Infinity is [None].
    - A tensor is the list of its rows; a matrix is a function of row and column, given with its size.
    - Sample weights are not modelled. *)
From Coq Require Import Reals.
From Verif Require Import Base ResultLib GeomModel.
Open Scope list_scope.
Open Scope R_scope.

(** keypoint_data.py:257-348: a keypoint of the tensors, with its visibility (0 missing, 1 occluded,
    2 visible), and the properties is_fully_visible and has_visible. *)
Record keypoint := { px : R; py : R; pz : R; visibility : Z }.
Definition is_fully_visible (k : keypoint) : bool := Z.ltb 1 (visibility k).
Notation person := (list keypoint).
Definition has_visible (o : person) : bool := existsb is_fully_visible o.
(** keypoint_data.py:426-483: a three-dimensional box. *)
Record box3 := { cx : R; cy : R; cz : R; sx : R; sy : R; sz : R; heading : R }.

Notation vec := (R * R * R)%type.
Definition vx (v : vec) : R := fst (fst v).
Definition vy (v : vec) : R := snd (fst v).
Definition vz (v : vec) : R := snd v.
Definition vsub (a b : vec) : vec := (vx a - vx b, vy a - vy b, vz a - vz b).
Definition vnorm (a : vec) : R := sqrt (vx a * vx a + vy a * vy a + vz a * vz a).
Definition location (k : keypoint) : vec := (px k, py k, pz k).
(** tf.clip_by_value. *)
Definition clip (lo hi v : R) : R := Rmax (Rmin v hi) lo.

(** keypoint_metrics.py:63-108: _to_box_transform, in three dimensions: the rows of the rotation and the translation. *)
Record transform := { row_x : vec; row_y : vec; row_z : vec; shift : vec }.
Definition to_box_transform (b : box3) : transform :=
  let c := cos (heading b) in
  let s := sin (heading b) in
  let tx := c * cx b - s * cy b in
  let ty := s * cx b + c * cy b in
  {| row_x := (c, - s, 0); row_y := (s, c, 0); row_z := (0, 0, 1); shift := (- tx, - ty, - cz b) |}.
(** 111-123: _apply_transform. *)
Definition vdot (a b : vec) : R := vx a * vx b + vy a * vy b + vz a * vz b.
Definition apply_transform (t : transform) (v : vec) : vec :=
  (vdot (row_x t) v + vx (shift t), vdot (row_y t) v + vy (shift t), vdot (row_z t) v + vz (shift t)).
(** tf.linalg.inv of such a matrix: the inverse of a rotation is its transpose. *)
Definition inverse (t : transform) : transform :=
  let cxs := (vx (row_x t), vx (row_y t), vx (row_z t)) in
  let cys := (vy (row_x t), vy (row_y t), vy (row_z t)) in
  let czs := (vz (row_x t), vz (row_y t), vz (row_z t)) in
  {| row_x := cxs; row_y := cys; row_z := czs;
     shift := (- vdot cxs (shift t), - vdot cys (shift t), - vdot czs (shift t)) |}.
(** 126-153: box_displacement, for one point and one box. *)
Definition box_displacement (p : vec) (b : box3) : vec :=
  let t := to_box_transform b in
  let q := apply_transform t p in
  let clipped := (clip (- (sx b / 2)) (sx b / 2) (vx q), clip (- (sy b / 2)) (sy b / 2) (vy q),
                  clip (- (sz b / 2)) (sz b / 2) (vz q)) in
  vsub (apply_transform (inverse t) clipped) p.

(** 1295-1335: keypoint_distance: one row, of a box and a person. *)
Definition keypoint_distance (b : box3) (o : person) : list (option R) :=
  map (fun k => if is_fully_visible k then Some (vnorm (box_displacement (location k) b)) else None) o.
Definition reduce_min (l : list (option R)) : option R := fold_right min_inf None l.

(** 490-531: _pose_estimation_error, for one pair of keypoints. *)
Definition point_error (mismatch_penalty : R) (g p : keypoint) : R * bool :=
  let error := clip 0 mismatch_penalty (vnorm (vsub (location g) (location p))) in
  let tn_mask := negb (is_fully_visible g || is_fully_visible p) in
  let tp_mask := is_fully_visible g && is_fully_visible p in
  let error := if tn_mask then 0 else error in
  (if tp_mask || tn_mask then error else mismatch_penalty, negb tn_mask).
Definition rsum (l : list R) : R := fold_right Rplus 0 l.
Definition person_errors (penalty : R) (g p : person) : list (R * bool) :=
  map (fun kk => point_error penalty (fst kk) (snd kk)) (combine g p).

(** 1356-1392: _hungarian_assignment.  [assign maximize rows cols cost] is scipy's linear_sum_assignment. *)
Definition solver := bool -> nat -> nat -> (nat -> nat -> R) -> list (nat * nat).
Definition hungarian_assignment (assign : solver) (rows cols : nat) (cost : nat -> nat -> R) (maximize : bool)
    (keep : R -> bool) : list (nat * nat) :=
  filter (fun ij => keep (cost (fst ij) (snd ij))) (assign maximize rows cols cost).

Definition nth_person (l : list person) (i : nat) : person := nth i l [].
(** 1395-1398. *)
Definition very_large_error : R := 10000000000.
Definition eps_m : R := / 100000.
(** 1401-1477: mean_error_matching.  [n_points] is the number of keypoints of every person. *)
Definition mean_error (gt pr : list person) (n_points : nat) (candidate : nat -> nat -> bool) (penalty : R) (i j : nat) : R :=
  let errors := if candidate i j then map fst (person_errors penalty (nth_person gt i) (nth_person pr j))
                else repeat very_large_error n_points in
  clip 0 penalty (rsum errors / INR n_points).
Definition mean_error_matching (assign : solver) (gt pr : list person) (n_points : nat)
    (candidate : nat -> nat -> bool) (penalty : R) : list (nat * nat) :=
  if Nat.eqb (length pr) 0 then [] else
  hungarian_assignment assign (length gt) (length pr) (mean_error gt pr n_points candidate penalty) false
    (fun x => rltb x penalty).

(** 1495-1507: _ids_to_mask and _mask_of_used_ids. *)
Definition used (m : list (nat * nat)) (i j : nat) : bool :=
  existsb (fun ij => Nat.eqb j (snd ij)) m || existsb (fun ij => Nat.eqb i (fst ij)) m.
(** 1510-1532: _is_gti_and_not_gtv_close_enough. *)
Definition near (max_distance : R) (g p : person) : bool :=
  existsb (fun kk => is_fully_visible (fst kk) && is_fully_visible (snd kk) &&
                     rltb (vnorm (vsub (location (fst kk)) (location (snd kk)))) max_distance) (combine g p).
Definition gti_and_not_gtv_close (max_distance : R) (gt pr : list person) (i j : nat) : bool :=
  negb (existsb (fun g => near max_distance g (nth_person pr j)) gt) && negb (has_visible (nth_person gt i)).

Definition zero_box : box3 := {| cx := 0; cy := 0; cz := 0; sx := 0; sy := 0; sz := 0; heading := 0 |}.
(** 1562-1622: MeanErrorMatcher.matching_ids. *)
Definition closest_mask (max_distance : R) (boxes : list box3) (pr : list person) (i j : nat) : bool :=
  match reduce_min (keypoint_distance (nth i boxes zero_box) (nth_person pr j)) with
  | Some d => rleb d max_distance
  | None => false
  end.
Definition n_points_inside (boxes : list box3) (pr : list person) (i j : nat) : nat :=
  length (filter (fun d => match d with Some x => rltb x eps_m | None => false end)
                 (keypoint_distance (nth i boxes zero_box) (nth_person pr j))).
Definition n_point_score (max_distance : R) (boxes : list box3) (gt pr : list person) (i j : nat) : R :=
  if gti_and_not_gtv_close max_distance gt pr i j then INR (n_points_inside boxes pr i j) else 0.
Definition stage1 (assign : solver) (max_distance : R) (boxes : list box3) (gt pr : list person) : list (nat * nat) :=
  let m_all := hungarian_assignment assign (length gt) (length pr) (n_point_score max_distance boxes gt pr) true
                 (fun x => rltb 0 x) in
  filter (fun ij => negb (has_visible (nth_person gt (fst ij)))) m_all.
Definition matching_ids (assign : solver) (max_distance : R) (boxes : list box3) (gt pr : list person) (n_points : nat)
    : list (nat * nat) :=
  let m1 := stage1 assign max_distance boxes gt pr in
  let m2 := mean_error_matching assign gt pr n_points
              (fun i j => closest_mask max_distance boxes pr i j && negb (used m1 i j)) max_distance in
  m2 ++ m1.

(** 1095-1112: missing_ids; tf.scatter_nd refuses ids out of range. *)
Definition missing_ids (ids : list nat) (count : nat) : result (list nat) :=
  if existsb (fun i => Nat.leb count i) ids then Err IndexError else
  Ok (filter (fun i => negb (existsb (Nat.eqb i) ids)) (seq 0 count)).
(** 1115-1141: _reorder: rows by index (tf.gather refuses indices out of range) and rows of zeros. *)
Definition gather {A} (t : list A) (ids : list nat) : result (list A) :=
  mapM (fun i => match nth_error t i with Some a => Ok a | None => Err IndexError end) ids.
Definition no_keypoint : keypoint := {| px := 0; py := 0; pz := 0; visibility := 0 |}.
Definition no_person (n_points : nat) : person := repeat no_keypoint n_points.
(** 1192-1206: _indices_of_false and _select_ids. *)
Definition indices_of_false (values : list bool) : list nat :=
  filter (fun i => negb (nth i values true)) (seq 0 (length values)).
Definition select_ids (ids : list (nat * nat)) (gt_mask : list bool) : result (list (nat * nat)) :=
  do ms <- gather gt_mask (map fst ids); Ok (map fst (filter snd (combine ids ms))).
(** 1224-1268: BaseMatcher.reorder, for the keypoints; boxes are reordered alike. *)
Definition reorder (n_points : nat) (gt pr : list person) (m_ids : list (nat * nat)) : result (list person * list person) :=
  let has_gt := map has_visible gt in
  let has_pr := map has_visible pr in
  do visible_ids <- select_ids m_ids has_gt;
  do fn_ids <- missing_ids (map fst m_ids ++ indices_of_false has_gt) (length gt);
  do fp_ids <- missing_ids (map snd m_ids ++ indices_of_false has_pr) (length pr);
  do gt1 <- gather gt (map fst visible_ids);
  do gt2 <- gather gt fn_ids;
  do pr1 <- gather pr (map snd visible_ids);
  do pr2 <- gather pr fp_ids;
  Ok (gt1 ++ gt2 ++ repeat (no_person n_points) (length fp_ids),
      pr1 ++ repeat (no_person n_points) (length fn_ids) ++ pr2).

(** 315-350, 534-585: PoseEstimationMetric.  The state is that of tf.keras.metrics.Mean: the weighted sum of the
    values and the sum of the weights. *)
Notation pem_state := (R * R)%type.
Definition pem_update (penalty : R) (s : pem_state) (gt pr : list person) : result pem_state :=
  if negb (Nat.eqb (length gt) (length pr)) then Err ValueError else
  let errors := concat (map (fun gp : person * person => person_errors penalty (fst gp) (snd gp)) (combine gt pr)) in
  Ok (fst s + rsum (map (fun e : R * bool => fst e * (if snd e then 1 else 0)) errors),
      snd s + rsum (map (fun e : R * bool => if snd e then 1 else 0) errors)).
Definition pem_result (s : pem_state) : R := if Req_EM_T (snd s) 0 then 0 else fst s / snd s.
(** A frame: its boxes, labels and predictions; the frames are matched, reordered and added one by one. *)
Record frame := { f_boxes : list box3; f_gt : list person; f_pr : list person }.
Definition pem_frame (assign : solver) (n_points : nat) (max_distance penalty : R) (s : pem_state) (f : frame)
    : result pem_state :=
  do (g, p) <- reorder n_points (f_gt f) (f_pr f)
             (matching_ids assign max_distance (f_boxes f) (f_gt f) (f_pr f) n_points);
  pem_update penalty s g p.
Definition pem (assign : solver) (n_points : nat) (max_distance penalty : R) (frames : list frame) : result R :=
  do s <- foldM (pem_frame assign n_points max_distance penalty) frames (0, 0);
  Ok (pem_result s).
