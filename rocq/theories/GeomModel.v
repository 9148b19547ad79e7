(** Distances between boxes: utils/geometry_utils.py, and the distance to the nearest object,
    wdl_limited/sim_agents_metrics/interaction_features.py.

    Conventions.
    - Numbers are real numbers; rounding is not modelled.  A division by a zero length gives NaN
      (0 / 0) in the code, [None] here; every comparison with NaN is false.
    - Functions are given for one element of the batch; the code applies them to all elements. *)
From Coq Require Import Reals.
From Verif Require Import Base ResultLib.
Open Scope list_scope.
Open Scope R_scope.

Notation point := (R * R)%type.
Definition padd (a b : point) : point := (fst a + fst b, snd a + snd b).
Definition psub (a b : point) : point := (fst a - fst b, snd a - snd b).
Definition pneg (a : point) : point := (-1 * fst a, -1 * snd a).
(** cross_product_2d and dot_product_2d (geometry_utils.py:243-268). *)
Definition cross (a b : point) : R := fst a * snd b - snd a * fst b.
Definition dot (a b : point) : R := fst a * fst b + snd a * snd b.
(** tf.linalg.norm. *)
Definition norm (a : point) : R := sqrt (fst a * fst a + snd a * snd a).

Definition rleb (a b : R) : bool := if Rle_dec a b then true else false.
Definition rltb (a b : R) : bool := if Rlt_dec a b then true else false.

(** A vector divided by its length. *)
Definition unit_vector (a : point) : option point :=
  if Req_EM_T (norm a) 0 then None else Some (fst a / norm a, snd a / norm a).

(** _get_edge_info (206-240): the edges as pairs of end points; the tangents; the normals. *)
Definition shifted {A} (poly : list A) : list A := skipn 1 poly ++ firstn 1 poly.
Definition edges {A} (poly : list A) : list (A * A) := combine poly (shifted poly).
Definition edge_vector (e : point * point) : point := psub (snd e) (fst e).
Definition tangent (e : point * point) : option point := unit_vector (edge_vector e).
Definition normal (e : point * point) : option point :=
  option_map (fun t : point => (- snd t, fst t)) (tangent e).

(** 125-132: the signed distance from the line of an edge. *)
Definition signed_perp_distance (q : point) (e : point * point) : option R :=
  option_map (fun n : point => - fst n * fst (psub q (fst e)) + - snd n * snd (psub q (fst e))) (normal e).
(** 134-136. *)
Definition inward (q : point) (e : point * point) : bool :=
  match signed_perp_distance q e with Some d => rleb d 0 | None => false end.
Definition is_inside (q : point) (poly : list point) : bool := forallb (inward q) (edges poly).
(** 138-149. *)
Definition projection_on_edge (q : point) (e : point * point) : bool :=
  match tangent e with
  | Some t => let p := dot t (psub q (fst e)) / norm (edge_vector e) in rleb 0 p && rleb p 1
  | None => false
  end.
(** 151-154: infinity is [None]. *)
Definition edge_distance (q : point) (e : point * point) : option R :=
  if projection_on_edge q e then option_map Rabs (signed_perp_distance q e) else None.
(** tf.reduce_min of numbers that may be infinite. *)
Definition min_inf (a b : option R) : option R :=
  match a, b with
  | None, _ => b
  | _, None => a
  | Some x, Some y => Some (Rmin x y)
  end.
Definition reduce_min (l : list (option R)) : option R := fold_left min_inf l None.
(** signed_distance_from_point_to_convex_polygon (95-167); [None], an infinity, only without vertices. *)
Definition signed_distance (q : point) (poly : list point) : option R :=
  option_map (fun m => if is_inside q poly then - m else m)
    (reduce_min (map (edge_distance q) (edges poly) ++ map (fun p => Some (norm (psub q p))) poly)).

(** A box: its four corners, counter-clockwise. *)
Record quad := Quad { c0 : point; c1 : point; c2 : point; c3 : point }.
(** Gathering at an index modulo NUM_VERTICES_IN_BOX. *)
Definition corner (b : quad) (i : nat) : point :=
  match Nat.modulo i 4 with
  | 0%nat => c0 b
  | 1%nat => c1 b
  | 2%nat => c2 b
  | _ => c3 b
  end.
(** _get_downmost_edge_in_box (170-203): tf.argmin takes the first minimum. *)
Definition downmost (b : quad) : nat :=
  fold_left (fun best i => if rltb (snd (corner b i)) (snd (corner b best)) then i else best)
    [1; 2; 3]%nat 0%nat.
Definition downmost_direction (b : quad) : option point :=
  unit_vector (psub (corner b (downmost b + 1)) (corner b (downmost b))).
(** minkowski_sum_of_box_and_box_points (25-92). *)
Definition point_order_1 : list nat := [0; 0; 1; 1; 2; 2; 3; 3]%nat.
Definition point_order_2 : list nat := [0; 1; 1; 2; 2; 3; 3; 0]%nat.
Definition minkowski_condition (a b : quad) : bool :=
  match downmost_direction a, downmost_direction b with
  | Some u, Some v => rleb 0 (cross u v)
  | _, _ => false
  end.
Definition minkowski_sum (a b : quad) : list point :=
  let condition := minkowski_condition a b in
  let order_a := if condition then point_order_2 else point_order_1 in
  let order_b := if condition then point_order_1 else point_order_2 in
  map (fun ij => padd (corner a (fst ij + downmost a)) (corner b (snd ij + downmost b)))
      (combine order_a order_b).

(** ** compute_distance_to_nearest_object, interaction_features.py:49-236 *)

(** center_x, center_y, length, width, heading: the vertical extent is not used. *)
Record obox := { bx : R; by_ : R; blength : R; bwidth : R; bheading : R }.
Definition EXTREMELY_LARGE_DISTANCE : R := 10000000000.
Definition COLLISION_DISTANCE_THRESHOLD : R := 0.
(** 107-113, 114-124. *)
Definition shrinking_distance (factor : R) (b : obox) : R := Rmin (blength b) (bwidth b) * factor / 2.
Definition core (factor : R) (b : obox) : obox :=
  {| bx := bx b; by_ := by_ b; blength := blength b - 2 * shrinking_distance factor b;
     bwidth := bwidth b - 2 * shrinking_distance factor b; bheading := bheading b |}.
(** The lower corners of get_upright_3d_box_corners (utils/box_utils.py:136-174) with get_yaw_rotation
    (utils/transform_utils.py:29-52). *)
Definition rotate (yaw : R) (p : point) : point :=
  (cos yaw * fst p + -1 * sin yaw * snd p, sin yaw * fst p + cos yaw * snd p).
Definition box_corners (b : obox) : quad :=
  let l2 := blength b * / 2 in
  let w2 := bwidth b * / 2 in
  let at_ (p : point) := padd (rotate (bheading b) p) (bx b, by_ b) in
  Quad (at_ (l2, w2)) (at_ (- l2, w2)) (at_ (- l2, - w2)) (at_ (l2, - w2)).
Definition neg_quad (q : quad) : quad := Quad (pneg (c0 q)) (pneg (c1 q)) (pneg (c2 q)) (pneg (c3 q)).
(** 170-212: the distance of two boxes.  The sum has eight vertices: the error cannot happen. *)
Definition box_distance (factor : R) (a b : obox) : result R :=
  match signed_distance (0, 0) (minkowski_sum (box_corners (core factor a))
                                              (neg_quad (box_corners (core factor b)))) with
  | Some d => Ok (d - shrinking_distance factor a - shrinking_distance factor b)
  | None => Err CheckFailed
  end.

(** tf.gather at tf.where of a mask. *)
Definition select {A} (mask : list bool) (l : list A) : list A :=
  map snd (filter fst (combine mask l)).
Definition indexed {A} (l : list A) : list (nat * A) := combine (seq 0 (List.length l)) l.
(** An object at a step: its box and validity; a row has one entry for each step. *)
Notation cell := (obox * bool)%type.
Definition step_of {A} (t : nat) (row : list A) : result A :=
  match nth_error row t with Some c => Ok c | None => Err IndexError end.
(** 211-232 for one pair of objects at one step: [same] is the diagonal of the mask. *)
Definition masked_distance (factor : R) (same : bool) (e o : cell) : result R :=
  do d <- box_distance factor (fst e) (fst o);
  let d := d + (if same then 1 else 0) * EXTREMELY_LARGE_DISTANCE in
  Ok (if snd e && snd o then d else EXTREMELY_LARGE_DISTANCE).
(** tf.reduce_min over the objects: there is at least the evaluated one. *)
Definition minimum (l : list R) : result R :=
  match l with [] => Err CheckFailed | a :: l' => Ok (fold_left Rmin l' a) end.
Definition nearest_at (factor : R) (all : list (list cell)) (i : nat) (row : list cell) (t : nat) : result R :=
  do e <- step_of t row;
  do ds <- mapM (fun jo => do o <- step_of t (snd jo);
                           masked_distance factor (Nat.eqb i (fst jo)) e o) (indexed all);
  minimum ds.
(** The whole function: objects x steps in, evaluated objects x steps out.  A mask of another length
    than the objects is outside the model. *)
Definition distance_to_nearest_object (factor : R) (num_steps : nat) (objects : list (list cell))
    (mask : list bool) : result (list (list R)) :=
  if negb (Nat.eqb (List.length mask) (List.length objects)) then Err RuntimeError else
  let evaluated := select mask objects in
  let all := evaluated ++ select (map negb mask) objects in
  mapM (fun ie => mapM (nearest_at factor all (fst ie) (snd ie)) (seq 0 num_steps)) (indexed evaluated).
(** is_colliding_per_step, metric_features.py:323-325. *)
Definition is_colliding (d : R) : bool := rltb d COLLISION_DISTANCE_THRESHOLD.
