(** Distance to the road edge: wdl_limited/sim_agents_metrics/map_metric_features.py.

    Conventions: numbers are real numbers; a tensor row of a polyline is a list of points with a
    validity; a function of a segment takes its index in the row.  Functions are given for one query
    point or one box; the code applies them to all. *)
From Coq Require Import Reals.
From Verif Require Import Base ResultLib GeomModel.
Open Scope list_scope.
Open Scope R_scope.

Record pt3 := P3 { px : R; py : R; pz : R }.
Definition xy (p : pt3) : point := (px p, py p).
Definition origin3 : pt3 := P3 0 0 0.
Notation polyline := (list pt3).
(** map_metric_features.py:23, 27. *)
Definition CYCLIC_TOLERANCE : R := 1.
Definition Z_STRETCH_FACTOR : R := 3.
(** A row of the tensor: points with validity. *)
Notation row := (list (pt3 * bool)).

(** tensorize_polylines (129-180) without the ids: degenerate polylines are skipped, the others padded with
    zeros to the longest; tf.stack of nothing raises ValueError. *)
Definition kept {A} (polylines : list (list A)) : list (list A) :=
  filter (fun p => Nat.leb 2 (List.length p)) polylines.
Definition max_length {A} (polylines : list (list A)) : nat :=
  fold_left (fun m p => Nat.max m (List.length p)) polylines 0%nat.
Definition pad (n : nat) (p : polyline) : row :=
  map (fun x => (x, true)) p ++ repeat (origin3, false) (n - List.length p).
Definition tensorize (polylines : list polyline) : result (list row) :=
  match kept polylines with
  | [] => Err ValueError
  | k => Ok (map (pad (max_length k)) k)
  end.
(** _check_polyline_cycles (183-205). *)
Definition is_cyclic (p : polyline) : bool :=
  let a := hd origin3 p in
  let b := last p origin3 in
  rltb ((px a - px b) * (px a - px b) + (py a - py b) * (py a - py b) + (pz a - pz b) * (pz a - pz b)) CYCLIC_TOLERANCE.

(** tf.math.divide_no_nan, tf.sign, tf.clip_by_value(t, 0, 1). *)
Definition divide_no_nan (a b : R) : R := if Req_EM_T b 0 then 0 else a / b.
Definition sign (x : R) : R := if rltb 0 x then 1 else if rltb x 0 then -1 else 0.
Definition clip01 (t : R) : R := Rmin (Rmax t 0) 1.

(** _compute_signed_distance_to_polylines (208-445) *)
Section Row.
Variables (stretch : R) (cyclic : bool) (r : row) (q : pt3).
Definition num_segments : nat := List.length r - 1.
Definition start (i : nat) : pt3 := fst (nth i r (origin3, false)).
Definition end_ (i : nat) : pt3 := fst (nth (S i) r (origin3, false)).
(** 254-258. *)
Definition segment_valid (i : nat) : bool :=
  snd (nth i r (origin3, false)) && snd (nth (S i) r (origin3, false)).
(** 267-270: planar parts. *)
Definition start_to_point (i : nat) : point := psub (xy q) (xy (start i)).
Definition start_to_end (i : nat) : point := psub (xy (end_ i)) (xy (start i)).
(** 274-281. *)
Definition rel_t (i : nat) : R :=
  divide_no_nan (dot (start_to_point i) (start_to_end i)) (dot (start_to_end i) (start_to_end i)).
(** 286-290. *)
Definition side (i : nat) : R := sign (cross (start_to_point i) (start_to_end i)).
(** 296-298. *)
Definition segment_to_point (i : nat) : pt3 :=
  let t := clip01 (rel_t i) in
  P3 (fst (start_to_point i) - fst (start_to_end i) * t)
     (snd (start_to_point i) - snd (start_to_end i) * t)
     (pz q - pz (start i) - (pz (end_ i) - pz (start i)) * t).
(** 299-311. *)
Definition distance_3d (i : nat) : R :=
  let v := segment_to_point i in sqrt (px v * px v + py v * py v + (pz v * stretch) * (pz v * stretch)).
Definition distance_2d (i : nat) : R := norm (xy (segment_to_point i)).
(** 324-338: the turn from the previous segment, around the ends. *)
Definition before (i : nat) : nat := match i with 0%nat => num_segments - 1 | S j => j end.
Definition after (i : nat) : nat := if Nat.eqb (S i) num_segments then 0%nat else S i.
Definition convex_before (i : nat) : bool := rltb 0 (cross (start_to_end (before i)) (start_to_end i)).
Definition convex_after (i : nat) : bool := rltb 0 (cross (start_to_end i) (start_to_end (after i))).
(** 343-387: around the ends if the polyline is cyclic, else the end itself. *)
Definition prior (i : nat) : nat := match i with 0%nat => if cyclic then num_segments - 1 else 0%nat | S j => j end.
Definition next (i : nat) : nat :=
  if Nat.eqb (S i) num_segments then (if cyclic then 0%nat else i) else S i.
(** 390-404. *)
Definition sign_if_before (i : nat) : R :=
  if convex_before i then Rmax (side i) (side (prior i)) else Rmin (side i) (side (prior i)).
Definition sign_if_after (i : nat) : R :=
  if convex_after i then Rmax (side i) (side (next i)) else Rmin (side i) (side (next i)).
Definition sign_to_segment (i : nat) : R :=
  if rltb (rel_t i) 0 && segment_valid (prior i) then sign_if_before i
  else if rltb 1 (rel_t i) && segment_valid (next i) then sign_if_after i
  else side i.
(** 424-433: invalid segments are far away.  For each segment: the distance that selects it, its sign, its
    planar distance. *)
Definition segment_entry (i : nat) : R * (R * R) :=
  if segment_valid i then (distance_3d i, (sign_to_segment i, distance_2d i))
  else (EXTREMELY_LARGE_DISTANCE, (sign_to_segment i, EXTREMELY_LARGE_DISTANCE)).
Definition row_entries : list (R * (R * R)) := map segment_entry (seq 0 num_segments).
End Row.
(** tf.argmin takes the first minimum. *)
Definition first_min (l : list (R * (R * R))) : result (R * (R * R)) :=
  match l with
  | [] => Err RuntimeError
  | e :: l' => Ok (fold_left (fun best x => if rltb (fst x) (fst best) then x else best) l' e)
  end.
(** 408-416, 438-445. *)
Definition signed_distance_to_polylines (stretch : R) (rows : list (bool * row)) (q : pt3) : result R :=
  do e <- first_min (concat (map (fun cr => row_entries stretch (fst cr) (snd cr) q) rows));
  Ok (fst (snd e) * snd (snd e)).

(** compute_distance_to_road_edge (33-126). *)
Record box3 := { b_box : obox; b_z : R; b_height : R }.
Definition bottom_corners (b : box3) : list pt3 :=
  let c := box_corners (b_box b) in
  map (fun p : point => P3 (fst p) (snd p) (b_z b - b_height b / 2)) [c0 c; c1 c; c2 c; c3 c].
(** tf.reduce_max of four numbers. *)
Definition maximum (l : list R) : result R :=
  match l with [] => Err CheckFailed | a :: l' => Ok (fold_left Rmax l' a) end.
Definition road_edge_at (rows : list (bool * row)) (e : box3 * bool) : result R :=
  do ds <- mapM (signed_distance_to_polylines Z_STRETCH_FACTOR rows) (bottom_corners (fst e));
  do m <- maximum ds;
  Ok (if snd e then m else - EXTREMELY_LARGE_DISTANCE).
Definition road_rows (road_edges : list polyline) : result (list (bool * row)) :=
  do t <- tensorize road_edges;
  Ok (combine (map is_cyclic (kept road_edges)) t).
Definition distance_to_road_edge (objects : list (list (box3 * bool))) (mask : list bool)
    (road_edges : list polyline) : result (list (list R)) :=
  match road_edges with
  | [] => Err ValueError
  | _ =>
    do rows <- road_rows road_edges;
    mapM (mapM (road_edge_at rows)) (select mask objects)
  end.
(** metric_features.py:327-329, OFFROAD_DISTANCE_THRESHOLD = 0. *)
Definition is_offroad (d : R) : bool := rltb 0 d.
