(** Convex polygons and the area two of them share: /repo/src/waymo_open_dataset/math/polygon2d.cc, with the
    corners of math/box2d.cc and math/segment2d.h, and the use in metrics/iou.cc.

    Numbers are real numbers.  The code decides every sign it branches on without rounding (CrossMaybeExact), so
    that only the coordinates of the points of intersection and the areas differ from those here. *)
From Coq Require Import Reals.
From Verif Require Import Base GeomModel.
Open Scope list_scope.
Open Scope R_scope.

(** vec2d.h:129-133: operator==. *)
Definition peqb (a b : point) : bool :=
  if Req_EM_T (fst a) (fst b) then if Req_EM_T (snd a) (snd b) then true else false else false.
Definition reqb (a b : R) : bool := if Req_EM_T a b then true else false.
(** polygon2d.cc:43-51: Cross of three and of four points. *)
Definition cross3 (v0 v1 v2 : point) : R := cross (psub v1 v0) (psub v2 v0).
Definition cross4 (v0 v1 v2 v3 : point) : R := cross (psub v1 v0) (psub v3 v2).
(** 53-58: 2^-50. *)
Definition kCrossExactEpsilon : R := / (2 ^ 50).
(** 109-151: CrossMaybeExact.  The terms 8 to 15 are rounding errors, which real numbers do not have; AccSum
    (60-107) returns the sum of its terms. *)
Definition cross_maybe_exact (v0 v1 v2 v3 : point) : R :=
  if peqb v0 v1 || peqb v2 v3 then 0 else
  let c := cross4 v0 v1 v2 v3 in
  if rltb kCrossExactEpsilon (Rabs c) then c else
  fst v1 * snd v3 + - fst v0 * snd v3 + - fst v1 * snd v2 + fst v0 * snd v2 +
  - snd v1 * fst v3 + snd v0 * fst v3 + snd v1 * fst v2 + - snd v0 * fst v2.

(** 277-290: ColinearSegmentPointIntersection. *)
Definition colinear_point (p0 p1 q : point) : option point :=
  if rleb (Rmin (fst p0) (fst p1)) (fst q) && rleb (fst q) (Rmax (fst p0) (fst p1)) &&
     rleb (Rmin (snd p0) (snd p1)) (snd q) && rleb (snd q) (Rmax (snd p0) (snd p1))
  then Some q else None.
Definition or_else {A} (a b : option A) : option A := match a with Some _ => a | None => b end.
(** math_util.h:79-87. *)
Definition bound_to_range (lo hi v : R) : R := Rmax lo (Rmin hi v).
(** 292-342: ExactIntersection; [None] is false. *)
Definition exact_intersection (p0 p1 q0 q1 : point) (det : R) : option point :=
  if reqb det 0 then
    if negb (reqb (cross_maybe_exact p0 p1 p0 q0) 0) then None else
    or_else (colinear_point q0 q1 p0) (or_else (colinear_point q0 q1 p1)
      (or_else (colinear_point p0 p1 q0) (colinear_point p0 p1 q1)))
  else
    let detsign := if rltb det 0 then -1 else 1 in
    let epsilon := Rmax (Rabs det) 1 * kCrossExactEpsilon in
    let t1 := cross_maybe_exact p0 q0 q1 q0 in
    if rltb (t1 * detsign) 0 || rltb (Rabs det + epsilon) (t1 * detsign) then None else
    if rltb (Rabs det - epsilon) (t1 * detsign) && rltb (cross_maybe_exact p1 q1 q0 q1 * detsign) 0 then None else
    let t2 := cross_maybe_exact p0 p1 p0 q0 in
    if rltb (t2 * detsign) 0 || rltb (Rabs det + epsilon) (t2 * detsign) then None else
    if rltb (Rabs det - epsilon) (t2 * detsign) && rltb (cross_maybe_exact p1 p0 p1 q1 * detsign) 0 then None else
    let t := bound_to_range 0 1 (t1 / det) in
    Some (padd p0 (fst (psub p1 p0) * t, snd (psub p1 p0) * t)).
(** 348-355: ExactSegmentIntersection. *)
Definition exact_segment_intersection (s1s s1e s2s s2e : point) : option point :=
  exact_intersection s1s s1e s2s s2e (cross_maybe_exact s1s s1e s2e s2s).

(** A polygon is the array of its vertices.  polygon2d.h:66-80: Next, Segment. *)
Notation polygon := (list (R * R)).
Definition at_ (P : polygon) (i : nat) : point := nth i P (0, 0).
Definition next (P : polygon) (i : nat) : nat := if Nat.eqb i (List.length P - 1) then 0%nat else S i.

(** 520-531: AxisAlignedBoundingBox: bottom left and top right. *)
Definition bounding_box (P : polygon) : point * point :=
  (fold_left (fun m p : point => (Rmin (fst m) (fst p), Rmin (snd m) (snd p))) (tl P) (hd (0, 0) P),
   fold_left (fun m p : point => (Rmax (fst m) (fst p), Rmax (snd m) (snd p))) (tl P) (hd (0, 0) P)).
(** 506-518: MaybeHasIntersectionWith. *)
Definition maybe_has_intersection (P Q : polygon) : bool :=
  let bp := bounding_box P in
  let bq := bounding_box Q in
  negb (rltb (fst (snd bq)) (fst (fst bp)) || rltb (fst (snd bp)) (fst (fst bq)) ||
        rltb (snd (snd bq)) (snd (fst bp)) || rltb (snd (snd bp)) (snd (fst bq))).

(** 235-271: PointInside.  The search (251-259) halves the range: [fuel] bounds its steps, the number of points
    is enough. *)
Definition kLinearSearchThreshold : nat := 10.
Fixpoint narrow (fuel : nat) (P : polygon) (p : point) (start_ix end_ix : nat) : nat * nat :=
  match fuel with
  | O => (start_ix, end_ix)
  | S f =>
    if Nat.ltb kLinearSearchThreshold (end_ix - start_ix) then
      let mid_ix := Nat.div (end_ix + start_ix) 2 in
      if rleb 0 (cross (psub (at_ P mid_ix) (at_ P 0)) (psub p (at_ P 0)))
      then narrow f P p mid_ix end_ix else narrow f P p start_ix mid_ix
    else (start_ix, end_ix)
  end.
Definition not_right (P : polygon) (p : point) (i j : nat) : bool :=
  negb (rltb (cross (psub (at_ P j) (at_ P i)) (psub p (at_ P i))) 0).
Definition point_inside (P : polygon) (p : point) : bool :=
  if Nat.ltb (List.length P) 3 then false else
  let b := bounding_box P in
  if rltb (fst p) (fst (fst b)) || rltb (snd p) (snd (fst b)) ||
     rltb (fst (snd b)) (fst p) || rltb (snd (snd b)) (snd p) then false else
  let r := narrow (List.length P) P p 0 (List.length P) in
  forallb (fun ii => not_right P p ii (S ii)) (seq (fst r) (snd r - 1 - fst r)) &&
  (if Nat.ltb (fst r) (snd r) then not_right P p (snd r - 1) (next P (snd r - 1)) else true).

(** 387-396: append_convex_point. *)
Definition append_convex_point (p : point) (l : list point) : list point :=
  match l with
  | [] => [p]
  | f :: _ => if negb (peqb p f) && negb (peqb p (last l (0, 0))) then l ++ [p] else l
  end.
(** 381-403: the variables of the loop.  p_idx_next and q_idx_next are the successors of p_idx and q_idx, and
    p0, p1, q0, q1 are the points there. *)
Record state := { p_idx : nat; q_idx : nat; p_inside : bool; q_inside : bool; convex_points : list point }.
(** 434-456: the advance rule. *)
Definition advance (P Q : polygon) (det : R) (s : state) : state :=
  let p0 := at_ P (p_idx s) in
  let p1 := at_ P (next P (p_idx s)) in
  let q0 := at_ Q (q_idx s) in
  let q1 := at_ Q (next Q (q_idx s)) in
  if (if rleb 0 det then rltb (cross_maybe_exact q1 q0 p1 q0) 0 else rleb 0 (cross_maybe_exact p1 p0 q1 p0))
  then {| p_idx := next P (p_idx s); q_idx := q_idx s; p_inside := p_inside s; q_inside := q_inside s;
          convex_points := if p_inside s then append_convex_point p1 (convex_points s) else convex_points s |}
  else {| p_idx := p_idx s; q_idx := next Q (q_idx s); p_inside := p_inside s; q_inside := q_inside s;
          convex_points := if q_inside s then append_convex_point q1 (convex_points s) else convex_points s |}.
(** 405-432: one pass through the loop: the result ([inl]), or the next state. *)
Definition step (P Q : polygon) (s : state) : list point + state :=
  let p0 := at_ P (p_idx s) in
  let p1 := at_ P (next P (p_idx s)) in
  let q0 := at_ Q (q_idx s) in
  let q1 := at_ Q (next Q (q_idx s)) in
  let det := cross_maybe_exact p0 p1 q1 q0 in
  match exact_intersection p0 p1 q0 q1 det with
  | None => inr (advance P Q det s)
  | Some inter =>
    if Nat.ltb 2 (List.length (convex_points s)) && peqb inter (at_ (convex_points s) 0)
    then inl (convex_points s)
    else
      let inside := rleb 0 (cross_maybe_exact q1 q0 p1 q0) in
      inr (advance P Q det
             {| p_idx := p_idx s; q_idx := q_idx s; p_inside := inside; q_inside := negb inside;
                convex_points := append_convex_point inter (convex_points s) |})
  end.
(** 405-462: the loop.  It runs at most 2 * total_num_points times; the first point found sets the counter to
    total_num_points - 1, so that total_num_points passes remain ([closing]). *)
Inductive traversal := Closed (l : list point) | Open | Nothing.
Fixpoint closing (fuel : nat) (P Q : polygon) (s : state) : traversal :=
  match fuel with
  | O => Open
  | S f => match step P Q s with inl l => Closed l | inr s' => closing f P Q s' end
  end.
Fixpoint searching (fuel : nat) (P Q : polygon) (s : state) : traversal :=
  match fuel with
  | O => Nothing
  | S f =>
    match step P Q s with
    | inl l => Closed l
    | inr s' =>
      match convex_points s' with
      | [] => searching f P Q s'
      | _ :: _ => closing (List.length P + List.length Q) P Q s'
      end
    end
  end.
(** 360-496: ComputeIntersectionVertices. *)
Definition traverse (P Q : polygon) : traversal :=
  searching ((List.length P + List.length Q) * 2) P Q
    {| p_idx := 0; q_idx := 0; p_inside := false; q_inside := false; convex_points := [] |}.
Definition intersection_vertices (P Q : polygon) : list point :=
  if negb (maybe_has_intersection P Q) then [] else
  match traverse P Q with
  | Closed l => l
  | Open => []
  | Nothing =>
    if forallb (point_inside Q) P then P else
    if forallb (point_inside P) Q then Q else []
  end.

(** 153-177: AreaInternal, with kEpsilon of polygon2d.h:125. *)
Definition kEpsilon : R := / 10000000000.
Definition fan (l : list point) : R :=
  fold_left (fun area i => area + cross3 (at_ l 0) (at_ l i) (at_ l (S i))) (seq 1 (List.length l - 2)) 0.
Definition area_internal (l : list point) : R :=
  (if rleb (Rabs (fan l)) kEpsilon then 0 else fan l) * / 2.
(** 498-504: ComputeIntersectionArea. *)
Definition intersection_area (P Q : polygon) : R :=
  let l := intersection_vertices P Q in
  if Nat.ltb (List.length l) 3 then 0 else area_internal l.

(** segment2d.h:47-59 and 103-107, box2d.cc:74-104: the corners of a box, counter-clockwise, from the rear left;
    iou.cc:66-70: the box of a label; polygon2d.h:44-49: its polygon. *)
Definition box_polygon (b : obox) : polygon :=
  let direction := (cos (bheading b), sin (bheading b)) in
  let offset := (fst direction * (blength b / 2), snd direction * (blength b / 2)) in
  let axis_start := psub (bx b, by_ b) offset in
  let axis_end := padd (bx b, by_ b) offset in
  let along := psub axis_end axis_start in
  let perp_unit : point := if reqb (blength b) 0 then (0, 0) else (- snd along / blength b, fst along / blength b) in
  let w2 := (fst perp_unit * (bwidth b / 2), snd perp_unit * (bwidth b / 2)) in
  [padd axis_start w2; psub axis_start w2; psub axis_end w2; padd axis_end w2].
(** iou.cc:34-38, 111-138: ComputeIoU2d. *)
Definition iou_epsilon : R := / 1000000.
Definition kMinBoxDim : R := / 100.
Definition tiny (b : obox) : bool := rleb (blength b) kMinBoxDim || rleb (bwidth b) kMinBoxDim.
Definition compute_iou_2d (b1 b2 : obox) : result R :=
  if tiny b1 || tiny b2 then Ok 0 else
  let intersection := intersection_area (box_polygon b1) (box_polygon b2) in
  let union_area := blength b1 * bwidth b1 + blength b2 * bwidth b2 - intersection in
  if rleb union_area iou_epsilon then Ok 0 else
  let iou := intersection / union_area in
  if rltb iou (- iou_epsilon) then Err CheckFailed else
  if rltb (1 + iou_epsilon) iou then Err CheckFailed else
  Ok (Rmax (Rmin iou 1) 0).
