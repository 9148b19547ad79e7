(** The construction, the convexity check and the movement of polygons: /repo/src/waymo_open_dataset/math/polygon2d.cc 179-233 and
    520-631 with polygon2d.h, over PolyModel.v.

    Numbers are real numbers. *)
From Coq Require Import Reals.
From Verif Require Import Base ResultLib GeomModel PolyModel.
Open Scope list_scope.
Open Scope R_scope.

(** polygon2d.h:36-37 and 132-140: the points and the corners of the bounding box; num_points_ is the number of points. *)
Record polygon2d := { points : list point; bbox_bottom_left : point; bbox_top_right : point }.
(** polygon2d.h:35-36: the empty polygon; the corners are at the origin (vec2d.h:36). *)
Definition empty_polygon : polygon2d := {| points := []; bbox_bottom_left := (0, 0); bbox_top_right := (0, 0) |}.

(** math/vec2d.h:202-205: DistanceSqrToPoint. *)
Definition distance_sqr (a b : point) : R := (fst b - fst a) * (fst b - fst a) + (snd b - snd a) * (snd b - snd a).
(** 185-191: the loop; [to] is the last point kept. *)
Fixpoint keep_from (to : point) (l : list point) : list point :=
  match l with
  | [] => []
  | from :: l' =>
    if rleb (kEpsilon * kEpsilon) (distance_sqr from to) then from :: keep_from from l' else keep_from to l'
  end.
(** 179-198: RemoveConsecutiveDuplicatePoints. *)
Definition remove_consecutive_duplicate_points (l : list point) : list point :=
  match l with
  | [] => []
  | to :: l' =>
    let kept := to :: keep_from to l' in
    if Nat.leb 2 (List.length kept) && rltb (distance_sqr to (last kept (0, 0))) (kEpsilon * kEpsilon) then removelast kept else kept
  end.
(** 213-233: BuildFromPoints. *)
Definition build_from_points (l : list point) : result polygon2d :=
  match l with
  | [] => Err CheckFailed
  | _ =>
    let l1 := match l with [p0] => [p0; p0] | _ => l end in
    let l2 := match l1 with [p0; p1] => [p0; p1; p1; p0] | _ => l1 end in
    let b := bounding_box l2 in
    Ok {| points := l2; bbox_bottom_left := fst b; bbox_top_right := snd b |}
  end.

(** 579-631: IsConvexHull. The directions seen: counter-clockwise, clockwise. *)
Definition both (f : bool * bool) : bool := fst f && snd f.
Definition see (c : R) (f : bool * bool) : bool * bool :=
  if rltb kEpsilon c then (true, snd f) else if rltb c (- kEpsilon) then (fst f, true) else f.
(** 584-596: the first loop; [None] is the return of false. *)
Fixpoint turns_loop (l : list point) (iis : list nat) (f : bool * bool) : option (bool * bool) :=
  match iis with
  | [] => Some f
  | ii :: iis' =>
    let n := List.length l in
    let f' := see (cross3 (at_ l (if Nat.eqb ii 0 then n - 1 else ii - 1)) (at_ l ii) (at_ l (if Nat.eqb ii (n - 1) then 0 else ii + 1)%nat)) f in
    if both f' then None else turns_loop l iis' f'
  end.
(** 602-624: the inner loop for one reference point, with the directions and whether it was conclusive. *)
Fixpoint shift_loop (l : list point) (ref_point : point) (iis : list nat) (f : bool * bool) : option (bool * bool * bool) :=
  match iis with
  | [] => Some (f, true)
  | ii :: iis' =>
    if Nat.leb 2 ii then
      let shift_prod := cross3 ref_point (at_ l (ii - 1)) (at_ l ii) in
      if negb (rltb kEpsilon shift_prod) && negb (rltb shift_prod (- kEpsilon)) then Some (f, false) else
      let f' := see shift_prod f in
      if both f' then None else shift_loop l ref_point iis' f'
    else if both f then None else shift_loop l ref_point iis' f
  end.
(** 600-625: the loop over the reference points. *)
Fixpoint refs_loop (l : list point) (refs : list nat) (f : bool * bool) : option (bool * bool) :=
  match refs with
  | [] => Some f
  | ref :: refs' =>
    match shift_loop l (at_ l ref) (seq 0 (List.length l)) f with
    | None => None
    | Some (f', true) => Some f'
    | Some (f', false) => refs_loop l refs' f'
    end
  end.
(** 579-631: [None] is false; otherwise the value of counter_clockwise. *)
Definition is_convex_hull (l : list point) : option bool :=
  match turns_loop l (seq 0 (List.length l)) (false, false) with
  | None => None
  | Some f => match refs_loop l (seq 0 (List.length l)) f with None => None | Some f' => Some (negb (snd f')) end
  end.

(** 201-211: the constructor from points. [debug] is whether debug checks are compiled in. *)
Definition make_polygon (debug : bool) (l : list point) : result polygon2d :=
  if Nat.leb (List.length l) 2 then Err CheckFailed else
  if debug && (match is_convex_hull l with None => true | Some _ => false end) then Err CheckFailed else
  build_from_points (remove_consecutive_duplicate_points l).

(** 533-539: ShiftCenter. *)
Definition shift_center (offset : point) (g : polygon2d) : polygon2d :=
  {| points := map (fun p => padd p offset) (points g);
     bbox_bottom_left := padd (bbox_bottom_left g) offset; bbox_top_right := padd (bbox_top_right g) offset |}.
(** 541-557: Transform. *)
Definition transform (angle : R) (center offset : point) (g : polygon2d) : result polygon2d :=
  if reqb angle 0 then Ok (shift_center offset g) else
  let shift := padd center offset in
  build_from_points (map (fun p : point =>
    let x := fst p - fst center in
    let y := snd p - snd center in
    (x * cos angle - y * sin angle + fst shift, x * sin angle + y * cos angle + snd shift)) (points g)).
