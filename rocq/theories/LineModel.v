(** Line segments of the plane: math/segment2d.h, math/segment2d.cc, with the parts of math/vec2d.h and math/math_util.h
    that they use.

    Conventions.
    - Numbers are real numbers; rounding is not modelled.
    - A cache field is [None] if it holds kInvalidCacheValue (segment2d.h:304-305). Reads that fill a cache return the
      segment with the filled cache. Relaxed atomics are ordinary fields: threads are not modelled.
    - A failed CHECK is [Err CheckFailed]. DCHECKs are not modelled. *)
From Coq Require Import Reals.
From Verif Require Import Base GeomModel FrameModel.
Open Scope R_scope.

(** segment2d.h:38, kEpsilon = 1e-10. *)
Definition kEpsilon : R := / 10 ^ 10.
(** vec2d.h: operator* (117-121), CreateUnitFromAngle (46-50), Sqr (79), Perp (157), DistanceSqrToPoint (202-205). *)
Definition times (v : point) (k : R) : point := (fst v * k, snd v * k).
Definition unit_from_angle (theta : R) : point := (cos theta, sin theta).
Definition vsqr (v : point) : R := dot v v.
Definition perp (v : point) : point := (- snd v, fst v).
Definition distance_sqr (a q : point) : R := vsqr (psub q a).
Definition vdistance (a q : point) : R := norm (psub q a).
Definition veqb (a b : point) : bool := (if Req_EM_T (fst a) (fst b) then true else false) && (if Req_EM_T (snd a) (snd b) then true else false).

(** math_util.h:55-77, PositiveModulo of floating point numbers, WrapToRange, NormalizeAngle. *)
Definition rtrunc (x : R) : Z := if rleb 0 x then Int_part x else (- Int_part (- x))%Z.
Definition positive_modulo (x y : R) : R :=
  let modulo := x - IZR (rtrunc (x * (1 / y))) * y in
  let modulo_shifted := y + modulo in
  if rleb 0 modulo then modulo else if rleb y modulo_shifted then 0 else modulo_shifted.
Definition wrap_to_range (lo hi v : R) : R := positive_modulo (v - lo) (hi - lo) + lo.
Definition normalize_angle (rad : R) : R := wrap_to_range (- PI) PI rad.

(** segment2d.h:341-352, the fields. *)
Record seg := { start_ : point; end_ : point; heading_ : option R; length_ : option R; inv_length_ : option R }.

(** 40, 44: the default segment and the segment of two points. *)
Definition seg_default : seg := {| start_ := (0, 0); end_ := (0, 0); heading_ := Some 0; length_ := Some 0; inv_length_ := Some 0 |}.
Definition seg_points (a b : point) : seg := {| start_ := a; end_ := b; heading_ := None; length_ := None; inv_length_ := None |}.
(** 53-58, from center, direction and length. *)
Definition seg_direction (c d : point) (len : R) : seg :=
  let offset := times d (len / 2) in
  {| start_ := psub c offset; end_ := padd c offset; heading_ := None; length_ := Some len; inv_length_ := None |}.
(** 47-50, from center, heading and length. *)
Definition seg_heading (c : point) (h len : R) : seg :=
  let s := seg_direction c (unit_from_angle h) len in
  {| start_ := start_ s; end_ := end_ s; heading_ := Some h; length_ := length_ s; inv_length_ := inv_length_ s |}.
(** 310-336, the private constructors: new end points, the caches of another segment, and a heading. *)
Definition seg_like (a b : point) (o : seg) : seg :=
  {| start_ := a; end_ := b; heading_ := heading_ o; length_ := length_ o; inv_length_ := inv_length_ o |}.
Definition seg_like_heading (a b : point) (h : R) (o : seg) : seg :=
  {| start_ := a; end_ := b; heading_ := Some h; length_ := length_ o; inv_length_ := inv_length_ o |}.
(** 61-70, copies. *)
Definition seg_copy (o : seg) : seg := seg_like (start_ o) (end_ o) o.

(** 77-84, Flip. *)
Definition flip (s : seg) : seg :=
  match heading_ s with
  | Some h => seg_like_heading (end_ s) (start_ s) (normalize_angle (h + PI)) s
  | None => seg_like (end_ s) (start_ s) s
  end.
(** 87, Dot. *)
Definition seg_dot (s : seg) (v : point) : R := dot v (psub (end_ s) (start_ s)).
(** segment2d.cc:30-36, RotateVectorsAroundOrigin, for one vector. *)
Definition rotate_vector (theta : R) (v : point) : point :=
  let cs := cos theta in
  let sn := sin theta in
  (cs * fst v - sn * snd v, sn * fst v + cs * snd v).
(** segment2d.cc:43-54, RotateAroundOrigin. *)
Definition rotate_around_origin (s : seg) (theta : R) : seg :=
  let new_start := rotate_vector theta (start_ s) in
  let new_end := rotate_vector theta (end_ s) in
  match heading_ s with
  | Some h => seg_like_heading new_start new_end (normalize_angle (h + theta)) s
  | None => seg_like new_start new_end s
  end.
(** segment2d.cc:56-75, RotateAroundPoint. *)
Definition rotate_around_point (s : seg) (p : point) (theta : R) : seg :=
  let new_start := padd (rotate_vector theta (psub (start_ s) p)) p in
  let new_end := padd (rotate_vector theta (psub (end_ s) p)) p in
  match heading_ s with
  | Some h => seg_like_heading new_start new_end (normalize_angle (h + theta)) s
  | None => seg_like new_start new_end s
  end.
(** segment2d.h:146-148, the center. *)
Definition center_x (s : seg) : R := (fst (start_ s) + fst (end_ s)) / 2.
Definition center_y (s : seg) : R := (snd (start_ s) + snd (end_ s)) / 2.
Definition seg_center (s : seg) : point := (center_x s, center_y s).
(** 90-92, RotateAroundCenter. *)
Definition rotate_around_center (s : seg) (theta : R) : seg := rotate_around_point s (seg_center s) theta.
(** 156-160, ShiftCenter, and 151-153, MoveCenter. *)
Definition shift_center (s : seg) (offset : point) : seg := seg_like (padd (start_ s) offset) (padd (end_ s) offset) s.
Definition move_center (s : seg) (c : point) : seg := shift_center s (psub c (seg_center s)).

(** 115-122, length. *)
Definition get_length (s : seg) : R * seg :=
  match length_ s with
  | Some l => (l, s)
  | None =>
      let l := vdistance (start_ s) (end_ s) in
      (l, {| start_ := start_ s; end_ := end_ s; heading_ := heading_ s; length_ := Some l; inv_length_ := inv_length_ s |})
  end.
(** 125-133, inv_length. *)
Definition get_inv_length (s : seg) : R * seg :=
  match inv_length_ s with
  | Some i => (i, s)
  | None =>
      let '(len, s) := get_length s in
      let i := if is_zero len then 0 else 1 / len in
      (i, {| start_ := start_ s; end_ := end_ s; heading_ := heading_ s; length_ := length_ s; inv_length_ := Some i |})
  end.
(** 136-143, Sqr. *)
Definition get_sqr (s : seg) : R :=
  match length_ s with Some l => l * l | None => vsqr (psub (start_ s) (end_ s)) end.
(** 164-171, heading. *)
Definition get_heading (s : seg) : R * seg :=
  match heading_ s with
  | Some h => (h, s)
  | None =>
      let h := atan2 (snd (end_ s) - snd (start_ s)) (fst (end_ s) - fst (start_ s)) in
      (h, {| start_ := start_ s; end_ := end_ s; heading_ := Some h; length_ := length_ s; inv_length_ := inv_length_ s |})
  end.
(** 174-190, cos_heading and sin_heading; segment2d.cc:77-89, trig_heading, which returns both. *)
Definition get_trig (s : seg) : point * seg :=
  let '(inv_len, s) := get_inv_length s in
  if is_zero inv_len then let '(h, s) := get_heading s in ((cos h, sin h), s)
  else ((inv_len * (fst (end_ s) - fst (start_ s)), inv_len * (snd (end_ s) - snd (start_ s))), s).
(** 105-112, PerpUnit and Tangent; division of vectors multiplies by 1 / scale (vec2d.h:87-90, 123-127). *)
Definition get_tangent (s : seg) : point * seg :=
  let '(len, s) := get_length s in
  if is_zero len then ((0, 0), s) else (times (psub (end_ s) (start_ s)) (1 / len), s).
Definition get_perp_unit (s : seg) : point * seg :=
  let '(len, s) := get_length s in
  if is_zero len then ((0, 0), s) else (times (perp (psub (end_ s) (start_ s))) (1 / len), s).

(** 363-391, PointToSegmentDistanceSqr. *)
Definition point_to_segment_distance_sqr (query p1 p2 : point) : R :=
  let v1 := psub query p1 in
  let v2 := psub p2 p1 in
  let v2len_sqr := distance_sqr p1 p2 in
  let inv_v2len_sqr := 1 / v2len_sqr in
  let parallel_norm := dot v1 v2 * inv_v2len_sqr in
  let d := (cross v1 v2 * cross v1 v2) * inv_v2len_sqr in
  if rltb parallel_norm 0 then distance_sqr query p1
  else if rltb 1 parallel_norm then distance_sqr query p2 else d.
(** 200-205, DistanceSqrToPoint. *)
Definition distance_sqr_to_point (s : seg) (query : point) : R :=
  if veqb (start_ s) (end_ s) then distance_sqr (start_ s) query
  else point_to_segment_distance_sqr query (start_ s) (end_ s).

(** 285-300, SideOfPoint, and with the perpendicular distance. A zero length makes it zero over zero, an error here. *)
Inductive side := OnLeft | OnRight | Colinear.
Definition side_of_point (s : seg) (pp : point) : side :=
  let d := cross (psub (end_ s) (start_ s)) (psub pp (start_ s)) in
  if rleb kEpsilon (Rabs d) then if rltb 0 d then OnLeft else OnRight else Colinear.
Definition perp_dist (s : seg) (pp : point) : result R * seg :=
  let d := cross (psub (end_ s) (start_ s)) (psub pp (start_ s)) in
  let '(len, s) := get_length s in
  (if is_zero len then Err RuntimeError else Ok (- d / len), s).

(** segment2d.cc:91-125, Intersect: the point if it returns true. *)
Definition crossing (s o : seg) (denominator : R) : option point :=
  let numerator1 := cross (psub (end_ o) (start_ o)) (psub (start_ s) (start_ o)) in
  let numerator2 := cross (psub (end_ s) (start_ s)) (psub (start_ s) (start_ o)) in
  let t := numerator1 / denominator in
  let t2 := numerator2 / denominator in
  let pt := padd (start_ s) (times (psub (end_ s) (start_ s)) t) in
  if (rltb t 0 && rltb (kEpsilon * kEpsilon) (distance_sqr (start_ s) pt)) ||
     (rltb 1 t && rltb (kEpsilon * kEpsilon) (distance_sqr (end_ s) pt)) ||
     (rltb t2 0 && rltb (kEpsilon * kEpsilon) (distance_sqr (start_ o) pt)) ||
     (rltb 1 t2 && rltb (kEpsilon * kEpsilon) (distance_sqr (end_ o) pt))
  then None else Some pt.
Definition intersect (s o : seg) : option point :=
  let denominator := cross (psub (end_ s) (start_ s)) (psub (end_ o) (start_ o)) in
  if rltb (Rabs denominator) kEpsilon then None else crossing s o denominator.
(** segment2d.cc:128-162, IntersectOrCoincide. *)
Definition intersect_or_coincide (s o : seg) : bool :=
  let denominator := cross (psub (end_ s) (start_ s)) (psub (end_ o) (start_ o)) in
  if rltb (Rabs denominator) kEpsilon then
    rltb (distance_sqr_to_point s (start_ o)) (kEpsilon * kEpsilon) || rltb (distance_sqr_to_point s (end_ o)) (kEpsilon * kEpsilon) ||
    rltb (distance_sqr_to_point o (start_ s)) (kEpsilon * kEpsilon) || rltb (distance_sqr_to_point o (end_ s)) (kEpsilon * kEpsilon)
  else match crossing s o denominator with Some _ => true | None => false end.
(** segment2d.h:240-249, MightIntersect. *)
Definition might_intersect (s o : seg) : bool :=
  rleb (Rmin (fst (start_ o)) (fst (end_ o))) (Rmax (fst (start_ s)) (fst (end_ s)) + kEpsilon) &&
  rleb (Rmin (fst (start_ s)) (fst (end_ s)) - kEpsilon) (Rmax (fst (start_ o)) (fst (end_ o))) &&
  rleb (Rmin (snd (start_ o)) (snd (end_ o))) (Rmax (snd (start_ s)) (snd (end_ s)) + kEpsilon) &&
  rleb (Rmin (snd (start_ s)) (snd (end_ s)) - kEpsilon) (Rmax (snd (start_ o)) (snd (end_ o))).

(** segment2d.cc:164-177, Sample: the truth value and the point. *)
Definition sample (s : seg) (d : R) : result (bool * point) * seg :=
  if rltb d 0 then (Err CheckFailed, s) else
  let dp := psub (end_ s) (start_ s) in
  let '(len, s) := get_length s in
  if rltb len 0 then (Err CheckFailed, s) else
  if is_zero len then (Ok (false, start_ s), s) else
  let frac := d / len in
  (Ok (rltb frac 1, padd (start_ s) (times dp frac)), s).
(** segment2d.cc:179-194, SamplePoints; the loop gets enough fuel for real numbers. *)
Fixpoint sample_loop (fuel : nat) (a dp : point) (frac ratio : R) : result (list point) :=
  match fuel with
  | O => Err OutOfFuel
  | S fuel =>
      if rltb ratio 1 then
        do rest <- sample_loop fuel a dp frac (ratio + frac);
        Ok (padd a (times dp ratio) :: rest)
      else Ok []
  end.
Definition sample_points (a b : point) (d : R) : result (list point) :=
  if rleb d 0 then Err CheckFailed else
  let dp := psub b a in
  let len := norm dp in
  if is_zero len then Ok [a] else
  let frac := d / len in
  sample_loop (S (Z.to_nat (up (len / d)))) a dp frac 0.

(** The public calls on a segment. *)
Inductive call :=
| Copy | Flip | RotateOrigin (theta : R) | RotatePoint (p : point) (theta : R) | RotateCenter (theta : R)
| Shift (offset : point) | Move (c : point)
| Length | InvLength | Heading | Trig | Tangent | PerpUnit | PerpDist (p : point) | Sample (d : R).
Definition run (s : seg) (c : call) : seg :=
  match c with
  | Copy => seg_copy s
  | Flip => flip s
  | RotateOrigin theta => rotate_around_origin s theta
  | RotatePoint p theta => rotate_around_point s p theta
  | RotateCenter theta => rotate_around_center s theta
  | Shift offset => shift_center s offset
  | Move c => move_center s c
  | Length => snd (get_length s)
  | InvLength => snd (get_inv_length s)
  | Heading => snd (get_heading s)
  | Trig => snd (get_trig s)
  | Tangent => snd (get_tangent s)
  | PerpUnit => snd (get_perp_unit s)
  | PerpDist p => snd (perp_dist s p)
  | Sample d => snd (sample s d)
  end.
Definition run_all (s : seg) (cs : list call) : seg := fold_left run cs s.
