(** Model of metrics/iou.cc. Doubles are exact rationals (rounding, infinities and NaN are not
    modelled; where an infinity or NaN changes the outcome the comment says so). The area of the
    intersection of two rotated rectangles (Polygon2d::ComputeIntersectionArea) is a parameter
    [poly]; square roots are parameters as well. LOG and the logging counters are left out. *)
From Coq Require Import QArith Qabs Qminmax.
From Verif Require Import Base ResultLib BoxModel.
Local Open Scope Q_scope.

(** Label::Box (label.proto): metres, heading in radians. *)
Record lbox := { center_x : Q; center_y : Q; center_z : Q; blength : Q; bwidth : Q; bheight : Q; bheading : Q }.
Inductive box_type := TYPE_UNKNOWN | TYPE_3D | TYPE_2D | TYPE_AA_2D.

(** iou.cc:34-38. *)
Definition kEpsilon : Q := 1 # 1000000.
Definition kMinBoxDim : Q := 1 # 100.
Definition kMaxBoxDim : Q := 1000000.

(** Clamp (40-44), std::max and std::min. *)
Definition qmax (a b : Q) : Q := if negb (Qle_bool b a) then b else a.
Definition qmin (a b : Q) : Q := if negb (Qle_bool a b) then b else a.
Definition clamp (v lo hi : Q) : Q := qmax lo (qmin v hi).

(** ToAABox2d (72-76). *)
Definition to_aabox (b : lbox) : aabox QK :=
  {| cx := center_x b : QK; cy := center_y b : QK; hx := (blength b * (1 # 2) : QK); hy := (bwidth b * (1 # 2) : QK) |}.

(** The common tail of the three functions (127-137, 155-165, 195-205): division, three CHECKs
    and the final clamp. *)
Definition ratio (inter size1 size2 : Q) : result Q :=
  let uni := size1 + size2 - inter in
  if Qle_bool uni kEpsilon then Ok 0 else
  let iou := inter / uni in
  if negb (Qle_bool (- kEpsilon) iou) then Err CheckFailed else
  if negb (Qle_bool iou (1 + kEpsilon)) then Err CheckFailed else
  Ok (qmax (qmin iou 1) 0).

(** ComputeIoUAA2d (140-166). *)
Definition tiny2 (b : lbox) : bool := Qle_bool (blength b) kMinBoxDim || Qle_bool (bwidth b) kMinBoxDim.
Definition compute_iou_aa_2d (b1 b2 : lbox) : result Q :=
  if tiny2 b1 || tiny2 b2 then Ok 0 else
  ratio (intersection_area (to_aabox b1) (to_aabox b2)) (blength b1 * bwidth b1) (blength b2 * bwidth b2).

Section Poly.
Variable poly : lbox -> lbox -> Q.
(** ComputeIoU2d (111-138). *)
Definition compute_iou_2d (b1 b2 : lbox) : result Q :=
  if tiny2 b1 || tiny2 b2 then Ok 0 else
  ratio (poly b1 b2) (blength b1 * bwidth b1) (blength b2 * bwidth b2).

(** ClosedRangesOverlap (46-64): the overlap interval, None when it is empty. *)
Definition closed_ranges_overlap (min1 max1 min2 max2 : Q) : result (option (Q * Q)) :=
  if negb (Qle_bool min1 max1) then Err CheckFailed else
  if negb (Qle_bool min2 max2) then Err CheckFailed else
  let lo := qmax min1 min2 in
  let hi := qmin max1 max2 in
  Ok (if Qle_bool lo hi then Some (lo, hi) else None).

(** ComputeIoU3d (168-206). *)
Definition compute_iou_3d (b1 b2 : lbox) : result Q :=
  if tiny2 b1 || Qle_bool (bheight b1) kMinBoxDim || tiny2 b2 || Qle_bool (bheight b2) kMinBoxDim then Ok 0 else
  do z <- closed_ranges_overlap
    (center_z b1 - bheight b1 * (1 # 2)) (center_z b1 + bheight b1 * (1 # 2))
    (center_z b2 - bheight b2 * (1 # 2)) (center_z b2 + bheight b2 * (1 # 2));
  match z with
  | None => Ok 0
  | Some (lo, hi) =>
      ratio (poly b1 b2 * (hi - lo)) (blength b1 * bwidth b1 * bheight b1) (blength b2 * bwidth b2 * bheight b2)
  end.

(** ComputeIoU (211-234). LOG(FATAL) is CheckFailed. *)
Definition huge (b : lbox) : bool :=
  Qle_bool kMaxBoxDim (blength b) || Qle_bool kMaxBoxDim (bwidth b) || Qle_bool kMaxBoxDim (bheight b).
Definition compute_iou (b1 b2 : lbox) (t : box_type) : result Q :=
  if huge b1 || huge b2 then Ok 0 else
  match t with
  | TYPE_3D => compute_iou_3d b1 b2
  | TYPE_2D => compute_iou_2d b1 b2
  | TYPE_AA_2D => compute_iou_aa_2d b1 b2
  | TYPE_UNKNOWN => Err CheckFailed
  end.
(** BatchComputeIoU (236-245). *)
Definition batch_compute_iou (b1 : lbox) (b2s : list lbox) (t : box_type) : result (list Q) :=
  match b2s with
  | [] => Ok []
  | _ => mapM (fun b2 => compute_iou b1 b2 t) b2s
  end.

(** CenterDotProduct (79-83), CenterVectorLengthSquare (86-89), TranslateBox (101-108). *)
Definition center_dot (a b : lbox) : Q := center_x a * center_x b + center_y a * center_y b + center_z a * center_z b.
Definition center_len_sq (b : lbox) : Q := center_x b * center_x b + center_y b * center_y b + center_z b * center_z b.
Definition translate_lbox (b : lbox) (tx ty tz : Q) : lbox :=
  {| center_x := center_x b + tx; center_y := center_y b + ty; center_z := center_z b + tz;
     blength := blength b; bwidth := bwidth b; bheight := bheight b; bheading := bheading b |}.

(** LongitudinalErrorTolerantConfig (metrics.proto:119-187): the fields used here. *)
Record let_config := { sensor : Q * Q * Q; tolerance_percentage : Q; min_tolerance : Q }.
Definition to_sensor (s : Q * Q * Q) (b : lbox) : lbox :=
  let '(x, y, z) := s in translate_lbox b (- x) (- y) (- z).

(** ComputeLongitudinalAffinity (247-283). [gt_length] and [pd_length] stand for the square roots of
    the squared lengths (CenterVectorLength, 92-94). A zero tolerance makes the quotient infinite or
    NaN, and both end as 0 after Clamp; the cast of the tolerance to float is not modelled. *)
Definition longitudinal_affinity (prediction gt : lbox) (cfg : let_config) (gt_length pd_length : Q) : Q :=
  let pd := to_sensor (sensor cfg) prediction in
  let g := to_sensor (sensor cfg) gt in
  let gt_dot_pd := center_dot pd g in
  let gt_range := qmax gt_length kEpsilon in
  let pd_range := qmax pd_length kEpsilon in
  let cos := gt_dot_pd / gt_range / pd_range in
  let tolerance := qmax (tolerance_percentage cfg * gt_range) (min_tolerance cfg) in
  if Qeq_bool tolerance 0 then 0 else
  let range_error := Qabs ((pd_range * cos - gt_range) / tolerance) in
  clamp (1 - range_error) 0 1.

(** AlignType (metrics.proto:152-186), AlignedPredictionBox (296-359). *)
Inductive align_type :=
| ALIGN_UNKNOWN | NOT_ALIGNED | RANGE_ALIGNED | CENTER_ALIGNED | FURTHER_ONLY | ANY_CLOSER_ONLY | BETWEEN_ONLY.
Definition set_center (b : lbox) (x y z : Q) : lbox :=
  {| center_x := x; center_y := y; center_z := z;
     blength := blength b; bwidth := bwidth b; bheight := bheight b; bheading := bheading b |}.
Definition multiplier (prediction gt : lbox) (a : align_type) : Q :=
  let m := center_dot prediction gt / qmax (center_len_sq prediction) kEpsilon in
  let before := negb (Qle_bool 1 m) && Qle_bool 0 m in
  match a with
  | FURTHER_ONLY => if before then m else 1
  | ANY_CLOSER_ONLY => if before then 1 else m
  | BETWEEN_ONLY => qmax m 1
  | _ => m
  end.
Definition aligned_prediction_box (prediction gt : lbox) (a : align_type) : result lbox :=
  match a with
  | ALIGN_UNKNOWN => Err CheckFailed
  | NOT_ALIGNED => Ok prediction
  | CENTER_ALIGNED => Ok (set_center prediction (center_x gt) (center_y gt) (center_z prediction))
  | _ =>
      let m := multiplier prediction gt a in
      Ok (set_center prediction (center_x prediction * m) (center_y prediction * m) (center_z prediction * m))
  end.

(** ComputeLetIoU (361-382). *)
Definition compute_let_iou (prediction gt : lbox) (s : Q * Q * Q) (a : align_type) (t : box_type) : result Q :=
  match t with
  | TYPE_3D | TYPE_2D =>
      let g := to_sensor s gt in
      do aligned <- aligned_prediction_box (to_sensor s prediction) g a;
      compute_iou aligned g t
  | _ => Err CheckFailed
  end.
End Poly.
