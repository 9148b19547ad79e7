(** Model of metrics/metrics_utils.cc (angles and heading accuracy) and math/math_util.h.
    Floating point values are exact rationals; [pi] stands for the constant M_PI. *)
From Coq Require Import Qabs.
From Verif Require Import Base ApModel CutoffModel.
Open Scope Q_scope.

(** std::trunc. *)
Definition qtrunc (x : Q) : Z := if Qle_bool 0 x then Qfloor x else Qceiling x.
(** PositiveModulo for floating point (metrics_utils.cc:39-49, math_util.h:55-65). *)
Definition positive_modulo (x y : Q) : Q :=
  let x_div_y := x * (1 / y) in
  let truncated := inject_Z (qtrunc x_div_y) in
  let modulo := x - truncated * y in
  let shifted := y + modulo in
  if Qle_bool 0 modulo then modulo else if Qle_bool y shifted then 0 else shifted.
(** WrapToRange (metrics_utils.cc:52-55, math_util.h:68-71). *)
Definition wrap_to_range (min_val max_val val : Q) : Q :=
  positive_modulo (val - min_val) (max_val - min_val) + min_val.
(** NormalizeAngle (metrics_utils.cc:58-61, math_util.h:74-77). *)
Definition normalize_angle (pi rad : Q) : Q := wrap_to_range (- pi) pi rad.
(** ComputeHeadingAccuracy (metrics_utils.cc:101-116) on the two headings; the index checks are in
    the detection model. std::max(a,b) is b if a < b, std::min(a,b) is b if b < a. *)
Definition heading_accuracy (pi pd gt : Q) : Q :=
  let diff := Qabs (normalize_angle pi pd - normalize_angle pi gt) in
  let diff := if Qlt_bool pi diff then 2 * pi - diff else diff in
  let a := 1 - diff / pi in
  let m := if Qlt_bool 0 a then a else 0 in
  if Qlt_bool m 1 then m else 1.

(** BoundToRange (math_util.h:82-87) with Min and Max (31-40). *)
Definition zmin (a b : Z) : Z := if (a <? b)%Z then a else b.
Definition zmax (a b : Z) : Z := if (a <? b)%Z then b else a.
Definition bound_to_range (min_val max_val val : Z) : Z := zmax min_val (zmin max_val val).

(** Arithmetic of a fixed-width integral type with values [lo..hi]: leaving the range, undefined for
    signed types, is an error value. *)
Definition chk (lo hi v : Z) : result Z := if ((lo <=? v) && (v <=? hi))%Z then Ok v else Err RuntimeError.
(** PositiveModulo for integral types (math_util.h:46-53); % is the truncating remainder. *)
Definition int_positive_modulo (lo hi x y : Z) : result Z :=
  if (0 <=? x)%Z then
    do y2 <- chk lo hi (y + y);
    if (x <? y2)%Z then (if (x <? y)%Z then Ok x else chk lo hi (x - y)) else Ok (Z.rem x y)
  else
    do ny <- chk lo hi (- y);
    if (ny <=? x)%Z then chk lo hi (x + y) else
    do x1 <- chk lo hi (x + 1);
    do nx <- chk lo hi (- x1);
    do d <- chk lo hi (y - Z.rem nx y);
    chk lo hi (d - 1).
