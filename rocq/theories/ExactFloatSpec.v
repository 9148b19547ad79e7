(** What an exact floating point number stands for. *)
From Coq Require Import ZArith QArith Qabs.
From Verif Require Import ExactFloatModel.
Local Open Scope Q_scope.

Definition pow2 (e : Z) : Q := Qpower 2 e.
(** The number denoted by a finite value. *)
Definition value (a : exactfloat) : Q :=
  if is_normal a then inject_Z (sign a * bn a) * pow2 (bn_exp a) else 0.

(** The states the class keeps its objects in: zero, infinity and NaN with an empty mantissa, or a
    number with an odd mantissa within the limits. *)
Definition canonical (a : exactfloat) : Prop :=
  (sign a = 1 \/ sign a = -1)%Z /\
  ((bn a = 0 /\ (bn_exp a = kExpZero \/ bn_exp a = kExpInfinity \/ bn_exp a = kExpNaN))%Z \/
   (0 < bn a /\ Z.odd (bn a) = true /\ kMinExp <= exp a <= kMaxExp /\ prec a <= kMaxPrec)%Z).

(** A rational that needs no more than [p] bits. *)
Definition fits (p : Z) (q : Q) : Prop := exists m e, (Z.abs m < 2 ^ p)%Z /\ q == inject_Z m * pow2 e.

(** The result standing for the exact rational [q]: the number itself when it can be stored, zero on
    underflow, infinity on overflow, NaN when too many bits are needed. *)
Definition stored (q : Q) (r : exactfloat) : Prop :=
  canonical r /\
  exists s, (0 < q -> s = 1%Z) /\ (q < 0 -> s = (-1)%Z) /\
  (Qabs q < pow2 (kMinExp - 1) -> r = signed_zero s) /\
  (pow2 kMaxExp <= Qabs q -> r = infinity s) /\
  (pow2 (kMinExp - 1) <= Qabs q -> Qabs q < pow2 kMaxExp ->
     (fits kMaxPrec q -> is_normal r = true /\ value r == q) /\ (~ fits kMaxPrec q -> r = nan)).

(** Order with infinities; NaN is not comparable. *)
Definition below (a b : exactfloat) : Prop :=
  is_nan a = false /\ is_nan b = false /\
  ((a = infinity (-1) /\ b <> infinity (-1)) \/ (b = infinity 1 /\ a <> infinity 1) \/
   (is_finite a = true /\ is_finite b = true /\ value a < value b)).
Definition same_number (a b : exactfloat) : Prop :=
  (is_inf a = true /\ a = b) \/ (is_finite a = true /\ is_finite b = true /\ value a == value b).

(** [n] is the integer that [y] is rounded to. *)
Definition rounded (mode : rounding_mode) (y : Q) (n : Z) : Prop :=
  match mode with
  | kRoundTowardNegative => inject_Z n <= y /\ y < inject_Z n + 1
  | kRoundTowardPositive => inject_Z n - 1 < y /\ y <= inject_Z n
  | kRoundTowardZero => (0 <= y -> inject_Z n <= y /\ y < inject_Z n + 1) /\ (y <= 0 -> inject_Z n - 1 < y /\ y <= inject_Z n)
  | kRoundAwayFromZero => (0 <= y -> inject_Z n - 1 < y /\ y <= inject_Z n) /\ (y <= 0 -> inject_Z n <= y /\ y < inject_Z n + 1)
  | kRoundTiesToEven => Qabs (y - inject_Z n) <= 1 # 2 /\ (Qabs (y - inject_Z n) == 1 # 2 -> Z.even n = true)
  | kRoundTiesAwayFromZero => Qabs (y - inject_Z n) <= 1 # 2 /\ (Qabs (y - inject_Z n) == 1 # 2 -> Qabs y < Qabs (inject_Z n))
  end.

(** The value of a finite double. *)
Definition double_value (d : double) : Q :=
  match d with DFinite s m e => inject_Z (s * m) * pow2 (e - 53) | _ => 0 end.

(** [d] is the double nearest to [q], ties to even: the multiple of the spacing of doubles of that
    magnitude that [q] is rounded to, or infinity when that is too large. *)
Definition spacing (e : Z) : Z := Z.max (-1074) (e - 53).
Definition nearest_double (q : Q) (s : Z) (d : double) : Prop :=
  forall e, pow2 (e - 1) <= Qabs q -> Qabs q < pow2 e ->
  exists n, (0 <= n)%Z /\ rounded kRoundTiesToEven (Qabs q * pow2 (- spacing e)) n /\
    (pow2 1024 <= inject_Z n * pow2 (spacing e) -> d = DInf s) /\
    (inject_Z n * pow2 (spacing e) < pow2 1024 ->
       exists m f, d = DFinite s m f /\ inject_Z m * pow2 (f - 53) == inject_Z n * pow2 (spacing e)).
