(** Model of math/exactfloat.cc and exactfloat.h. BIGNUMs are mathematical integers (memory limits of
    the library are not modelled); ints are integers, except where the comment says that a conversion
    matters. DCHECKs are not modelled, they are absent from release builds. *)
From Coq Require Import ZArith QArith.
From Verif Require Import Base.
Local Open Scope Z_scope.

(** exactfloat.h:131-140, 521-523, 535. *)
Definition kMaxExp : Z := 200000000.
Definition kMinExp : Z := - kMaxExp.
Definition kMaxPrec : Z := Z.shiftl 64 20.
Definition INT_MAX : Z := 2147483647.
Definition INT_MIN : Z := -2147483648.
Definition kExpNaN : Z := INT_MAX.
Definition kExpInfinity : Z := INT_MAX - 1.
Definition kExpZero : Z := INT_MAX - 2.
Definition kDoubleMantissaBits : Z := 53.

(** The fields sign_, bn_exp_, bn_ (exactfloat.h:525-531). *)
Record exactfloat := { sign : Z; bn_exp : Z; bn : Z }.

(** exactfloat.h:593-602. *)
Definition is_zero (a : exactfloat) : bool := bn_exp a =? kExpZero.
Definition is_inf (a : exactfloat) : bool := bn_exp a =? kExpInfinity.
Definition is_nan (a : exactfloat) : bool := bn_exp a =? kExpNaN.
Definition is_normal (a : exactfloat) : bool := bn_exp a <? kExpZero.
Definition is_finite (a : exactfloat) : bool := bn_exp a <=? kExpZero.
Definition sign_bit (a : exactfloat) : bool := sign a <? 0.
Definition sgn (a : exactfloat) : Z := if is_nan a || is_zero a then 0 else sign a.
(** CopyWithSign (exactfloat.h:622-626). *)
Definition copy_with_sign (a : exactfloat) (s : Z) : exactfloat := {| sign := s; bn_exp := bn_exp a; bn := bn a |}.

(** BN_num_bits and BN_count_low_zero_bits (0 for zero). *)
Definition num_bits (m : Z) : Z := if m =? 0 then 0 else Z.log2 (Z.abs m) + 1.
Fixpoint low_zero_bits_pos (p : positive) : Z := match p with xO p' => 1 + low_zero_bits_pos p' | _ => 0 end.
Definition low_zero_bits (m : Z) : Z := match m with Zpos p => low_zero_bits_pos p | _ => 0 end.

(** set_zero, set_inf, set_nan (exactfloat.cc:146-162), SignedZero, Infinity, NaN (121-137). *)
Definition signed_zero (s : Z) : exactfloat := {| sign := s; bn_exp := kExpZero; bn := 0 |}.
Definition infinity (s : Z) : exactfloat := {| sign := s; bn_exp := kExpInfinity; bn := 0 |}.
Definition nan : exactfloat := {| sign := 1; bn_exp := kExpNaN; bn := 0 |}.
(** prec, exp (139-144). *)
Definition prec (a : exactfloat) : Z := num_bits (bn a).
Definition exp (a : exactfloat) : Z := bn_exp a + num_bits (bn a).

(** Canonicalize (504-528). *)
Definition canonicalize (a : exactfloat) : exactfloat :=
  if negb (is_normal a) then a else
  let my_exp := exp a in
  let a' :=
    if (my_exp <? kMinExp) || (bn a =? 0) then signed_zero (sign a)
    else if kMaxExp <? my_exp then infinity (sign a)
    else if negb (Z.odd (bn a)) then
      let shift := low_zero_bits (bn a) in
      if 0 <? shift then {| sign := sign a; bn_exp := bn_exp a + shift; bn := Z.shiftr (bn a) shift |} else a
    else a in
  if kMaxPrec <? prec a' then nan else a'.

(** A double: the value is s * m * 2^(e - 53) with frexp's exponent e and the mantissa scaled to an
    integer. *)
Inductive double := DNaN | DInf (s : Z) | DFinite (s m e : Z).
(** ExactFloat(double) (85-105). *)
Definition of_double (v : double) : exactfloat :=
  match v with
  | DNaN => nan
  | DInf s => infinity s
  | DFinite s m e => canonicalize {| sign := s; bn_exp := e - kDoubleMantissaBits; bn := m |}
  end.
(** ExactFloat(int) (107-114). std::abs(INT_MIN) is undefined behaviour; the model takes the usual
    outcome INT_MIN, converted to the unsigned 64 bit word of BN_set_word. *)
Definition int_abs (v : Z) : Z := if v =? INT_MIN then INT_MIN else Z.abs v.
Definition of_int (v : Z) : exactfloat :=
  canonicalize {| sign := if 0 <=? v then 1 else -1; bn_exp := 0; bn := int_abs v mod 2 ^ 64 |}.

(** Rounding modes (exactfloat.h:146-153). *)
Inductive rounding_mode :=
| kRoundTiesToEven | kRoundTiesAwayFromZero | kRoundTowardZero | kRoundAwayFromZero
| kRoundTowardPositive | kRoundTowardNegative.

(** RoundToPowerOf2 (206-260). *)
Definition resolve_mode (s : Z) (mode : rounding_mode) : rounding_mode :=
  match mode with
  | kRoundTowardPositive => if 0 <? s then kRoundAwayFromZero else kRoundTowardZero
  | kRoundTowardNegative => if 0 <? s then kRoundTowardZero else kRoundAwayFromZero
  | _ => mode
  end.
Definition increment (m shift : Z) (mode : rounding_mode) : bool :=
  match mode with
  | kRoundTowardZero => false
  | kRoundTiesAwayFromZero => Z.testbit m (shift - 1)
  | kRoundAwayFromZero => low_zero_bits m <? shift
  | _ => Z.testbit m (shift - 1) && (Z.testbit m shift || (low_zero_bits m <? shift - 1))
  end.
Definition round_to_power_of_2 (a : exactfloat) (bit_exp : Z) (mode : rounding_mode) : exactfloat :=
  let shift := bit_exp - bn_exp a in
  if shift <=? 0 then a else
  let mode := resolve_mode (sign a) mode in
  let inc := increment (bn a) shift mode in
  let r := Z.shiftr (bn a) shift in
  canonicalize {| sign := sign a; bn_exp := bn_exp a + shift; bn := if inc then r + 1 else r |}.
(** RoundToMaxPrec (189-204). *)
Definition round_to_max_prec (a : exactfloat) (max_prec : Z) (mode : rounding_mode) : exactfloat :=
  let shift := prec a - max_prec in
  if shift <=? 0 then a else round_to_power_of_2 a (bn_exp a + shift) mode.

(** operator- (436), SignedSum (446-502), operator+ and operator- (438-444). *)
Definition neg (a : exactfloat) : exactfloat := copy_with_sign a (- sign a).
Definition signed_sum (a_sign : Z) (a : exactfloat) (b_sign : Z) (b : exactfloat) : exactfloat :=
  if negb (is_normal a) || negb (is_normal b) then
    if is_nan a then a else
    if is_nan b then b else
    if is_inf a then (if is_inf b && negb (a_sign =? b_sign) then nan else infinity a_sign) else
    if is_inf b then infinity b_sign else
    if is_zero a then
      (if negb (is_zero b) then copy_with_sign b b_sign else
       if a_sign =? b_sign then signed_zero a_sign else signed_zero 1)
    else copy_with_sign a a_sign
  else
  let '(a_sign, a, b_sign, b) := if bn_exp a <? bn_exp b then (b_sign, b, a_sign, a) else (a_sign, a, b_sign, b) in
  let am := if bn_exp b <? bn_exp a then Z.shiftl (bn a) (bn_exp a - bn_exp b) else bn a in
  let '(s, m) :=
    if a_sign =? b_sign then (a_sign, am + bn b) else
    let d := am - bn b in
    if d =? 0 then (1, d) else if d <? 0 then (b_sign, - d) else (a_sign, d) in
  canonicalize {| sign := s; bn_exp := bn_exp b; bn := m |}.
Definition add (a b : exactfloat) : exactfloat := signed_sum (sign a) a (sign b) b.
Definition sub (a b : exactfloat) : exactfloat := signed_sum (sign a) a (- sign b) b.

(** operator* (530-556). *)
Definition mul (a b : exactfloat) : exactfloat :=
  let s := sign a * sign b in
  if negb (is_normal a) || negb (is_normal b) then
    if is_nan a then a else
    if is_nan b then b else
    if is_inf a then (if is_zero b then nan else infinity s) else
    if is_inf b then (if is_zero a then nan else infinity s) else
    signed_zero s
  else canonicalize {| sign := s; bn_exp := bn_exp a + bn_exp b; bn := bn a * bn b |}.

(** operator== (558-572). *)
Definition eqb (a b : exactfloat) : bool :=
  if is_nan a || is_nan b then false else
  if negb (bn_exp a =? bn_exp b) then false else
  if is_zero a && is_zero b then true else
  (sign a =? sign b) && (bn a =? bn b).
(** ScaleAndCompare (574-579), UnsignedLess (581-592). *)
Definition scale_and_compare (a b : exactfloat) : comparison :=
  Z.compare (Z.shiftl (bn a) (bn_exp a - bn_exp b)) (bn b).
Definition unsigned_less (a b : exactfloat) : bool :=
  if is_inf a || is_zero b then false else
  if is_zero a || is_inf b then true else
  let cmp := exp a - exp b in
  if negb (cmp =? 0) then cmp <? 0 else
  if bn_exp b <=? bn_exp a then match scale_and_compare a b with Lt => true | _ => false end
  else match scale_and_compare b a with Gt => true | _ => false end.
(** operator< (594-603), <= (exactfloat.h:608-612). *)
Definition ltb (a b : exactfloat) : bool :=
  if is_nan a || is_nan b then false else
  if is_zero a && is_zero b then false else
  if negb (sign a =? sign b) then sign a <? sign b else
  if 0 <? sign a then unsigned_less a b else unsigned_less b a.
Definition leb (a b : exactfloat) : bool :=
  if is_nan a || is_nan b then false else negb (ltb b a).

(** abs (607), fmax, fmin, fdim (609-634), copysign (694-696). *)
Definition abs (a : exactfloat) : exactfloat := copy_with_sign a 1.
Definition fmax (a b : exactfloat) : exactfloat :=
  if is_nan a then b else if is_nan b then a else
  if negb (sign a =? sign b) then (if sign a <? sign b then b else a) else
  if ltb a b then b else a.
Definition fmin (a b : exactfloat) : exactfloat :=
  if is_nan a then b else if is_nan b then a else
  if negb (sign a =? sign b) then (if sign a <? sign b then a else b) else
  if ltb a b then a else b.
Definition fdim (a b : exactfloat) : exactfloat := if leb a b then of_int 0 else sub a b.
Definition copysign (a b : exactfloat) : exactfloat := copy_with_sign a (sign b).

(** ceil, floor, trunc, round, rint (636-654). *)
Definition ceil (a : exactfloat) := round_to_power_of_2 a 0 kRoundTowardPositive.
Definition floor (a : exactfloat) := round_to_power_of_2 a 0 kRoundTowardNegative.
Definition trunc (a : exactfloat) := round_to_power_of_2 a 0 kRoundTowardZero.
Definition round (a : exactfloat) := round_to_power_of_2 a 0 kRoundTiesAwayFromZero.
Definition rint (a : exactfloat) := round_to_power_of_2 a 0 kRoundTiesToEven.

(** ToInteger (656-676) for a signed type of the given range. The 64 bit operations do not wrap: the
    shifted mantissa is below 2^63 there. *)
Definition to_integer (min_value max_value : Z) (a : exactfloat) (mode : rounding_mode) : Z :=
  let r := round_to_power_of_2 a 0 mode in
  if is_nan r then max_value else
  if is_zero r then 0 else
  let clamped := if sign r <? 0 then min_value else max_value in
  if negb (is_inf r) then
    if exp r <? 64 then
      let value := Z.shiftl (bn r) (bn_exp r) in
      let value := if sign r <? 0 then - value else value in
      Z.max min_value (Z.min max_value value)
    else clamped
  else clamped.
(** lrint, llrint, lround, llround (678-692): 64 bit types. *)
Definition llrint (a : exactfloat) : Z := to_integer (- 2 ^ 63) (2 ^ 63 - 1) a kRoundTiesToEven.
Definition llround (a : exactfloat) : Z := to_integer (- 2 ^ 63) (2 ^ 63 - 1) a kRoundTiesAwayFromZero.

(** ldexp (709-723), frexp (698-707), scalbln (725-729). *)
Definition ldexp (a : exactfloat) (e : Z) : exactfloat :=
  if negb (is_normal a) then a else
  let a_exp := exp a in
  let e := Z.min (kMaxExp + 1 - a_exp) (Z.max (kMinExp - 1 + a_exp) e) in
  canonicalize {| sign := sign a; bn_exp := bn_exp a + e; bn := bn a |}.
Definition frexp (a : exactfloat) : exactfloat * Z :=
  if negb (is_normal a) then (a, 0) else (ldexp a (- exp a), exp a).
Definition scalbln (a : exactfloat) (e : Z) : exactfloat := ldexp a (Z.max INT_MIN (Z.min INT_MAX e)).
(** ilogb (731-737), logb (739-745); FP_ILOGB0 and FP_ILOGBNAN are parameters. *)
Definition ilogb (fp_ilogb0 fp_ilogbnan : Z) (a : exactfloat) : Z :=
  if is_zero a then fp_ilogb0 else if is_inf a then INT_MAX else if is_nan a then fp_ilogbnan else exp a - 1.
Definition logb (a : exactfloat) : exactfloat :=
  if is_zero a then infinity (-1) else if is_inf a then infinity 1 else if is_nan a then a else of_int (exp a - 1).

(** std::ldexp on a double holding the integer [m] below 2^53: the nearest double, ties to even. The
    result is a multiple of 2^-1074, with at most 53 bits; the outcome is the mantissa on that grid,
    or infinity. *)
Definition std_ldexp (s m e : Z) : double :=
  if m =? 0 then DFinite s 0 0 else
  let grid := Z.max (-1074) (num_bits m + e - 53) in
  let k := if e <? grid then
             let d := grid - e in
             let q := Z.shiftr m d in
             let r := m - Z.shiftl q d in
             if (Z.shiftl 1 (d - 1) <? r) || ((r =? Z.shiftl 1 (d - 1)) && Z.odd q) then q + 1 else q
           else Z.shiftl m (e - grid) in
  if 1024 <? num_bits k + grid then DInf s else DFinite s k (grid + 53).
(** ToDouble, ToDoubleHelper (164-187). *)
Definition to_double_helper (a : exactfloat) : double :=
  if negb (is_normal a) then
    if is_zero a then DFinite (sign a) 0 0 else if is_inf a then DInf (sign a) else DNaN
  else std_ldexp (sign a) (bn a) (bn_exp a).
Definition to_double (a : exactfloat) : double :=
  if prec a <=? kDoubleMantissaBits then to_double_helper a
  else to_double_helper (round_to_max_prec a kDoubleMantissaBits kRoundTiesToEven).
