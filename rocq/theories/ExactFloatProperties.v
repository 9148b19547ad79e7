(** C39, C40: exact floating point arithmetic and rounding. *)
From Coq Require Import ZArith QArith Qabs.
From Verif Require Import Base ExactFloatModel ExactFloatSpec ExactFloatLib ExactFloatProofs ExactFloatOpsProofs ExactFloatCmpProofs ExactFloatRoundProofs.
Local Open Scope Z_scope.

(** ** C39 *)
(** Every operation keeps its results in canonical form. *)
Theorem C39_results_canonical a b mode e : canonical a -> canonical b ->
  canonical (neg a) /\ canonical (add a b) /\ canonical (sub a b) /\ canonical (mul a b) /\ canonical (abs a) /\
  canonical (fmax a b) /\ canonical (fmin a b) /\ canonical (fdim a b) /\ canonical (copysign a b) /\
  canonical (ldexp a e) /\ canonical (round_to_power_of_2 a 0 mode) /\ canonical (logb a).
Proof. exact (operations_canonical a b mode e). Qed.
Print Assumptions C39_results_canonical.

(** A number has one canonical form. *)
Theorem C39_unique_representation a b : canonical a -> canonical b -> is_normal a = true -> is_normal b = true ->
  (value a == value b)%Q -> a = b.
Proof. exact (canonical_unique a b). Qed.
Print Assumptions C39_unique_representation.

(** Doubles are converted exactly, and ints other than the smallest one. *)
Theorem C39_from_double s m e : s = 1 \/ s = -1 -> 0 <= m < 2 ^ 53 -> -2000 <= e <= 1024 ->
  let r := of_double (DFinite s m e) in
  canonical r /\ is_finite r = true /\ (value r == double_value (DFinite s m e))%Q /\ sign r = s.
Proof. exact (of_double_exact s m e). Qed.
Print Assumptions C39_from_double.
Theorem C39_from_int v : INT_MIN < v <= INT_MAX -> canonical (of_int v) /\ is_finite (of_int v) = true /\ (value (of_int v) == inject_Z v)%Q.
Proof. exact (of_int_exact v). Qed.
Print Assumptions C39_from_int.
Theorem C39_from_int_min_refuted : (value (of_int INT_MIN) == inject_Z (- (2 ^ 64 - 2 ^ 31)))%Q.
Proof. exact int_min_wrong. Qed.
Print Assumptions C39_from_int_min_refuted.

(** Sums, differences and products are the exact ones. *)
Theorem C39_add a b : canonical a -> canonical b -> is_finite a = true -> is_finite b = true ->
  stored (value a + value b) (add a b) /\
  (value a + value b == 0 -> add a b = signed_zero (if sign a =? sign b then sign a else 1))%Q.
Proof. exact (add_exact a b). Qed.
Print Assumptions C39_add.
Theorem C39_sub a b : canonical a -> canonical b -> is_finite a = true -> is_finite b = true ->
  stored (value a - value b) (sub a b) /\
  (value a == value b -> sub a b = signed_zero (if sign a =? - sign b then sign a else 1))%Q.
Proof. exact (sub_exact a b). Qed.
Print Assumptions C39_sub.
Theorem C39_mul a b : canonical a -> canonical b -> is_finite a = true -> is_finite b = true ->
  stored (value a * value b) (mul a b) /\
  (value a * value b == 0 -> mul a b = signed_zero (sign a * sign b))%Q.
Proof. exact (mul_exact a b). Qed.
Print Assumptions C39_mul.
Theorem C39_neg_abs a : canonical a -> (value (neg a) == - value a)%Q /\ (value (abs a) == Qabs (value a))%Q.
Proof. intros C. exact (conj (neg_value a) (abs_value a C)). Qed.
Print Assumptions C39_neg_abs.

(** Infinities and NaN. *)
Theorem C39_add_special a b : canonical a -> canonical b ->
  ((is_nan a = true \/ is_nan b = true) -> is_nan (add a b) = true) /\
  (is_inf a = true -> is_finite b = true -> add a b = a) /\
  (is_finite a = true -> is_inf b = true -> add a b = b) /\
  (is_inf a = true -> is_inf b = true -> sign a = sign b -> add a b = a) /\
  (is_inf a = true -> is_inf b = true -> sign a <> sign b -> add a b = nan).
Proof. exact (add_special a b). Qed.
Print Assumptions C39_add_special.
Theorem C39_sub_special a b : canonical a -> canonical b ->
  ((is_nan a = true \/ is_nan b = true) -> is_nan (sub a b) = true) /\
  (is_inf a = true -> is_finite b = true -> sub a b = a) /\
  (is_finite a = true -> is_inf b = true -> sub a b = neg b) /\
  (is_inf a = true -> is_inf b = true -> sign a <> sign b -> sub a b = a) /\
  (is_inf a = true -> is_inf b = true -> sign a = sign b -> sub a b = nan).
Proof. exact (sub_special a b). Qed.
Print Assumptions C39_sub_special.
Theorem C39_mul_special a b : canonical a -> canonical b ->
  ((is_nan a = true \/ is_nan b = true) -> is_nan (mul a b) = true) /\
  (is_inf a = true -> is_zero b = true -> mul a b = nan) /\
  (is_zero a = true -> is_inf b = true -> mul a b = nan) /\
  (is_inf a = true -> is_zero b = false -> is_nan b = false -> mul a b = infinity (sign a * sign b)) /\
  (is_inf b = true -> is_zero a = false -> is_nan a = false -> mul a b = infinity (sign a * sign b)).
Proof. exact (mul_special a b). Qed.
Print Assumptions C39_mul_special.

(** Comparison is numeric order; NaN compares false. *)
Theorem C39_equality a b : canonical a -> canonical b -> eqb a b = true <-> same_number a b.
Proof. exact (eqb_spec a b). Qed.
Print Assumptions C39_equality.
Theorem C39_less a b : canonical a -> canonical b -> ltb a b = true <-> below a b.
Proof. exact (ltb_spec a b). Qed.
Print Assumptions C39_less.
Theorem C39_less_equal a b : canonical a -> canonical b -> leb a b = true <-> below a b \/ same_number a b.
Proof. exact (leb_spec a b). Qed.
Print Assumptions C39_less_equal.
Theorem C39_order_total a b : canonical a -> canonical b -> is_nan a = false -> is_nan b = false ->
  (below a b \/ same_number a b \/ below b a) /\ (below a b -> ~ below b a) /\ (same_number a b -> ~ below b a).
Proof. intros Ca Cb Na Nb. exact (conj (below_total a b Ca Cb Na Nb) (conj (below_asym a b) (same_not_below a b))). Qed.
Print Assumptions C39_order_total.

Theorem C39_fmax a b : canonical a -> canonical b ->
  (is_nan a = true -> fmax a b = b) /\ (is_nan b = true -> is_nan a = false -> fmax a b = a) /\
  (is_nan a = false -> is_nan b = false ->
     (fmax a b = a \/ fmax a b = b) /\ ~ below (fmax a b) a /\ ~ below (fmax a b) b /\
     (is_zero a = true -> is_zero b = true -> sign (fmax a b) = Z.max (sign a) (sign b))).
Proof. exact (fmax_spec a b). Qed.
Print Assumptions C39_fmax.
Theorem C39_fmin a b : canonical a -> canonical b ->
  (is_nan a = true -> fmin a b = b) /\ (is_nan b = true -> is_nan a = false -> fmin a b = a) /\
  (is_nan a = false -> is_nan b = false ->
     (fmin a b = a \/ fmin a b = b) /\ ~ below a (fmin a b) /\ ~ below b (fmin a b) /\
     (is_zero a = true -> is_zero b = true -> sign (fmin a b) = Z.min (sign a) (sign b))).
Proof. exact (fmin_spec a b). Qed.
Print Assumptions C39_fmin.
Theorem C39_fdim a b : canonical a -> canonical b ->
  (below a b \/ same_number a b -> fdim a b = signed_zero 1) /\
  (is_finite a = true -> is_finite b = true -> (value b < value a)%Q -> stored (value a - value b) (fdim a b)) /\
  (is_nan a = true \/ is_nan b = true -> is_nan (fdim a b) = true).
Proof. exact (fdim_spec a b). Qed.
Print Assumptions C39_fdim.

(** ** C40 *)
(** The integer a mode rounds to is unique. *)
Theorem C40_rounding_unique mode y n n' : rounded mode y n -> rounded mode y n' -> n = n'.
Proof. exact (rounded_unique mode y n n'). Qed.
Print Assumptions C40_rounding_unique.

(** Rounding to a multiple of a power of two. *)
Theorem C40_round_to_power a e mode : canonical a -> is_normal a = true -> e <= kMaxExp ->
  exists n, rounded mode (value a * pow2 (- e)) n /\ stored (inject_Z n * pow2 e) (round_to_power_of_2 a e mode) /\
    (n = 0 -> round_to_power_of_2 a e mode = signed_zero (sign a)).
Proof. exact (round_power a e mode). Qed.
Print Assumptions C40_round_to_power.
(** Rounding to a number of bits. *)
Theorem C40_round_to_bits a p mode : canonical a -> is_normal a = true -> 1 <= p <= kMaxPrec ->
  (prec a <= p -> round_to_max_prec a p mode = a) /\
  prec (round_to_max_prec a p mode) <= p /\
  (p < prec a -> exists n, 2 ^ (p - 1) <= Z.abs n <= 2 ^ p /\ rounded mode (value a * pow2 (p - exp a)) n /\
     stored (inject_Z n * pow2 (exp a - p)) (round_to_max_prec a p mode)).
Proof. exact (round_max_prec a p mode). Qed.
Print Assumptions C40_round_to_bits.

(** The functions that round to an integer. *)
Theorem C40_ceil a : canonical a -> is_finite a = true ->
  exists n, ((inject_Z n - 1 < value a)%Q /\ (value a <= inject_Z n)%Q) /\ is_finite (ceil a) = true /\ (value (ceil a) == inject_Z n)%Q /\ sign (ceil a) = sign a.
Proof. intros C F. destruct (round_integer a kRoundTowardPositive C F) as (_ & G & S & n & R & V). exact (ex_intro _ n (conj R (conj G (conj V S)))). Qed.
Print Assumptions C40_ceil.
Theorem C40_floor a : canonical a -> is_finite a = true ->
  exists n, ((inject_Z n <= value a)%Q /\ (value a < inject_Z n + 1)%Q) /\ is_finite (floor a) = true /\ (value (floor a) == inject_Z n)%Q /\ sign (floor a) = sign a.
Proof. intros C F. destruct (round_integer a kRoundTowardNegative C F) as (_ & G & S & n & R & V). exact (ex_intro _ n (conj R (conj G (conj V S)))). Qed.
Print Assumptions C40_floor.
Theorem C40_trunc a : canonical a -> is_finite a = true ->
  exists n, rounded kRoundTowardZero (value a) n /\ is_finite (trunc a) = true /\ (value (trunc a) == inject_Z n)%Q /\ sign (trunc a) = sign a.
Proof. intros C F. destruct (round_integer a kRoundTowardZero C F) as (_ & G & S & n & R & V). exact (ex_intro _ n (conj R (conj G (conj V S)))). Qed.
Print Assumptions C40_trunc.
Theorem C40_round a : canonical a -> is_finite a = true ->
  exists n, rounded kRoundTiesAwayFromZero (value a) n /\ is_finite (round a) = true /\ (value (round a) == inject_Z n)%Q /\ sign (round a) = sign a.
Proof. intros C F. destruct (round_integer a kRoundTiesAwayFromZero C F) as (_ & G & S & n & R & V). exact (ex_intro _ n (conj R (conj G (conj V S)))). Qed.
Print Assumptions C40_round.
Theorem C40_rint a : canonical a -> is_finite a = true ->
  exists n, rounded kRoundTiesToEven (value a) n /\ is_finite (rint a) = true /\ (value (rint a) == inject_Z n)%Q /\ sign (rint a) = sign a.
Proof. intros C F. destruct (round_integer a kRoundTiesToEven C F) as (_ & G & S & n & R & V). exact (ex_intro _ n (conj R (conj G (conj V S)))). Qed.
Print Assumptions C40_rint.

(** Conversion to integer types clamps. *)
Theorem C40_to_integer lo hi a mode : canonical a -> - 2 ^ 63 <= lo <= 0 -> 0 <= hi < 2 ^ 63 ->
  (is_nan a = true -> to_integer lo hi a mode = hi) /\
  (is_inf a = true -> to_integer lo hi a mode = if sign a <? 0 then lo else hi) /\
  (is_finite a = true -> exists n, rounded mode (value a) n /\ to_integer lo hi a mode = Z.max lo (Z.min hi n)).
Proof. exact (to_integer_spec lo hi a mode). Qed.
Print Assumptions C40_to_integer.
Theorem C40_llrint a : canonical a -> is_finite a = true -> exists n, rounded kRoundTiesToEven (value a) n /\ llrint a = Z.max (- 2 ^ 63) (Z.min (2 ^ 63 - 1) n).
Proof. intros C F. exact (proj2 (proj2 (to_integer_spec (- 2 ^ 63) (2 ^ 63 - 1) a kRoundTiesToEven C ltac:(split; discriminate) ltac:(split; [discriminate|reflexivity]))) F). Qed.
Print Assumptions C40_llrint.
Theorem C40_llround a : canonical a -> is_finite a = true -> exists n, rounded kRoundTiesAwayFromZero (value a) n /\ llround a = Z.max (- 2 ^ 63) (Z.min (2 ^ 63 - 1) n).
Proof. intros C F. exact (proj2 (proj2 (to_integer_spec (- 2 ^ 63) (2 ^ 63 - 1) a kRoundTiesAwayFromZero C ltac:(split; discriminate) ltac:(split; [discriminate|reflexivity]))) F). Qed.
Print Assumptions C40_llround.

(** Scaling by a power of two: exact unless the number is at least one and the exponent is lower than
    the (wrongly signed) clamp. *)
Theorem C40_ldexp a e : canonical a -> is_normal a = true -> exp a <= 0 \/ kMinExp - 1 + exp a <= e -> stored (value a * pow2 e) (ldexp a e).
Proof. exact (ldexp_ok a e). Qed.
Print Assumptions C40_ldexp.
Theorem C40_ldexp_refuted a e : canonical a -> is_normal a = true -> 0 < exp a -> e < kMinExp - 1 + exp a ->
  is_normal (ldexp a e) = true /\ (value (ldexp a e) == value a * pow2 (kMinExp - 1 + exp a))%Q /\ ~ stored (value a * pow2 e) (ldexp a e).
Proof. exact (ldexp_bad a e). Qed.
Print Assumptions C40_ldexp_refuted.
Theorem C40_scalbln a e : canonical a -> scalbln a e = ldexp a e.
Proof. exact (scalbln_ldexp a e). Qed.
Print Assumptions C40_scalbln.
Theorem C40_frexp a : canonical a -> is_normal a = true -> exp a <= 100000000 ->
  (1 # 2 <= Qabs (value (fst (frexp a))))%Q /\ (Qabs (value (fst (frexp a))) < 1)%Q /\
  (value a == value (fst (frexp a)) * pow2 (snd (frexp a)))%Q /\ is_normal (fst (frexp a)) = true.
Proof. exact (frexp_ok a). Qed.
Print Assumptions C40_frexp.
Theorem C40_frexp_refuted a : canonical a -> is_normal a = true -> 100000000 < exp a -> (1 <= Qabs (value (fst (frexp a))))%Q.
Proof. exact (frexp_bad a). Qed.
Print Assumptions C40_frexp_refuted.
Theorem C40_logb f0 fn a : canonical a -> is_normal a = true ->
  (pow2 (ilogb f0 fn a) <= Qabs (value a))%Q /\ (Qabs (value a) < pow2 (ilogb f0 fn a + 1))%Q /\ (value (logb a) == inject_Z (ilogb f0 fn a))%Q.
Proof. exact (ilogb_spec f0 fn a). Qed.
Print Assumptions C40_logb.

(** Conversion to double rounds to nearest even: for mantissas of at most 53 bits, and for all numbers
    in the normal range of doubles. Longer ones in the subnormal range are rounded twice. *)
Theorem C40_to_double_short a : canonical a -> is_normal a = true -> prec a <= 53 -> nearest_double (value a) (sign a) (to_double a).
Proof. exact (to_double_short a). Qed.
Print Assumptions C40_to_double_short.
Theorem C40_to_double a : canonical a -> is_normal a = true -> -1021 <= exp a -> nearest_double (value a) (sign a) (to_double a).
Proof. exact (to_double_normal a). Qed.
Print Assumptions C40_to_double.
Theorem C40_to_double_special a : canonical a ->
  (is_nan a = true -> to_double a = DNaN) /\ (is_inf a = true -> to_double a = DInf (sign a)) /\ (is_zero a = true -> to_double a = DFinite (sign a) 0 0).
Proof. exact (to_double_special a). Qed.
Print Assumptions C40_to_double_special.
Theorem C40_to_double_subnormal_refuted : exists a, canonical a /\ is_normal a = true /\ exp a = -1074 /\ ~ nearest_double (value a) (sign a) (to_double a).
Proof. exact (ex_intro _ halfway (conj halfway_canonical (conj halfway_normal (conj eq_refl halfway_wrong)))). Qed.
Print Assumptions C40_to_double_subnormal_refuted.

(** ** Cases that meet the hypotheses *)
Definition five_quarters : exactfloat := {| sign := 1; bn_exp := -2; bn := 5 |}.
Definition minus_five_halves : exactfloat := {| sign := -1; bn_exp := -1; bn := 5 |}.
Example five_quarters_computed : of_double (DFinite 1 (5 * 2 ^ 50) 1) = five_quarters.
Proof. vm_compute. reflexivity. Qed.
Example sum_computed : add five_quarters minus_five_halves = {| sign := -1; bn_exp := -2; bn := 5 |} /\ mul five_quarters minus_five_halves = {| sign := -1; bn_exp := -3; bn := 25 |}.
Proof. vm_compute. split; reflexivity. Qed.
Example canonical_examples : canonical five_quarters /\ canonical minus_five_halves.
Proof.
  split.
  - exact (proj1 (of_double_exact 1 (5 * 2 ^ 50) 1 (or_introl eq_refl) ltac:(split; [discriminate|reflexivity]) ltac:(split; discriminate))).
  - exact (proj1 (of_double_exact (-1) (5 * 2 ^ 50) 2 (or_intror eq_refl) ltac:(split; [discriminate|reflexivity]) ltac:(split; discriminate))).
Qed.
Example rounding_computed :
  (ceil five_quarters, floor five_quarters, trunc minus_five_halves, round minus_five_halves, rint minus_five_halves) =
  ({| sign := 1; bn_exp := 1; bn := 1 |}, {| sign := 1; bn_exp := 0; bn := 1 |}, {| sign := -1; bn_exp := 1; bn := 1 |}, {| sign := -1; bn_exp := 0; bn := 3 |}, {| sign := -1; bn_exp := 1; bn := 1 |}).
Proof. vm_compute. reflexivity. Qed.
Example order_computed : ltb minus_five_halves five_quarters = true /\ ltb (infinity (-1)) minus_five_halves = true /\ ltb nan nan = false /\ eqb (signed_zero 1) (signed_zero (-1)) = true.
Proof. vm_compute. repeat split. Qed.
(** 1 scaled by 2^-300000000 is below the smallest number, but is stored as 2^-200000000. *)
Example ldexp_computed : ldexp {| sign := 1; bn_exp := 0; bn := 1 |} (-300000000) = {| sign := 1; bn_exp := -200000000; bn := 1 |} /\
  ldexp five_quarters 3 = {| sign := 1; bn_exp := 1; bn := 5 |}.
Proof. vm_compute. split; reflexivity. Qed.
