(** Decimal text of exact floating point numbers, math/exactfloat.cc:262-427.

    A text is a list of character codes.  Numbers of characters and exponents are
    mathematical integers. *)
From Coq Require Import ZArith List.
From Verif Require Import Base ExactFloatModel.
Import ListNotations.
Local Open Scope Z_scope.

Definition chr0 : Z := 48. (* '0' *)
Definition chr1 : Z := 49.
Definition chr5 : Z := 53.
Definition chr9 : Z := 57.
Definition chr_minus : Z := 45.
Definition chr_plus : Z := 43.
Definition chr_dot : Z := 46.
Definition chr_e : Z := 101.
Definition chr_lt : Z := 60.
Definition chr_gt : Z := 62.

(** BN_bn2dec of a positive number, and %d of a nonnegative one other than 0:
    the decimal digits.  The fuel, the number of bits, always suffices. *)
Fixpoint dec_rev (fuel : nat) (n : Z) : list Z :=
  match fuel with
  | O => []
  | S f => if n =? 0 then [] else (chr0 + n mod 10) :: dec_rev f (n / 10)
  end.
Definition dec (n : Z) : list Z := rev (dec_rev (Z.to_nat (Z.log2 n + 1)) n).
(** %d, for a nonnegative number. *)
Definition dec0 (n : Z) : list Z := if n =? 0 then [chr0] else dec n.

(** NumSignificantDigitsForPrec (262-275).  The logarithm is exact here: the
    ceiling of prec * log10(2) is the number of digits of 2^prec, prec > 0. *)
Definition num_significant_digits_for_prec (p : Z) : Z := 1 + Z.of_nat (length (dec (2 ^ p))).

(** IncrementDecimalDigits (345-355), on the reversed digits. *)
Fixpoint increment_rev (ds : list Z) : list Z :=
  match ds with
  | [] => [chr1]
  | c :: r => if c <? chr9 then (c + 1) :: r else chr0 :: increment_rev r
  end.
Definition increment_digits (ds : list Z) : list Z := rev (increment_rev (rev ds)).
(** The loop of 408-409, on the reversed digits. *)
Fixpoint strip_rev (ds : list Z) : list Z :=
  match ds with
  | [] => []
  | c :: r => if c =? chr0 then strip_rev r else ds
  end.
Definition strip (ds : list Z) : list Z := rev (strip_rev (rev ds)).
(** strpbrk(s, "123456789") != nullptr (396). *)
Definition some_nonzero (s : list Z) : bool := existsb (fun c => (chr1 <=? c) && (c <=? chr9)) s.

(** GetDecimalDigits (357-419): the digits and the exponent. *)
Definition get_decimal_digits (a : exactfloat) (max_digits : Z) : list Z * Z :=
  let '(n, n_exp10) :=
    if 0 <=? bn_exp a then (Z.shiftl (bn a) (bn_exp a), 0)
    else (5 ^ (- bn_exp a) * bn a, bn_exp a) in
  let all_digits := dec n in
  let num_digits := Z.of_nat (length all_digits) in
  let '(digits, e) :=
    if num_digits <=? max_digits then (all_digits, n_exp10)
    else
      let k := Z.to_nat max_digits in
      let kept := firstn k all_digits in
      let up := (chr5 <=? nth k all_digits 0)
                && (Z.odd (nth (k - 1) all_digits 0) || some_nonzero (skipn (k + 1) all_digits)) in
      (if up then increment_digits kept else kept, n_exp10 + (num_digits - max_digits)) in
  let stripped := strip digits in
  let e := e + (Z.of_nat (length digits) - Z.of_nat (length stripped)) in
  (stripped, e + Z.of_nat (length stripped)).

(** sprintf "e%+02d" (316-317): with a sign and a width of 2 there is always at
    least one digit, no more is added. *)
Definition exponent_text (x : Z) : list Z :=
  chr_e :: (if x <? 0 then chr_minus else chr_plus) :: dec0 (Z.abs x).

(** ToStringWithMaxDigits (290-342). *)
Definition text_nan : list Z := [110; 97; 110].
Definition text_inf : list Z := [105; 110; 102].
Definition layout (digits : list Z) (exp10 max_digits : Z) : list Z :=
  if (exp10 <=? -4) || (max_digits <? exp10) then
    match digits with
    | [] => []
    | [d] => d :: exponent_text (exp10 - 1)
    | d :: r => d :: chr_dot :: r ++ exponent_text (exp10 - 1)
    end
  else if 0 <? exp10 then
    if Z.of_nat (length digits) <=? exp10 then
      digits ++ repeat chr0 (Z.to_nat (exp10 - Z.of_nat (length digits)))
    else firstn (Z.to_nat exp10) digits ++ chr_dot :: skipn (Z.to_nat exp10) digits
  else chr0 :: chr_dot :: repeat chr0 (Z.to_nat (- exp10)) ++ digits.
Definition to_string_with_max_digits (a : exactfloat) (max_digits : Z) : list Z :=
  if negb (is_normal a) then
    if is_nan a then text_nan else
    if is_zero a then (if sign a <? 0 then [chr_minus; chr0] else [chr0]) else
    if sign a <? 0 then chr_minus :: text_inf else text_inf
  else
    let '(digits, exp10) := get_decimal_digits a max_digits in
    (if sign a <? 0 then [chr_minus] else []) ++ layout digits exp10 max_digits.

(** ToString (284-288), ToUniqueString (421-425). *)
Definition kMinSignificantDigits : Z := 10.
Definition to_string (a : exactfloat) : list Z :=
  to_string_with_max_digits a (Z.max kMinSignificantDigits (num_significant_digits_for_prec (prec a))).
Definition to_unique_string (a : exactfloat) : list Z :=
  to_string a ++ chr_lt :: dec0 (prec a) ++ [chr_gt].
