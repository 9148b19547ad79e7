(** C63: decimal text of exact floating point numbers. *)
From Coq Require Import ZArith QArith Qabs List Lia.
From Verif Require Import Base ExactFloatModel ExactFloatSpec ExactTextModel ExactTextSpec ExactTextProofs
  ExactTextReadProofs ExactTextUniqueProofs ExactTextExamples.
Import ListNotations.
Local Open Scope Z_scope.

(** The text of a number reads as the number rounded to the digits asked for;
    it has no superfluous zeros, and an exponent exactly when what it reads as
    is below 10^-4 or has more digits than asked for. *)
Theorem C63_text : forall a d k, canonical a -> is_normal a = true -> 1 <= d -> decades (Qabs (value a)) k ->
  exists n, printed (Qabs (value a) * pow10 (d - k)) n /\ 10 ^ (d - 1) <= n /\ n <= 10 ^ d
    /\ reads (to_string_with_max_digits a d)
         (if sign a <? 0 then - (inject_Z n * pow10 (k - d)) else inject_Z n * pow10 (k - d))
    /\ tidy (to_string_with_max_digits a d)
    /\ (In 101 (to_string_with_max_digits a d) <->
        (inject_Z n * pow10 (k - d) < pow10 (-4))%Q \/ (pow10 d <= inject_Z n * pow10 (k - d))%Q)
    /\ (forall c, In c (to_string_with_max_digits a d) -> c <> 60).
Proof. exact text_spec. Qed.
Print Assumptions C63_text.

Theorem C63_decades : forall a, canonical a -> is_normal a = true -> exists k, decades (Qabs (value a)) k.
Proof. exact decades_exist. Qed.
Print Assumptions C63_decades.

(** Numbers that need no more digits are printed exactly. *)
Theorem C63_exact : forall a d k z, canonical a -> is_normal a = true -> 1 <= d -> decades (Qabs (value a)) k ->
  (Qabs (value a) * pow10 (d - k) == inject_Z z)%Q -> reads (to_string_with_max_digits a d) (value a).
Proof. exact exact_text. Qed.
Print Assumptions C63_exact.

(** The error is less than one unit of the last digit. *)
Theorem C63_error : forall a d k, canonical a -> is_normal a = true -> 1 <= d -> decades (Qabs (value a)) k ->
  exists q, reads (to_string_with_max_digits a d) q /\ (Qabs (q - value a) < pow10 (k - d))%Q.
Proof. exact error_bound. Qed.
Print Assumptions C63_error.

(** It is not always the nearest: 2^35. *)
Theorem C63_nearest_refuted : exists a q, canonical a /\ is_normal a = true /\ decades (Qabs (value a)) 11
  /\ reads (to_string a) q /\ (q == 34359738360 # 1)%Q
  /\ ~ rounded kRoundTiesToEven (value a * (1 # 10)) 3435973836.
Proof.
  destruct p35_not_nearest as (q & R & Nr & E). exists p35, q.
  split; [exact p35_canonical|]. split; [reflexivity|]. split; [exact p35_decades|]. split; [exact R|].
  split; [exact E|exact Nr].
Qed.
Print Assumptions C63_nearest_refuted.

(** Unlike printf, an exponent can have a single digit. *)
Theorem C63_exponent_digits_refuted : exists a d text c, canonical a /\ 1 <= d
  /\ to_string_with_max_digits a d = text ++ [101; 43; c].
Proof. exists n26, 1, [50], 49. split; [exact n26_canonical|]. split; [lia|]. rewrite n26_text. reflexivity. Qed.
Print Assumptions C63_exponent_digits_refuted.

(** Numbers of the same precision that differ have different texts. *)
Theorem C63_same_precision_unique : forall a b, canonical a -> canonical b -> is_nan a = false -> is_nan b = false ->
  prec a = prec b -> to_string a = to_string b -> a = b.
Proof. exact text_unique. Qed.
Print Assumptions C63_same_precision_unique.

Theorem C63_nan_text : forall a b, canonical a -> canonical b -> is_nan a = true -> to_string a = to_string b -> is_nan b = true.
Proof. exact nan_text. Qed.
Print Assumptions C63_nan_text.

(** Numbers that differ have different unique texts. *)
Theorem C63_unique : forall a b, canonical a -> canonical b -> to_unique_string a = to_unique_string b ->
  a = b \/ (is_nan a = true /\ is_nan b = true).
Proof. exact unique_string. Qed.
Print Assumptions C63_unique.

(** Integers of at most ten digits are printed in full. *)
Theorem C63_integers : forall a z, canonical a -> is_normal a = true -> (value a == inject_Z z)%Q -> Z.abs z < 10 ^ 10 ->
  exists t, to_string a = (if z <? 0 then [45] else []) ++ t /\ digits_ok t = true /\ number t = Z.abs z /\ hd 48 t <> 48.
Proof. exact integer_plain. Qed.
Print Assumptions C63_integers.

(** Zeros, infinities and NaN. *)
Theorem C63_special : forall d,
  to_string_with_max_digits (signed_zero 1) d = [48] /\ to_string_with_max_digits (signed_zero (-1)) d = [45; 48]
  /\ to_string_with_max_digits (infinity 1) d = [105; 110; 102]
  /\ to_string_with_max_digits (infinity (-1)) d = [45; 105; 110; 102]
  /\ to_string_with_max_digits nan d = [110; 97; 110].
Proof. intros d. repeat split. Qed.
Print Assumptions C63_special.

Example C63_pi : canonical pi53 /\ to_unique_string pi53
  = [51; 46; 49; 52; 49; 53; 57; 50; 54; 53; 51; 53; 56; 57; 55; 57; 51; 49; 60; 53; 48; 62].
Proof. split; [exact pi53_canonical|exact pi53_text]. Qed.
Example C63_hypotheses : canonical n26 /\ is_normal n26 = true /\ decades (Qabs (value n26)) 2.
Proof. split; [exact n26_canonical|]. split; [reflexivity|exact n26_decades]. Qed.
