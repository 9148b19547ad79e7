(** Reading decimal text, and how a number should be rounded to decimal digits. *)
From Coq Require Import ZArith QArith Qabs List.
From Verif Require Import ExactFloatModel ExactFloatSpec.
Import ListNotations.
Local Open Scope Z_scope.

(** ** A reader of decimal text: [-]digits[.digits][e(+|-)digits], ASCII codes. *)

Definition is_digit (c : Z) : bool := (48 <=? c) && (c <=? 57).
Definition digits_ok (s : list Z) : bool := match s with [] => false | _ => forallb is_digit s end.
Definition number (s : list Z) : Z := fold_left (fun n c => 10 * n + (c - 48)) s 0.

(** What comes before and after the first [c]. *)
Fixpoint split_at (c : Z) (s : list Z) : list Z * option (list Z) :=
  match s with
  | [] => ([], None)
  | x :: r => if x =? c then ([], Some r) else let '(a, b) := split_at c r in (x :: a, b)
  end.
Definition read_exponent (s : list Z) : option Z :=
  match s with
  | 43 :: r => if digits_ok r then Some (number r) else None
  | 45 :: r => if digits_ok r then Some (- number r) else None
  | _ => None
  end.
Definition pow10 (e : Z) : Q := Qpower 10 e.
Definition read_unsigned (s : list Z) : option Q :=
  let '(mantissa, ex) := split_at 101 s in
  let '(i, f) := split_at 46 mantissa in
  match (match ex with None => Some 0 | Some x => read_exponent x end) with
  | None => None
  | Some x =>
      if digits_ok i && match f with None => true | Some f => digits_ok f end then
        let fraction := match f with None => [] | Some f => f end in
        Some (inject_Z (number (i ++ fraction)) * pow10 (x - Z.of_nat (length fraction)))%Q
      else None
  end.
Definition read (s : list Z) : option Q :=
  match s with
  | 45 :: r => option_map Qopp (read_unsigned r)
  | _ => read_unsigned s
  end.
(** The text reads as the number. *)
Definition reads (s : list Z) (q : Q) : Prop := exists r, read s = Some r /\ (r == q)%Q.

(** ** Rounding as the code does it: to nearest, ties to even, except that an
    even number followed by exactly .6, .7, .8 or .9 is rounded down. *)
Definition exceptional (y : Q) (n : Z) : Prop :=
  Z.even n = true /\ exists j, 6 <= j <= 9 /\ (y == inject_Z n + inject_Z j * (1 # 10))%Q.
Definition printed (y : Q) (n : Z) : Prop :=
  (forall m, exceptional y m -> n = m)
  /\ ((forall m, ~ exceptional y m) -> rounded kRoundTiesToEven y n).

(** The decimal exponent of a number: 10^(k-1) <= v < 10^k. *)
Definition decades (v : Q) (k : Z) : Prop := (pow10 (k - 1) <= v /\ v < pow10 k)%Q.

(** No superfluous zeros: before the integer part, or after the fraction. *)
Definition tidy_unsigned (s : list Z) : Prop :=
  let '(mantissa, _) := split_at 101 s in
  let '(i, f) := split_at 46 mantissa in
  (i = [48] \/ hd 48 i <> 48) /\ (forall f', f = Some f' -> last f' 48 <> 48).
Definition tidy (s : list Z) : Prop := tidy_unsigned (match s with 45 :: r => r | _ => s end).
