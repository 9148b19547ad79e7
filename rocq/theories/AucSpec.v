(** What the area under a precision recall curve should be, independent of its computation. *)
From Coq Require Import Reals List Bool Arith.
Import ListNotations.
Open Scope R_scope.

(** A cell is its true and its predicted occupancy. *)
Definition occupied (c : R * R) : bool := if Req_EM_T (fst c) 0 then false else true.
Definition predicted (c : R * R) : Prop := 0 <= snd c <= 1.
(** Predictions count as above level k of 0..99: all are above level 0, none above level 99, and the others are compared with k / 99. *)
Definition above (k : nat) (c : R * R) : bool :=
  Nat.eqb k 0 || (Nat.ltb k 99 && if Rlt_dec (INR k / 99) (snd c) then true else false).
Definition number (f : R * R -> bool) (cells : list (R * R)) : R := INR (length (filter f cells)).
Definition hits (cells : list (R * R)) (k : nat) : R := number (fun c => occupied c && above k c) cells.
Definition alarms (cells : list (R * R)) (k : nat) : R := number (fun c => negb (occupied c) && above k c) cells.
(** The share of occupied cells. *)
Definition share (cells : list (R * R)) : R := number occupied cells / INR (length cells).
(** The area under precision over hits when the alarms go with the hits in a straight line from (h1, a1) to (h0, a0):
    with q predictions above the level, of which h1 + s (q - h1 - a1) are hits. *)
Definition interpolated_area (h1 a1 h0 a0 area : R) : Prop :=
  exists F, F (h0 + a0) - F (h1 + a1) = area /\
    forall s, s * (h0 + a0 - (h1 + a1)) = h0 - h1 -> h1 + a1 < h0 + a0 ->
    (forall q, h1 + a1 <= q <= h0 + a0 -> continuity_pt F q) /\
    (forall q, h1 + a1 < q < h0 + a0 -> derivable_pt_lim F q (s * ((h1 + s * (q - (h1 + a1))) / q))).
Fixpoint total (l : list R) : R := match l with [] => 0 | x :: l' => x + total l' end.
(** Two predictions at the same levels. *)
Definition same_levels (p q : R) : Prop := forall k, (1 <= k <= 98)%nat -> INR k / 99 < p <-> INR k / 99 < q.
