(** Specification of mean average precision. *)
From Coq Require Import Qround Qminmax Sorting.Sorted.
From Verif Require Import Base.
Open Scope Q_scope.

(** A sample is (precision, recall). The envelope at x is the best precision at recall x or more. *)
Definition env (samples : list (Q * Q)) (x : Q) : Q :=
  fold_right (fun s m => if Qle_bool x (snd s) then Qmax (fst s) m else m) 0 samples.

(** Distinct recall values from high to low, down to recall 0. *)
Definition recall_levels (samples : list (Q * Q)) (rs : list Q) : Prop :=
  StronglySorted (fun a b => b < a) rs /\
  (forall r, (exists r', In r' rs /\ r' == r) <-> (r == 0 \/ exists s, In s samples /\ snd s == r)).

(** Number of points inserted in a gap of the given length: the least m >= 0 such that the rest is
    at most delta (up to the tolerance of one millionth). *)
Definition inserted (gap delta : Q) : Z := Z.max 0 (Qceiling ((gap - (1 # 1000000)) / delta) - 1).
(** Area of the gap from recall x up to recall y: constant at the envelope of y on the inserted
    part, linear on the rest. *)
Definition gap_area (samples : list (Q * Q)) (delta x y : Q) : Q :=
  let filled := inject_Z (inserted (y - x) delta) * delta in
  filled * env samples y + (y - x - filled) * (env samples x + env samples y) / 2.
(** Area below the curve; the last gap, down to recall 0, is constant. *)
Fixpoint area (samples : list (Q * Q)) (delta y : Q) (rs : list Q) : Q :=
  match rs with
  | [] => 0
  | [x] => (y - x) * env samples y
  | x :: rs' => gap_area samples delta x y + area samples delta x rs'
  end.
Definition ap_spec (samples : list (Q * Q)) (delta : Q) (rs : list Q) : Q :=
  match rs with [] => 0 | y :: rs' => area samples delta y rs' end.
