(** Model of ComputeMeanAveragePrecision (metrics/metrics_utils.cc:245-302) in exact rationals. *)
From Coq Require Import Qround.
From Verif Require Import Base.
Open Scope Q_scope.

(** std::max(a, b). *)
Definition qmax (a b : Q) : Q := if negb (Qle_bool b a) then b else a.

(** std::map<float, float> as an association list with increasing keys;
    [m[k] = std::max(m[k], p)], where m[k] is created as 0 (metrics_utils.cc:258-261). *)
Fixpoint upd_max (k p : Q) (m : list (Q * Q)) : list (Q * Q) :=
  match m with
  | [] => [(k, qmax 0 p)]
  | (k', p') :: m' =>
      match Qcompare k k' with
      | Lt => (k, qmax 0 p) :: m
      | Eq => (k', qmax p' p) :: m'
      | Gt => (k', p') :: upd_max k p m'
      end
  end.
(** recall_precision (metrics_utils.cc:255-261). *)
Definition recall_map (samples : list (Q * Q)) : list (Q * Q) :=
  fold_left (fun m pr => upd_max (snd pr) (fst pr) m) samples [(0, 1)].

Definition kError : Q := 1 # 1000000.
(** The while loop (metrics_utils.cc:280-283). Points are (precision, recall). The fuel is shown to
    suffice; running out is an explicit error. *)
Fixpoint fill (fuel : nat) (last r delta maxp : Q) : result (list (Q * Q)) :=
  if negb (Qle_bool (last - r) (delta + kError)) then
    match fuel with
    | O => Err OutOfFuel
    | S n => do l <- fill n (last - delta) r delta maxp; Ok ((maxp, last - delta) :: l)
    end
  else Ok [].
Definition fill_fuel (last r delta : Q) : nat := Z.to_nat (Qceiling ((last - r) / delta)).
(** The loop from high to low recall (metrics_utils.cc:277-288). *)
Fixpoint points (desc : list (Q * Q)) (last delta maxp : Q) : result (list (Q * Q)) :=
  match desc with
  | [] => Ok []
  | (r, p) :: rest =>
      do f <- fill (fill_fuel last r delta) last r delta maxp;
      let maxp' := qmax p maxp in
      do l <- points rest r delta maxp';
      Ok (f ++ (maxp', r) :: l)
  end.
(** Override of the last entry (metrics_utils.cc:289-294). *)
Fixpoint override_last (l : list (Q * Q)) : list (Q * Q) :=
  match l with
  | a :: [b] => [a; (fst a, snd b)]
  | a :: l' => a :: override_last l'
  | [] => []
  end.
(** Trapezoid sum (metrics_utils.cc:296-301). *)
Fixpoint trapezoid (acc : Q) (l : list (Q * Q)) : Q :=
  match l with
  | a :: ((b :: _) as l') => trapezoid (acc + (1 # 2) * (snd a - snd b) * (fst a + fst b)) l'
  | _ => acc
  end.
(** [samples] pairs precisions with recalls; CHECK_EQ of the sizes is thereby built in. *)
Definition mean_average_precision (samples : list (Q * Q)) (delta : Q) : result Q :=
  if Qle_bool delta 0 then Err CheckFailed else
  if negb (Qle_bool delta 1) then Err CheckFailed else
  match samples with
  | [] => Ok 0
  | _ =>
      let m := recall_map samples in
      let last := match m with (r, _) :: _ => r | [] => 0 end in
      do l <- points (rev m) last delta 0;
      Ok (trapezoid 0 (override_last l))
  end.
