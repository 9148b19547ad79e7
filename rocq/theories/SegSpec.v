(** Specification of segmentation metrics: sets of points, and histories of calls. *)
From Verif Require Import Base SegModel.
Open Scope Z_scope.

(** Number of points (prediction, ground truth) satisfying a predicate. *)
Definition count (P : Z * Z -> bool) (pts : list (Z * Z)) : Z := Z.of_nat (length (filter P pts)).
Definition valid (types : list Z) (c : Z) : bool := existsb (Z.eqb c) types.
(** Points whose prediction and ground truth both are class [c]. *)
Definition in_both (c : Z) (pt : Z * Z) : bool := (fst pt =? c) && (snd pt =? c).
(** Points whose ground truth is [c], or whose prediction is [c] while the ground truth is a valid class. *)
Definition in_either (types : list Z) (c : Z) (pt : Z * Z) : bool :=
  (snd pt =? c) || ((fst pt =? c) && valid types (snd pt)).

(** Histories of calls on one object. *)
Inductive call := Update (pred gt : list Z) | Reset.
Definition step (types : list Z) (m : matrix) (c : call) : matrix :=
  match c with Update p g => fst (update types m p g) | Reset => reset m end.
Definition run (types : list Z) (h : list call) : matrix := fold_left (step types) h (zero_matrix (length types + 1)).
(** Points of the accepted updates since the last reset. *)
Definition accept (pts : list (Z * Z)) (c : call) : list (Z * Z) :=
  match c with
  | Update p g => if Nat.eqb (length p) (length g) then pts ++ combine p g else pts
  | Reset => []
  end.
Definition points (h : list call) : list (Z * Z) := fold_left accept h [].

(** The metrics of a list of points. *)
Definition ratio (c : Z) (types : list Z) (pts : list (Z * Z)) : Q :=
  if 0 <? count (in_either types c) pts
  then (inject_Z (count (in_both c) pts) / inject_Z (count (in_either types c) pts))%Q else 1%Q.
Definition mean (l : list Q) : option Q :=
  match l with [] => None | _ => Some (fold_left Qplus l 0 / inject_Z (Z.of_nat (length l)))%Q end.
Definition metrics_of (types : list Z) (pts : list (Z * Z)) : seg_metrics :=
  {| per_class := map (fun c => (c, ratio c types pts)) types;
     miou := mean (map (fun c => ratio c types pts) types);
     inters := map (fun c => count (in_both c) pts) types;
     unions := map (fun c => count (in_either types c) pts) types |}.
