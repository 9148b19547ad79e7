(** Model of metrics/segmentation_metrics.cc. Class labels are integers. The confusion matrix counts
    with unbounded integers (the code uses int: fewer than 2^31 points are assumed there); the
    narrowing from int64 to int in MergeResults is modelled. IoU values are exact rationals. *)
From Verif Require Import Base ResultLib.
Open Scope Z_scope.

(** segmentation_type_mapper_ (segmentation_metrics.cc:40-51): a label to its position in the list. *)
Fixpoint index_of (c : Z) (types : list Z) (i : nat) : option nat :=
  match types with
  | [] => None
  | t :: ts => if c =? t then Some i else index_of c ts (S i)
  end.
(** Constructor (31-52): duplicate types fail a CHECK. *)
Fixpoint no_duplicates (types : list Z) : bool :=
  match types with [] => true | t :: ts => negb (existsb (Z.eqb t) ts) && no_duplicates ts end.
Definition matrix := list (list Z).
Definition zero_matrix (n : nat) : matrix := repeat (repeat 0 n) n.
Definition create (types : list Z) : result matrix :=
  if no_duplicates types then Ok (zero_matrix (length types + 1)) else Err CheckFailed.

Fixpoint set_nth {A} (i : nat) (f : A -> A) (l : list A) : list A :=
  match l, i with
  | [], _ => []
  | a :: l', O => f a :: l'
  | a :: l', S i' => a :: set_nth i' f l'
  end.
Definition incr (m : matrix) (g p : nat) : matrix := set_nth g (set_nth p (Z.add 1)) m.
Definition position (types : list Z) (c : Z) : nat :=
  match index_of c types 0 with Some i => i | None => length types end.
Fixpoint count_points (types : list Z) (pred gt : list Z) (m : matrix) : matrix :=
  match pred, gt with
  | p :: pred', g :: gt' => count_points types pred' gt' (incr m (position types g) (position types p))
  | _, _ => m
  end.
(** Update (54-77): the state after the call and the returned status. *)
Definition update (types : list Z) (m : matrix) (pred gt : list Z) : matrix * result unit :=
  if negb (Nat.eqb (length pred) (length gt)) then (m, Err ValueError)
  else (count_points types pred gt m, Ok tt).
(** Reset (79-85). *)
Definition reset (m : matrix) : matrix := map (map (fun _ => 0)) m.

Definition cell (m : matrix) (i j : nat) : Z := nth j (nth i m []) 0.
(** ComputeIOU (87-117): intersections and unions per class, then IoU per class and the mean. The
    mean over no class is 0/0, a NaN, given as [None]. *)
Definition intersection_of (m : matrix) (i : nat) : Z := cell m i i.
Definition union_of (n : nat) (m : matrix) (i : nat) : Z :=
  fold_left (fun u j => u + cell m i j + cell m j i) (seq 0 n) (- cell m i i) + cell m i n.
Record seg_metrics := { per_class : list (Z * Q); miou : option Q; inters : list Z; unions : list Z }.
Definition iou_of (inter union : Z) : Q := if 0 <? union then (inject_Z inter / inject_Z union)%Q else 1%Q.
Definition summarize (types inter union : list Z) : seg_metrics :=
  let ious := map (fun iu => iou_of (fst iu) (snd iu)) (combine inter union) in
  {| per_class := combine types ious;
     miou := match ious with
             | [] => None
             | _ => Some (fold_left Qplus ious 0 / inject_Z (Z.of_nat (length ious)))%Q
             end;
     inters := inter; unions := union |}.
Definition compute_iou (types : list Z) (m : matrix) : seg_metrics :=
  let n := length types in
  summarize types (map (intersection_of m) (seq 0 n)) (map (union_of n m) (seq 0 n)).

(** Narrowing of int64_t to int. *)
Definition to_int32 (z : Z) : Z := (z + 2 ^ 31) mod 2 ^ 32 - 2 ^ 31.
Definition add_lists (a b : list Z) : list Z := map (fun p => fst p + snd p) (combine a b).
(** MergeResults (119-151) of measurements given as (intersections, unions). *)
Definition merge_results (types : list Z) (rs : list (list Z * list Z)) : result seg_metrics :=
  let n := length types in
  do s <- foldM (fun s r =>
            if Nat.eqb (length (snd r)) n && Nat.eqb (length (fst r)) n
            then Ok (add_lists (fst s) (fst r), add_lists (snd s) (snd r)) else Err CheckFailed)
          rs (repeat 0 n, repeat 0 n);
  Ok (summarize types (map to_int32 (fst s)) (map to_int32 (snd s))).
