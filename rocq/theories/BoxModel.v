(** Model of math/aabox2d.h: axis aligned boxes and the tree of boxes. The class template is
    instantiated with an arithmetic: exact rationals [QK] (for float and double, rounding is not
    modelled) and mathematical integers [ZK] (for integral types, overflow is not modelled). *)
From Coq Require Import QArith Qabs.
From Verif Require Import Base ResultLib.

Record num := {
  carrier :> Type; nadd : carrier -> carrier -> carrier; nsub : carrier -> carrier -> carrier;
  nmul : carrier -> carrier -> carrier; nhalf : carrier -> carrier; nabs : carrier -> carrier;
  nzero : carrier; nleb : carrier -> carrier -> bool }.
Definition QK : num := {|
  carrier := Q; nadd := Qplus; nsub := Qminus; nmul := Qmult; nhalf := fun x => (x / 2)%Q;
  nabs := Qabs; nzero := 0%Q; nleb := Qle_bool |}.
(** Integer division by 2 truncates towards zero. *)
Definition ZK : num := {|
  carrier := Z; nadd := Z.add; nsub := Z.sub; nmul := Z.mul; nhalf := fun x => Z.quot x 2;
  nabs := Z.abs; nzero := 0%Z; nleb := Z.leb |}.

Definition nltb {K : num} (a b : K) : bool := negb (nleb K b a).
(** std::max and std::min. *)
Definition nmax {K : num} (a b : K) : K := if nltb a b then b else a.
Definition nmin {K : num} (a b : K) : K := if nltb b a then b else a.

(** AABox2d (aabox2d.h:33-150): centre and half offsets. *)
Record aabox (K : num) := { cx : K; cy : K; hx : K; hy : K }.
Arguments cx {K}. Arguments cy {K}. Arguments hx {K}. Arguments hy {K}.

Section Box.
Context {K : num}.
Notation "a +k b" := (nadd K a b) (at level 50, left associativity).
Notation "a -k b" := (nsub K a b) (at level 50, left associativity).

(** Init (56-61). *)
Definition init (minx miny maxx maxy : K) : aabox K :=
  {| cx := nhalf K (minx +k maxx); hx := nhalf K (maxx -k minx);
     cy := nhalf K (miny +k maxy); hy := nhalf K (maxy -k miny) |}.
(** GetMin, GetMax, GetXYWH (63-79). *)
Definition get_min (b : aabox K) : K * K := (cx b -k hx b, cy b -k hy b).
Definition get_max (b : aabox K) : K * K := (cx b +k hx b, cy b +k hy b).
Definition get_xywh (b : aabox K) : K * K * K * K :=
  (cx b -k hx b, cy b -k hy b, hx b +k hx b, hy b +k hy b).
(** OverlapAxis (143-145), Overlap (81-84). *)
Definition overlap_axis (c1 h1 c2 h2 : K) : bool := nleb K (nabs K (c1 -k c2)) (h1 +k h2).
Definition overlap (a b : aabox K) : bool :=
  overlap_axis (cx a) (hx a) (cx b) (hx b) && overlap_axis (cy a) (hy a) (cy b) (hy b).
(** ComputeIntersectionArea (86-93). *)
Definition intersection_area (a b : aabox K) : K :=
  if negb (overlap a b) then nzero K else
  let left := nmax (cx a -k hx a) (cx b -k hx b) in
  let right := nmin (cx a +k hx a) (cx b +k hx b) in
  let top := nmax (cy a -k hy a) (cy b -k hy b) in
  let bottom := nmin (cy a +k hy a) (cy b +k hy b) in
  nmul K (left -k right) (top -k bottom).
(** Union (95-115). *)
Definition union (a b : aabox K) : aabox K :=
  let '(minx, miny) := get_min a in
  let '(ominx, ominy) := get_min b in
  let '(maxx, maxy) := get_max a in
  let '(omaxx, omaxy) := get_max b in
  let minx := if nltb ominx minx then ominx else minx in
  let maxx := if nltb maxx omaxx then omaxx else maxx in
  let miny := if nltb ominy miny then ominy else miny in
  let maxy := if nltb maxy omaxy then omaxy else maxy in
  init minx miny maxx maxy.
(** Translate (118-121), Inside (124-126). *)
Definition translate (b : aabox K) (dx dy : K) : aabox K :=
  {| cx := cx b +k dx; cy := cy b +k dy; hx := hx b; hy := hy b |}.
Definition inside (b : aabox K) (x y : K) : bool :=
  nleb K (nabs K (x -k cx b)) (hx b) && nleb K (nabs K (y -k cy b)) (hy b).
(** DistanceSqrToPoint (131-138). *)
Definition distance_sqr (b : aabox K) (x y : K) : K :=
  let '(minx, miny) := get_min b in
  let '(maxx, maxy) := get_max b in
  let dx := nmax (nzero K) (nmax (x -k maxx) (minx -k x)) in
  let dy := nmax (nzero K) (nmax (y -k maxy) (miny -k y)) in
  nadd K (nmul K dx dx) (nmul K dy dy).

(** AABox2dTree (154-266). Node numbers are replaced by the nodes themselves. *)
Inductive tree : Type :=
| Leaf (bounds : aabox K) (children : list nat)
| Node (bounds : aabox K) (left right : tree).
Definition bounds (t : tree) : aabox K := match t with Leaf b _ => b | Node b _ _ => b end.

(** boxes_[i]: outside the vector is undefined behaviour, an error here. *)
Definition box_at (boxes : list (aabox K)) (i : nat) : result (aabox K) :=
  match nth_error boxes i with Some b => Ok b | None => Err IndexError end.
(** Bounds of a node (196-200). *)
Definition bounds_of (boxes : list (aabox K)) (idx : list nat) : result (aabox K) :=
  match idx with
  | [] => Err IndexError
  | i :: rest => do b <- box_at boxes i; foldM (fun acc j => do b' <- box_at boxes j; Ok (union acc b')) rest b
  end.

(** std::sort on pairs (coordinate, index), lexicographic. *)
Definition pair_leb (a b : K * nat) : bool :=
  if nltb (fst a) (fst b) then true else if nltb (fst b) (fst a) then false else Nat.leb (snd a) (snd b).
Fixpoint insert_pair (x : K * nat) (l : list (K * nat)) : list (K * nat) :=
  match l with [] => [x] | y :: l' => if pair_leb x y then x :: l else y :: insert_pair x l' end.
Definition sort_pairs (l : list (K * nat)) : list (K * nat) := fold_right insert_pair [] l.

(** BuildTreeRecursive (193-243). The fuel is shown to suffice. *)
Fixpoint build (fuel : nat) (boxes : list (aabox K)) (level : nat) (idx : list nat) : result tree :=
  match fuel with
  | O => Err OutOfFuel
  | S fuel' =>
      do bnd <- bounds_of boxes idx;
      if Nat.ltb (length idx) 5 then Ok (Leaf bnd idx) else
      do keyed <- mapM (fun i => do b <- box_at boxes i;
                                 Ok (if Nat.even level then cx b else cy b, i)) idx;
      let sorted := map snd (sort_pairs keyed) in
      let mid := Nat.div (length idx) 2 in
      do l <- build fuel' boxes (S level) (firstn mid sorted);
      do r <- build fuel' boxes (S level) (skipn mid sorted);
      Ok (Node bnd l r)
  end.
(** BuildTree (162-175). *)
Definition build_tree (boxes : list (aabox K)) : result tree :=
  build (length boxes + 1) boxes 0 (seq 0 (length boxes)).

(** CollectOverlapsRecursive (244-262), CollectOverlaps (178-181). *)
Fixpoint collect (boxes : list (aabox K)) (box : aabox K) (index : nat) (t : tree) : result (list nat) :=
  if negb (overlap box (bounds t)) then Ok [] else
  match t with
  | Leaf _ children =>
      do ls <- mapM (fun i =>
        if Nat.eqb i index then Ok [] else
        do b <- box_at boxes i; Ok (if overlap box b then [i] else [])) children;
      Ok (concat ls)
  | Node _ l r => do a <- collect boxes box index l; do b <- collect boxes box index r; Ok (a ++ b)
  end.
Definition collect_overlaps (boxes : list (aabox K)) (t : tree) (index : nat) : result (list nat) :=
  do b <- box_at boxes index; collect boxes b index t.
End Box.
Arguments tree : clear implicits.
