(** Model of metrics/hungarian.cc (maximum weight perfect matching).
    Conventions: vertices are nat, -1 in the permutation vectors is None, weights are Z.
    weight_t is a 32 bit int (hungarian.h:29): every sum and difference the code computes is
    checked against that range and the model stops with [RuntimeError] on overflow. *)
From Verif Require Import Base.
Open Scope Z_scope.

Definition int_max : Z := 2147483647.
Definition in_int (z : Z) : bool := (-2147483648 <=? z) && (z <=? int_max).

Fixpoint upd {A} (l : list A) (i : nat) (v : A) : list A :=
  match l, i with
  | [], _ => []
  | _ :: l', O => v :: l'
  | a :: l', S i' => a :: upd l' i' v
  end.

(** OrderedSet (hungarian.cc:49-89): members in insertion order. *)
Definition mem (i : nat) (s : list nat) : bool := existsb (Nat.eqb i) s.
Definition insert (i : nat) (s : list nat) : list nat := if mem i s then s else s ++ [i].
(** operator== (hungarian.cc:77-84). *)
Definition set_eq (a b : list nat) : bool :=
  Nat.eqb (length a) (length b) && forallb (fun i => mem i b) a.

(** Matching (hungarian.cc:91-118). *)
Record matching := { pm : list (option nat); ipm : list (option nat) }.
Definition empty_matching (n : nat) : matching := {| pm := repeat None n; ipm := repeat None n |}.
Definition add_edge (m : matching) (i j : nat) : matching :=
  {| pm := upd (pm m) i (Some j); ipm := upd (ipm m) j (Some i) |}.
Definition get_j (m : matching) (i : nat) : option nat := nth i (pm m) None.
Definition get_i (m : matching) (j : nat) : option nat := nth j (ipm m) None.
(** FindUnmatchedI (hungarian.cc:105-109): first unmatched index, or the size. *)
Fixpoint find_none (l : list (option nat)) : nat :=
  match l with
  | [] => O
  | None :: _ => O
  | Some _ :: l' => S (find_none l')
  end.

Section WithGraph.
Variable n : nat.
Variable edge : list Z.

Definition weight (i j : nat) : Z := nth (i * n + j)%nat edge 0.
Definition lab (l : list Z) (i : nat) : Z := nth i l 0.

(** AddNeighbours (hungarian.cc:120-133). *)
Definition add_neighbours (lx ly : list Z) (i parent_index : nat) (np : list nat * list nat)
  : result (list nat * list nat) :=
  if forallb (fun j => in_int (lab lx i + lab ly j)) (seq 0 n) then
    let N' := fold_left (fun N j => if lab lx i + lab ly j =? weight i j then insert j N else N)
                (seq 0 n) (fst np) in
    Ok (N', snd np ++ repeat parent_index (length N' - length (fst np))%nat)
  else Err RuntimeError.

(** FindNeighbours (hungarian.cc:135-145). *)
Fixpoint find_neighbours_from (lx ly : list Z) (ii : nat) (s : list nat) (np : list nat * list nat)
  : result (list nat * list nat) :=
  match s with
  | [] => Ok np
  | i :: s' =>
      do np' <- add_neighbours lx ly i ii np;
      find_neighbours_from lx ly (S ii) s' np'
  end.
Definition find_neighbours (lx ly : list Z) (s : list nat) : result (list nat * list nat) :=
  find_neighbours_from lx ly O s ([], []).

(** ImproveFeasibleLabeling (hungarian.cc:147-165). *)
Definition slack_min (lx ly : list Z) (s t : list nat) : Z :=
  fold_left (fun a i =>
    fold_left (fun a j => if mem j t then a else Z.min a (lab lx i + lab ly j - weight i j))
      (seq 0 n) a) s int_max.
Definition slacks_in_int (lx ly : list Z) (s t : list nat) : bool :=
  forallb (fun i => forallb (fun j => mem j t ||
    (in_int (lab lx i + lab ly j) && in_int (lab lx i + lab ly j - weight i j))) (seq 0 n)) s.
Definition improve_labeling (lx ly : list Z) (s t : list nat) : result (list Z * list Z) :=
  if slacks_in_int lx ly s t then
    let a := slack_min lx ly s t in
    let lx' := fold_left (fun l i => upd l i (lab l i - a)) s lx in
    let ly' := fold_left (fun l j => upd l j (lab l j + a)) t ly in
    if forallb in_int lx' && forallb in_int ly' then Ok (lx', ly') else Err RuntimeError
  else Err RuntimeError.

(** AugmentMatching, loop over k (hungarian.cc:183-204). [k] counts down, [S k'] means
    position k'. GetJ(i) = -1 makes j = -1, which no T[k] equals. *)
Fixpoint augment_loop (s t parentT : list nat) (k : nat) (j : option nat) (m : matching)
  : result matching :=
  match k with
  | O => Err CheckFailed                                   (* LOG(FATAL) *)
  | S k' =>
      if match j with Some j' => Nat.eqb (nth k' t O) j' | None => false end then
        let ii := nth k' parentT O in
        let i := nth ii s O in
        let tmp_j := get_j m i in
        let m' := match j with Some j' => add_edge m i j' | None => m end in
        if Nat.eqb ii 0
        then match tmp_j with None => Ok m' | Some _ => Err CheckFailed end
        else augment_loop s t parentT k' tmp_j m'
      else augment_loop s t parentT k' j m
  end.
(** AugmentMatching (hungarian.cc:167-205). *)
Definition augment (s t parentT : list nat) (m : matching) : result matching :=
  if negb (Nat.eqb (length s) (length t)) then Err CheckFailed else
  let j := last t O in
  match get_i m j with
  | Some _ => Err CheckFailed
  | None => augment_loop s t parentT (length t) (Some j) m
  end.

(** PickY (hungarian.cc:207-217). *)
Fixpoint pick_y (N t : list nat) : result nat :=
  match N with
  | [] => Err CheckFailed                                  (* LOG(FATAL) *)
  | j :: N' => if mem j t then do k <- pick_y N' t; Ok (S k) else Ok O
  end.

(** Variables of the inner loop (hungarian.cc:245-260). *)
Record tree := { tlx : list Z; tly : list Z; tS : list nat; tT : list nat;
                 tparentT : list nat; tN : list nat; tparentN : list nat }.

(** Lines 284-288: relabel when N is used up. *)
Definition refresh (st : tree) : result tree :=
  if set_eq (tN st) (tT st) then
    do lxy <- improve_labeling (tlx st) (tly st) (tS st) (tT st);
    do np <- find_neighbours (fst lxy) (snd lxy) (tS st);
    Ok {| tlx := fst lxy; tly := snd lxy; tS := tS st; tT := tT st; tparentT := tparentT st;
          tN := fst np; tparentN := snd np |}
  else Ok st.

(** Inner while loop (hungarian.cc:281-306); returns labels and the augmented matching. *)
Fixpoint grow (fuel : nat) (m : matching) (st : tree) : result (list Z * list Z * matching) :=
  match fuel with
  | O => Err OutOfFuel
  | S fuel' =>
      do st1 <- refresh st;
      do jj <- pick_y (tN st1) (tT st1);
      let j := nth jj (tN st1) O in
      let t' := insert j (tT st1) in
      let pt' := tparentT st1 ++ [nth jj (tparentN st1) O] in
      match get_i m j with
      | None => do m' <- augment (tS st1) t' pt' m; Ok (tlx st1, tly st1, m')
      | Some z =>
          let s' := tS st1 ++ [z] in
          do np <- add_neighbours (tlx st1) (tly st1) z (length s' - 1)%nat (tN st1, tparentN st1);
          grow fuel' m {| tlx := tlx st1; tly := tly st1; tS := s'; tT := t'; tparentT := pt';
                          tN := fst np; tparentN := snd np |}
      end
  end.

(** Outer while loop (hungarian.cc:262-307). *)
Fixpoint complete (fuel : nat) (lx ly : list Z) (m : matching)
  : result (list (option nat) * list Z * list Z) :=
  match fuel with
  | O => Err OutOfFuel
  | S fuel' =>
      let i := find_none (pm m) in
      if Nat.eqb i n then Ok (pm m, lx, ly) else
      do np <- find_neighbours lx ly [i];
      do r <- grow (S n) m {| tlx := lx; tly := ly; tS := [i]; tT := []; tparentT := [];
                              tN := fst np; tparentN := snd np |};
      let '(lx', ly', m') := r in
      complete fuel' lx' ly' m'
  end.

(** Initial feasible labeling (hungarian.cc:234-241). *)
Definition init_lx : list Z :=
  map (fun i => fold_left (fun a j => Z.max a (weight i j)) (seq 0 n) 0) (seq 0 n).

(** Hungarian (hungarian.cc:226-308): CHECK_GT(n, 0), initial labels, main loop. *)
Definition hungarian : result (list (option nat) * list Z * list Z) :=
  if Nat.eqb n 0 then Err CheckFailed
  else complete (S n) init_lx (repeat 0 n) (empty_matching n).
End WithGraph.
