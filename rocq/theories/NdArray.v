(** Row-major dense arrays as in numpy / TensorFlow: a shape (list of sizes) and
    a flat list of elements. Only reshape (which keeps the flat list) and
    transpose (which permutes it) are needed. *)
From Verif Require Import Base.

Definition prodl (sh : list nat) : nat := fold_right Nat.mul 1%nat sh.

(** Flat position of a multi-index in a row-major array. *)
Fixpoint ravel (sh idx : list nat) : nat :=
  match sh, idx with
  | _ :: sh', i :: idx' => (i * prodl sh' + ravel sh' idx')%nat
  | _, _ => O
  end.

(** Multi-index of a flat position. *)
Fixpoint unravel (sh : list nat) (k : nat) : list nat :=
  match sh with
  | [] => []
  | _ :: sh' => (k / prodl sh')%nat :: unravel sh' (k mod prodl sh')%nat
  end.

Definition permute (p l : list nat) : list nat := map (fun a => nth a l O) p.

Fixpoint index_of (a : nat) (p : list nat) : nat :=
  match p with
  | [] => O
  | b :: p' => if Nat.eqb a b then O else S (index_of a p')
  end.

Definition inv_perm (p : list nat) : list nat :=
  map (fun a => index_of a p) (seq 0 (length p)).

(** np.transpose(x, p): the result has shape [permute p sh] and its element at
    index j is the element of x at the index i with i[p[k]] = j[k]. *)
Definition transpose {A} (d : A) (sh p : list nat) (xs : list A) : list A :=
  tabulate (prodl (permute p sh))
    (fun k => nth (ravel sh (permute (inv_perm p) (unravel (permute p sh) k))) xs d).
