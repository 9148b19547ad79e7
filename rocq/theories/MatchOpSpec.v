(** What matching boxes means, without the algorithm. *)
From Coq Require Import Sorted.
From Verif Require Import Base MatchOpModel.
Open Scope Z_scope.

(** The box a row of the tensor describes: center, bottom, length, width, height and heading for 7
    numbers; without the vertical part for 5; also without the heading for 4. *)
Definition box_of (d : nat) (f : nat -> Q) : lbox :=
  if Nat.eqb d 7 then {| center_x := f 0%nat; center_y := f 1%nat; center_z := f 2%nat + f 5%nat / 2;
                         blength := f 3%nat; bwidth := f 4%nat; bheight := f 5%nat; bheading := f 6%nat |}
  else {| center_x := f 0%nat; center_y := f 1%nat; center_z := 0; blength := f 2%nat; bwidth := f 3%nat; bheight := 0;
          bheading := if Nat.eqb d 5 then f 4%nat else 0 |}.
(** The numbers of columns for each type of matching. *)
Definition columns (t : box_type) (d : nat) : Prop :=
  (t = BOX_AA_2D /\ d = 4%nat) \/ (t = BOX_2D /\ (d = 5%nat \/ d = 7%nat)) \/ (t = BOX_3D /\ d = 7%nat).
Definition has_extent (t : box_type) (b : lbox) : Prop :=
  (0 < bwidth b)%Q /\ (0 < blength b)%Q /\ (t = BOX_3D -> (0 < bheight b)%Q).

(** The overlap and the affinity in use: those of the error tolerant metric only if it is enabled. *)
Definition overlap (fns : functions) (lc : let_config) (p g : lbox) : Q :=
  match lc with Some true => let_iou fns p g | _ => plain_iou fns p g end.
Definition affinity_of (fns : functions) (lc : let_config) (p g : lbox) : Q :=
  match lc with Some true => let_affinity fns p g | _ => 1%Q end.
Definition unit (q : Q) : Prop := (0 <= q <= 1)%Q.

Section Element.
Variables (fns : functions) (thr : Q) (t : box_type) (lc : let_config) (d np ng : nat) (fp fg : nat -> nat -> Q).
(** Prediction [i] and ground truth [j] of one batch element may be matched. *)
Definition may_match (i j : nat) : Prop :=
  (i < np)%nat /\ (j < ng)%nat /\ has_extent t (box_of d (fp i)) /\ has_extent t (box_of d (fg j)) /\
  (thr <= overlap fns lc (box_of d (fp i)) (box_of d (fg j)))%Q /\
  ~ (affinity_of fns lc (box_of d (fp i)) (box_of d (fg j)) == 0)%Q.
(** One to one sets of such pairs. *)
Definition matching (l : list (nat * nat)) : Prop :=
  (forall i j, In (i, j) l -> may_match i j) /\ NoDup (map fst l) /\ NoDup (map snd l).
(** Overlap times affinity in millionths, to the nearest integer. *)
Definition gain (ij : nat * nat) : Z :=
  Qfloor (overlap fns lc (box_of d (fp (fst ij))) (box_of d (fg (snd ij))) *
          affinity_of fns lc (box_of d (fp (fst ij))) (box_of d (fg (snd ij))) * 1000000 + (1 # 2)).
Fixpoint total (l : list (nat * nat)) : Z := match l with [] => 0 | ij :: l' => gain ij + total l' end.
Definition best (l : list (nat * nat)) : Prop := matching l /\ forall l', matching l' -> total l' <= total l.
(** The similarities of the boxes are in range. *)
Definition in_range : Prop := forall i j, (i < np)%nat -> (j < ng)%nat ->
  unit (overlap fns lc (box_of d (fp i)) (box_of d (fg j))) /\ unit (affinity_of fns lc (box_of d (fp i)) (box_of d (fg j))).
End Element.

(** The result for a whole batch, from the pairs of each element: numbered as if the boxes of all
    elements stood one after the other. *)
Definition assembled (fns : functions) (lc : let_config) (d np ng nb : nat) (fp fg : nat -> nat -> nat -> Q)
  (pairs : nat -> list (nat * nat)) : match_result :=
  let each {A} (f : nat -> nat * nat -> A) := concat (map (fun b => map (f b) (pairs b)) (seq 0 nb)) in
  {| prediction_ids := each (fun b ij => (fst ij + b * np)%nat);
     groundtruth_ids := each (fun b ij => (snd ij + b * ng)%nat);
     ious := each (fun b ij => overlap fns lc (box_of d (fp b (fst ij))) (box_of d (fg b (snd ij))));
     longitudinal_affinities := each (fun b ij => affinity_of fns lc (box_of d (fp b (fst ij))) (box_of d (fg b (snd ij)))) |}.

(** Batch size, number of boxes and number of columns; a matrix is a batch of one. *)
Definition shape_of (x : input) : option (nat * nat * nat) :=
  match x with Rank2 n d _ => Some (1, n, d) | Rank3 b n d _ => Some (b, n, d) | OtherRank _ => None end%nat.
Definition contents (x : input) : nat -> nat -> nat -> Q :=
  match x with Rank2 _ _ f => fun _ => f | Rank3 _ _ _ f => f | OtherRank _ => fun _ _ _ => 0%Q end.
(** Two inputs that can be matched. *)
Definition shapes_fit (t : box_type) (x y : input) : Prop :=
  exists nb np ng d, shape_of x = Some (nb, np, d) /\ shape_of y = Some (nb, ng, d) /\ columns t d.
