(** Specification of matching predictions with ground truths, independent of the algorithms. *)
From Coq Require Import Permutation Sorted.
From Verif Require Import Base MatcherModel HungarianSpec.
Open Scope Z_scope.

Section Spec.
Context {box : Type}.
Variable cfg : config box.

(** IoU of a pair: zero if the types differ. *)
Definition pair_iou (p g : object box) : Q :=
  if Nat.eqb (otype p) (otype g) then iou_fn cfg (obox p) (obox g) else 0.
(** Longitudinal affinity: 1 unless configured. *)
Definition pair_affinity (p g : object box) : Q :=
  match affinity_fn cfg with
  | None => 1
  | Some f => if Nat.eqb (otype p) (otype g) then f (obox p) (obox g) else 0
  end.
(** A pair may be matched if its IoU reaches the threshold of the prediction's type and its
    affinity is not zero. *)
Definition allowed (p g : object box) : Prop :=
  (nth (otype p) (thresholds cfg) 0 <= pair_iou p g)%Q /\ ~ (pair_affinity p g == 0)%Q.
(** Integer objective: IoU (times affinity) in millionths, rounded to nearest. *)
Definition objective (p g : object box) : Z :=
  Qfloor (pair_iou p g * pair_affinity p g * 1000000 + (1#2)).

(** Preconditions on the data: types known and within the threshold list, similarity in [0,1]. *)
Definition frame_ok (fr : frame box) : Prop :=
  (forall p, In p (preds fr) -> (0 < otype p < length (thresholds cfg))%nat) /\
  (forall p g, In p (preds fr) -> In g (gts fr) -> otype p = otype g ->
     (0 <= iou_fn cfg (obox p) (obox g) <= 1)%Q) /\
  (forall f, affinity_fn cfg = Some f -> forall p g, In p (preds fr) -> In g (gts fr) -> otype p = otype g ->
     (0 <= f (obox p) (obox g) <= 1)%Q).

Definition subset_ok (l : list (object box)) (sub : list nat) : Prop :=
  Forall (fun i => i < length l)%nat sub.

(** Partial one-to-one assignment of [np] rows to columns below [ng] using allowed pairs only. *)
Definition valid_assignment (np ng : nat) (ok : nat -> nat -> Prop) (mu : list (option nat)) : Prop :=
  length mu = np /\
  (forall i j, nth i mu None = Some j -> (i < np)%nat /\ (j < ng)%nat /\ ok i j) /\
  (forall i i' j, nth i mu None = Some j -> nth i' mu None = Some j -> i = i').

Definition assignment_weight (np : nat) (wt : nat -> nat -> Z) (mu : list (option nat)) : Z :=
  Zsum (map (fun i => match nth i mu None with Some j => wt i j | None => 0 end) (seq 0 np)).

(** The object a subset selects at a position. *)
Definition selected (l : list (object box)) (sub : list nat) (i : nat) : option (object box) :=
  match nth_error sub i with Some k => nth_error l k | None => None end.
(** The prediction at position i and the ground truth at position j of the subsets may match. *)
Definition pair_ok (fr : frame box) (psub gsub : list nat) (i j : nat) : Prop :=
  exists p g, selected (preds fr) psub i = Some p /\ selected (gts fr) gsub j = Some g /\ allowed p g.
Definition pair_weight (fr : frame box) (psub gsub : list nat) (i j : nat) : Z :=
  match selected (preds fr) psub i, selected (gts fr) gsub j with
  | Some p, Some g => objective p g
  | _, _ => 0
  end.

(** Score of the prediction at position i of the subset. *)
Definition score_at (fr : frame box) (psub : list nat) (i : nat) : Q :=
  match selected (preds fr) psub i with Some p => oscore p | None => 0 end.
(** A processing order std::sort may produce: all positions, by descending score. *)
Definition score_order (fr : frame box) (psub order : list nat) : Prop :=
  Permutation order (seq 0 (length psub)) /\
  StronglySorted (fun a b => (score_at fr psub b <= score_at fr psub a)%Q) order.

(** [a] occurs before [b]. *)
Definition before (order : list nat) (a b : nat) : Prop :=
  exists l1 l2 l3, order = l1 ++ a :: l2 ++ b :: l3.

(** Greedy by score: whenever a pair may match, the prediction has a ground truth at least as
    good, or the ground truth went to a prediction that was served earlier. *)
Definition greedy_stable (ng : nat) (order : list nat) (ok : nat -> nat -> Prop) (wt : nat -> nat -> Z)
  (pm gm : list (option nat)) : Prop :=
  forall i j, In i order -> (j < ng)%nat -> ok i j ->
    (exists j', nth i pm None = Some j' /\ wt i j <= wt i j') \/
    (exists i', nth j gm None = Some i' /\ before order i' i).

(** [pm] and [gm] describe the same set of pairs. *)
Definition mutually_inverse (np ng : nat) (pm gm : list (option nat)) : Prop :=
  length pm = np /\ length gm = ng /\
  forall i j, nth i pm None = Some j <-> nth j gm None = Some i.
End Spec.
