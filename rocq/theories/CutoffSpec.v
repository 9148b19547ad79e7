(** Specification of score cutoffs. *)
From Coq Require Import Sorting.Sorted.
From Verif Require Import Base HungarianSpec.
Open Scope Q_scope.

Definition ascending (l : list Q) : Prop := StronglySorted Qle l.
Definition unit_scores (l : list Q) : Prop := forall s, In s l -> 0 <= s <= 1.
(** Sizes of the buckets between consecutive cutoffs: as equal as possible, covering all scores. *)
Definition balanced (sizes : list Z) (num : Z) : Prop :=
  Zsum sizes = num /\ exists q, forall b, In b sizes -> b = q \/ b = (q + 1)%Z.
(** The frame of a scene is read completely iff the bound used by the code equals its size. *)
Definition bounds_right (pds : list (list (list Q))) : Prop :=
  forall s scene f frame, nth_error pds s = Some scene -> nth_error scene f = Some frame ->
    exists scene', nth_error pds f = Some scene' /\ length scene' = length frame.
