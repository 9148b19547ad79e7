(** Specification: a matcher without caches. *)
From Verif Require Import Base MatcherModel MatcherCacheModel.
Open Scope Z_scope.

Section Spec.
Context {box : Type}.

(** Data visible to a client: the last objects and functions set. *)
Record view := { vpreds : option (list (object box)); vgts : option (list (object box));
                 viou : box -> box -> Q; vaff : option (box -> box -> Q) }.

Definition pair_of (v : view) (p g : nat) : option (object box * object box) :=
  match vpreds v, vgts v with
  | Some ps, Some gs =>
      match nth_error ps p, nth_error gs g with Some po, Some go => Some (po, go) | _, _ => None end
  | _, _ => None
  end.

(** Answer computed from scratch: an error for invalid indices or values outside [0,1]. *)
Definition in_unit (q : Q) : result Q :=
  if Qle_bool 0 q && Qle_bool q 1 then Ok q else Err CheckFailed.
Definition answer_iou (v : view) (p g : nat) : result Q :=
  match pair_of v p g with
  | None => Err CheckFailed
  | Some (po, go) => in_unit (if Nat.eqb (otype po) (otype go) then viou v (obox po) (obox go) else 0)
  end.
Definition answer_affinity (v : view) (p g : nat) : result Q :=
  match pair_of v p g with
  | None => Err CheckFailed
  | Some (po, go) =>
      match vaff v with
      | None => Ok 1%Q
      | Some f => if Nat.eqb (otype po) (otype go) then in_unit (f (obox po) (obox go)) else Ok 0%Q
      end
  end.

Fixpoint run_uncached (v : view) (ops : list (op box)) : list (result Q) :=
  match ops with
  | [] => []
  | SetPredictions l :: r => run_uncached {| vpreds := Some l; vgts := vgts v; viou := viou v; vaff := vaff v |} r
  | SetGroundTruths l :: r => run_uncached {| vpreds := vpreds v; vgts := Some l; viou := viou v; vaff := vaff v |} r
  | SetIoUFunc f :: r => run_uncached {| vpreds := vpreds v; vgts := vgts v; viou := f; vaff := vaff v |} r
  | SetAffinityFunc f :: r => run_uncached {| vpreds := vpreds v; vgts := vgts v; viou := viou v; vaff := Some f |} r
  | QueryIoU p g :: r => answer_iou v p g :: run_uncached v r
  | QueryAffinity p g :: r => answer_affinity v p g :: run_uncached v r
  end.

(** The custom functions are only replaced while nothing was asked about the current objects. *)
Fixpoint functions_set_before_queries (asked : bool) (ops : list (op box)) : Prop :=
  match ops with
  | [] => True
  | SetPredictions _ :: r | SetGroundTruths _ :: r => functions_set_before_queries false r
  | SetIoUFunc _ :: r | SetAffinityFunc _ :: r => asked = false /\ functions_set_before_queries asked r
  | QueryIoU _ _ :: r | QueryAffinity _ _ :: r => functions_set_before_queries true r
  end.
End Spec.
Arguments view : clear implicits.
