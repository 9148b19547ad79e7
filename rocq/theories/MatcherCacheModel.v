(** Model of the caches of Matcher (metrics/matcher.h:110-154, matcher.cc:91-165): setters,
    IoU and LongitudinalAffinity with their mutable caches. Simplification: floats are rationals. *)
From Verif Require Import Base HungarianModel MatcherModel.
Open Scope Z_scope.

Section Cache.
Variable box : Type.

(** Calls a client can make. *)
Inductive op :=
| SetPredictions (l : list (object box))
| SetGroundTruths (l : list (object box))
| SetIoUFunc (f : box -> box -> Q)
| SetAffinityFunc (f : box -> box -> Q)
| QueryIoU (p g : nat)
| QueryAffinity (p g : nat).

(** Fields of Matcher (matcher.h:232-266). None is nullptr; [miou] starts as ComputeIoU. *)
Record state := { mpreds : option (list (object box)); mgts : option (list (object box));
                  miou : box -> box -> Q; maff : option (box -> box -> Q);
                  iou_cache : list (list Q); aff_cache : list (list Q) }.
Definition init (iou0 : box -> box -> Q) : state :=
  {| mpreds := None; mgts := None; miou := iou0; maff := None; iou_cache := []; aff_cache := [] |}.

(** Allocate on first use, look up, compute and store when the entry is negative
    (matcher.cc:99-127 and 135-164). *)
Definition cached (c : list (list Q)) (np ng p g : nat) (compute : result Q)
  : result Q * list (list Q) :=
  let c1 := match c with [] => repeat (repeat (-1 # 1)%Q ng) np | _ => c end in
  let v := nth g (nth p c1 []) 0%Q in
  if Qlt_bool v 0 then
    match compute with
    | Ok q => (Ok q, upd c1 p (upd (nth p c1 []) g q))
    | Err e => (Err e, c1)
    end
  else (Ok v, c1).

(** ValidPredictionIndex, ValidGroundTruthIndex (matcher.h:170-180) and the two objects. *)
Definition lookup (s : state) (p g : nat) : result (list (object box) * list (object box) * object box * object box) :=
  match mpreds s, mgts s with
  | Some ps, Some gs =>
      match nth_error ps p, nth_error gs g with
      | Some po, Some go => Ok (ps, gs, po, go)
      | _, _ => Err CheckFailed
      end
  | _, _ => Err CheckFailed
  end.

Definition iou_value (s : state) (po go : object box) : result Q :=
  check_unit (if Nat.eqb (otype po) (otype go) then miou s (obox po) (obox go) else 0).
Definition aff_value (f : box -> box -> Q) (po go : object box) : result Q :=
  if Nat.eqb (otype po) (otype go) then check_unit (f (obox po) (obox go)) else Ok 0%Q.

(** One call; queries produce an output. *)
Definition step (s : state) (o : op) : state * list (result Q) :=
  match o with
  | SetPredictions l =>
      ({| mpreds := Some l; mgts := mgts s; miou := miou s; maff := maff s;
          iou_cache := []; aff_cache := [] |}, [])
  | SetGroundTruths l =>
      ({| mpreds := mpreds s; mgts := Some l; miou := miou s; maff := maff s;
          iou_cache := []; aff_cache := [] |}, [])
  | SetIoUFunc f =>
      ({| mpreds := mpreds s; mgts := mgts s; miou := f; maff := maff s;
          iou_cache := iou_cache s; aff_cache := aff_cache s |}, [])
  | SetAffinityFunc f =>
      ({| mpreds := mpreds s; mgts := mgts s; miou := miou s; maff := Some f;
          iou_cache := iou_cache s; aff_cache := aff_cache s |}, [])
  | QueryIoU p g =>
      match lookup s p g with
      | Err e => (s, [Err e])
      | Ok (ps, gs, po, go) =>
          let '(r, c) := cached (iou_cache s) (length ps) (length gs) p g (iou_value s po go) in
          ({| mpreds := mpreds s; mgts := mgts s; miou := miou s; maff := maff s;
              iou_cache := c; aff_cache := aff_cache s |}, [r])
      end
  | QueryAffinity p g =>
      match lookup s p g with
      | Err e => (s, [Err e])
      | Ok (ps, gs, po, go) =>
          match maff s with
          | None => (s, [Ok 1%Q])
          | Some f =>
              let '(r, c) := cached (aff_cache s) (length ps) (length gs) p g (aff_value f po go) in
              ({| mpreds := mpreds s; mgts := mgts s; miou := miou s; maff := maff s;
                  iou_cache := iou_cache s; aff_cache := c |}, [r])
          end
      end
  end.

Fixpoint run (s : state) (ops : list op) : list (result Q) :=
  match ops with
  | [] => []
  | o :: ops' => snd (step s o) ++ run (fst (step s o)) ops'
  end.
End Cache.

Arguments SetPredictions {box}. Arguments SetGroundTruths {box}. Arguments SetIoUFunc {box}.
Arguments SetAffinityFunc {box}. Arguments QueryIoU {box}. Arguments QueryAffinity {box}.
Arguments mpreds {box}. Arguments mgts {box}. Arguments miou {box}. Arguments maff {box}.
Arguments iou_cache {box}. Arguments aff_cache {box}.
