(** Model of metrics/matcher.h and metrics/matcher.cc.
    Simplifications: float values are exact rationals; -1 entries of the match vectors are None;
    both output vectors are requested (non-null); vector indices are nat. The box type and the
    IoU / longitudinal affinity functions are parameters: the theorems hold for all of them. *)
From Verif Require Import Base ResultLib HungarianModel.
Open Scope Z_scope.

Section Matcher.
Variable box : Type.

(** Object proto (protos/metrics.proto, label.proto): the fields the matchers read. *)
Record object := { otype : nat; oscore : Q; obox : box }.

(** Constructor arguments and custom functions (matcher.h:232-250). [iou_fn] is ComputeIoU with
    the configured box type or custom_iou_func_; [affinity_fn] is Some for a matcher created
    with a LongitudinalErrorTolerantConfig (matcher.cc:55-89). *)
Record config := { thresholds : list Q; iou_fn : box -> box -> Q; affinity_fn : option (box -> box -> Q) }.

Record frame := { preds : list object; gts : list object }.

(** kMaxIoU (iou.h) is 1e6. *)
Definition kMaxIoU : Z := 1000000.
(** std::round: half away from zero. *)
Definition round_half_away (q : Q) : Z :=
  if Qle_bool 0 q then Qfloor (q + (1#2)) else - Qfloor (- q + (1#2)).
(** QuantizedWeight (matcher.h:221-223). *)
Definition quantized_weight (q : Q) : Z := round_half_away (q * inject_Z kMaxIoU).

Definition nth_result {A} (l : list A) (i : nat) (e : error) : result A :=
  match nth_error l i with Some a => Ok a | None => Err e end.

Variable cfg : config.
Variable fr : frame.

Definition check_unit (q : Q) : result Q :=
  if Qle_bool 0 q && Qle_bool q 1 then Ok q else Err CheckFailed.

(** Matcher::IoU (matcher.cc:131-165) without its cache, which MatcherCacheModel.v covers. *)
Definition iou (p g : nat) : result Q :=
  do po <- nth_result (preds fr) p CheckFailed;
  do go <- nth_result (gts fr) g CheckFailed;
  check_unit (if Nat.eqb (otype po) (otype go) then iou_fn cfg (obox po) (obox go) else 0).

(** Matcher::LongitudinalAffinity (matcher.cc:91-129) without its cache. *)
Definition affinity (p g : nat) : result Q :=
  do po <- nth_result (preds fr) p CheckFailed;
  do go <- nth_result (gts fr) g CheckFailed;
  match affinity_fn cfg with
  | None => Ok 1%Q
  | Some f => if Nat.eqb (otype po) (otype go) then check_unit (f (obox po) (obox go)) else Ok 0%Q
  end.

Definition Qlt_bool (a b : Q) : bool := negb (Qle_bool b a).

(** Matcher::CanMatch (matcher.cc:167-179) and the custom function of the longitudinal error
    tolerant matcher (matcher.cc:68-79). TYPE_UNKNOWN is 0. Indexing predictions() out of range
    is undefined behaviour in the first line; the model reports IndexError. *)
Definition can_match (p g : nat) : result bool :=
  do po <- nth_result (preds fr) p IndexError;
  if Nat.eqb (otype po) 0 then Err CheckFailed else
  match affinity_fn cfg with
  | None =>
      do v <- iou p g;
      do thr <- nth_result (thresholds cfg) (otype po) IndexError;
      Ok (negb (Qlt_bool v thr))
  | Some _ =>
      do a <- affinity p g;
      if Qeq_bool a 0 then Ok false else
      do v <- iou p g;
      do thr <- nth_result (thresholds cfg) (otype po) IndexError;
      Ok (negb (Qlt_bool v thr))
  end.

(** Matcher::MatchingWeight (matcher.cc:181-188) and the custom weight (matcher.cc:81-87). *)
Definition matching_weight (p g : nat) : result Z :=
  match affinity_fn cfg with
  | None => do v <- iou p g; Ok (quantized_weight v)
  | Some _ => do v <- iou p g; do a <- affinity p g; Ok (quantized_weight (v * a))
  end.

(** Edge weights of HungarianMatcher::Match (matcher.cc:214-229): a num_vertices^2 matrix that
    is zero outside the predictions x ground truths block. *)
Definition edge_weight (psub gsub : list nat) (i j : nat) : result Z :=
  match nth_error psub i, nth_error gsub j with
  | Some p, Some g => do c <- can_match p g; if c then matching_weight p g else Ok 0
  | _, _ => Ok 0
  end.
Definition edges (psub gsub : list nat) (n : nat) : result (list Z) :=
  do rows <- mapM (fun i => mapM (edge_weight psub gsub i) (seq 0 n)) (seq 0 n);
  Ok (concat rows).

(** One iteration of the result loop (matcher.cc:233-256). *)
Definition report (psub gsub : list nat) (matching : list (option nat))
  (pg : list (option nat) * list (option nat)) (i : nat)
  : result (list (option nat) * list (option nat)) :=
  match nth i matching None with
  | None => Err CheckFailed                                (* CHECK_GE *)
  | Some j =>
      match nth_error gsub j with
      | None => Ok (upd (fst pg) i None, snd pg)
      | Some g =>
          do p <- nth_result psub i IndexError;
          do c <- can_match p g;
          Ok (upd (fst pg) i (if c then Some j else None),
              upd (snd pg) j (if c then Some i else None))
      end
  end.

(** HungarianMatcher::Match (matcher.cc:192-257). *)
Definition hungarian_match (psub gsub : list nat) : result (list (option nat) * list (option nat)) :=
  let pm0 := repeat None (length psub) in
  let gm0 := repeat None (length gsub) in
  if Nat.eqb (length psub) 0 || Nat.eqb (length gsub) 0 then Ok (pm0, gm0) else
  let n := Nat.max (length psub) (length gsub) in
  do e <- edges psub gsub n;
  do r <- hungarian n e;
  let '(matching, _, _) := r in
  foldM (report psub gsub matching) (seq 0 (length psub)) (pm0, gm0).

(** std::vector::resize(n, -1): keeps the old contents. *)
Definition resize (l : list (option nat)) (n : nat) : list (option nat) :=
  firstn n l ++ repeat None (n - length l).

(** Inner loop of ScoreFirstMatcher::Match (matcher.cc:279-297). The weight is looked up with the
    positions inside the subsets, as in the code. *)
Definition sf_best (psub gsub : list nat) (gm : list (option nat)) (pi : nat)
  (best : option nat * Z) (gi : nat) : result (option nat * Z) :=
  match nth gi gm None with
  | Some _ => Ok best
  | None =>
      do p <- nth_result psub pi IndexError;
      do g <- nth_result gsub gi IndexError;
      do c <- can_match p g;
      if c then
        do w <- matching_weight pi gi;
        if snd best <? w then Ok (Some gi, w) else Ok best
      else Ok best
  end.
Definition sf_step (psub gsub : list nat) (pg : list (option nat) * list (option nat)) (pi : nat)
  : result (list (option nat) * list (option nat)) :=
  do b <- foldM (sf_best psub gsub (snd pg) pi) (seq 0 (length gsub)) (None, -1);
  match fst b with
  | None => Ok pg
  | Some gi => Ok (upd (fst pg) pi (Some gi), upd (snd pg) gi (Some pi))
  end.

(** ScoreFirstMatcher::Match (matcher.cc:259-303). [order] is what std::sort returns: any
    permutation of the positions sorted by descending score; [pm0] and [gm0] are the contents
    of the output vectors before the call, which resize keeps. *)
Definition score_first_match (order psub gsub : list nat) (pm0 gm0 : list (option nat))
  : result (list (option nat) * list (option nat)) :=
  foldM (sf_step psub gsub) order (resize pm0 (length psub), resize gm0 (length gsub)).
End Matcher.

Arguments otype {box}. Arguments oscore {box}. Arguments obox {box}.
Arguments thresholds {box}. Arguments iou_fn {box}. Arguments affinity_fn {box}.
Arguments preds {box}. Arguments gts {box}.
