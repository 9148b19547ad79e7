(** Model of the choice of score cutoffs: metrics/metrics_utils.cc, metrics/detection_metrics.cc and
    metrics/tracking_metrics.cc. Scores are exact rationals. *)
From Coq Require Import Qround.
From Verif Require Import Base ResultLib.
Open Scope Q_scope.

Definition Qlt_bool (a b : Q) : bool := negb (Qle_bool b a).
(** Sequence (metrics_utils.cc:193-206). The fuel is shown to suffice. *)
Fixpoint seq_loop (fuel : nat) (start stop delta : Q) : result (list Q) :=
  if Qlt_bool start stop then
    match fuel with
    | O => Err OutOfFuel
    | S n => do l <- seq_loop n (start + delta) stop delta; Ok (start :: l)
    end
  else Ok [].
Definition sequence (start stop delta : Q) : result (list Q) :=
  do l <- seq_loop (Z.to_nat (Qceiling ((stop - start) / delta))) start stop delta;
  match rev l with
  | [] => Ok l
  | b :: _ => Ok (if Qlt_bool (delta * (1 # 2)) (stop - b) then l ++ [stop] else l)
  end.

(** std::max(0.0f, std::min(1.0f, s)): std::max(a,b) is b if a < b, std::min(a,b) is b if b < a. *)
Definition clamp01 (s : Q) : Q :=
  let m := if Qlt_bool s 1 then s else 1 in if Qlt_bool 0 m then m else 0.

(** Bucket sizes (metrics_utils.cc:222-227): [remaining] scores for [k] buckets. *)
Fixpoint bucket_sizes (k : nat) (remaining : Z) : list Z :=
  match k with
  | O => []
  | S k' => let b := (remaining / Z.of_nat k)%Z in b :: bucket_sizes k' (remaining - b)%Z
  end.
(** Loop over all but the last bucket (metrics_utils.cc:233-237). *)
Fixpoint pick (scores : list Q) (last_idx : Z) (sizes : list Z) : result (list Q) :=
  match sizes with
  | [] => Ok []
  | b :: sizes' =>
      let idx := (last_idx + b)%Z in
      match nth_error scores (Z.to_nat idx) with
      | None => Err IndexError
      | Some s => do l <- pick scores idx sizes'; Ok (clamp01 s :: l)
      end
  end.
(** DecideScoreCutoffs (metrics_utils.cc:209-243). *)
Definition decide_cutoffs (scores : list Q) (n : Z) : result (list Q) :=
  if (n <=? 0)%Z then Err CheckFailed else
  if (n =? 1)%Z then Ok [0] else
  let num := Z.of_nat (length scores) in
  if (num <=? n)%Z then sequence 0 1 (1 / inject_Z (n - 1)) else
  let num_buckets := Z.to_nat (n - 1) in
  let sizes := bucket_sizes num_buckets num in
  match scores with
  | [] => Err IndexError
  | s0 :: _ =>
      do l <- pick scores 0 (firstn (num_buckets - 1) sizes);
      let cutoffs := s0 :: l ++ [1] in
      if (Z.of_nat (length cutoffs) =? n)%Z then Ok cutoffs else Err CheckFailed
  end.

(** std::sort, as insertion sort; equal floats are indistinguishable. *)
Fixpoint insert (x : Q) (l : list Q) : list Q :=
  match l with [] => [x] | y :: l' => if Qle_bool x y then x :: l else y :: insert x l' end.
Definition sort (l : list Q) : list Q := fold_right insert [] l.

(** EstimateScoreCutoffs for detection (detection_metrics.cc:458-481). [pds] holds the scores of the
    predictions of each frame; [num_gts] is the number of ground truth frames. *)
Definition estimate_detection (existing : list Q) (n : Z) (pds : list (list Q)) (num_gts : nat) : result (list Q) :=
  if negb (Nat.eqb (length pds) num_gts) then Err CheckFailed else
  match existing with
  | _ :: _ => Err CheckFailed
  | [] => decide_cutoffs (sort (concat pds)) n
  end.

(** The loops of EstimateScoreCutoffs for tracking (tracking_metrics.cc:302-311): the innermost bound
    is [pds[frame_idx].size()], a number of frames, instead of the number of predictions of the
    frame. Out-of-range vector access, undefined behaviour in C++, is an error value. *)
Fixpoint collect_pds (scores : list Q) (k i : nat) : result (list Q) :=
  match k with
  | O => Ok []
  | S k' => match nth_error scores i with
            | None => Err IndexError
            | Some s => do l <- collect_pds scores k' (S i); Ok (s :: l)
            end
  end.
Fixpoint collect_frames (pds : list (list (list Q))) (frames : list (list Q)) (frame_idx : nat) : result (list Q) :=
  match frames with
  | [] => Ok []
  | f :: frames' =>
      match nth_error pds frame_idx with
      | None => Err IndexError
      | Some scene =>
          do a <- collect_pds f (length scene) 0;
          do l <- collect_frames pds frames' (S frame_idx);
          Ok (a ++ l)
      end
  end.
Definition collect_scores (pds : list (list (list Q))) : result (list Q) :=
  do l <- mapM (fun scene => collect_frames pds scene 0) pds; Ok (concat l).
(** EstimateScoreCutoffs for tracking (tracking_metrics.cc:292-322). *)
Definition estimate_tracking (existing : list Q) (n : Z) (pds : list (list (list Q))) (num_gts : nat) : result (list Q) :=
  if negb (Nat.eqb (length pds) num_gts) then Err CheckFailed else
  match pds with
  | [] => Ok []
  | _ =>
      match existing with
      | _ :: _ => Ok existing
      | [] =>
          if (n <=? 0)%Z then Err CheckFailed else
          do scores <- collect_scores pds;
          decide_cutoffs (sort scores) n
      end
  end.
