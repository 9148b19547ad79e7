(** Model of metrics/mot.cc: one evaluation of multi object tracking over a sequence of frames.
    Tracking ids (strings) are nat. absl::flat_hash_map is an association list in insertion
    order; every loop over a map visits [iter m], where [iter] is an arbitrary permutation given
    with the frame, so theorems hold for every hash order. The matcher of a frame is represented
    by its interface: subsets, CanMatch, IoU and Match. *)
From Verif Require Import Base ResultLib MatcherModel.
Open Scope Z_scope.

Definition amap := list (nat * nat).
Fixpoint mfind (k : nat) (m : amap) : option nat :=
  match m with
  | [] => None
  | (k', v) :: m' => if Nat.eqb k k' then Some v else mfind k m'
  end.
(** emplace / insert: no effect if the key exists. *)
Definition memplace (k v : nat) (m : amap) : amap :=
  match mfind k m with Some _ => m | None => m ++ [(k, v)] end.
Definition merase (k : nat) (m : amap) : amap := filter (fun kv => negb (Nat.eqb k (fst kv))) m.
(** operator[] assignment. *)
Fixpoint mset (k v : nat) (m : amap) : amap :=
  match m with
  | [] => [(k, v)]
  | (k', v') :: m' => if Nat.eqb k k' then (k, v) :: m' else (k', v') :: mset k v m'
  end.
Definition mhas (k : nat) (m : amap) : bool := match mfind k m with Some _ => true | None => false end.
Definition keys (m : amap) : list nat := map fst m.
Definition vals (m : amap) : list nat := map snd m.

(** What MOT reads from the matcher of a frame; ids, NLZ flags and difficulty levels are indexed
    like predictions() and ground_truths(). *)
Record mframe := {
  pids : list nat; gids : list nat; pnlz : list bool; gdiff : list nat;
  psub : list nat; gsub : list nat;
  canm : nat -> nat -> result bool; iouv : nat -> nat -> result Q;
  matchf : list nat -> list nat -> result (list (option nat) * list (option nat));
  level : nat; iter : amap -> amap }.

Definition enum (l : list nat) : list (nat * nat) := combine (seq 0 (length l)) l.

(** BuildTrackingIdToDetectionBoxIndexMaps (mot.cc:36-63). *)
Definition build_pd_map (f : mframe) : result amap :=
  foldM (fun m ix => do id <- nth_result (pids f) (snd ix) IndexError; Ok (memplace id (fst ix) m))
    (enum (psub f)) [].
Definition build_gt_map (f : mframe) : result amap :=
  foldM (fun m ix => do id <- nth_result (gids f) (snd ix) IndexError;
           if mhas id m then Err CheckFailed else Ok (memplace id (fst ix) m))
    (enum (gsub f)) [].

(** TrackingMeasurement (protos/metrics.proto); details are omitted. *)
Record measurement := { misses : Z; fps : Z; mismatches : Z; matches : Z; objects_gt : Z; cost : Q }.
Definition zero_measurement : measurement :=
  {| misses := 0; fps := 0; mismatches := 0; matches := 0; objects_gt := 0; cost := 0 |}.

(** Loop body of InitializeNewMapping (mot.cc:190-209): pd_map, gt_map, new mapping, cost. *)
Definition keep_step (f : mframe) (s : amap * amap * amap * Q) (gh : nat * nat)
  : result (amap * amap * amap * Q) :=
  let '(pdm, gtm, nw, c) := s in
  match mfind (snd gh) pdm with
  | None => Ok s
  | Some pi =>
      match mfind (fst gh) gtm with
      | None => Ok s
      | Some gi =>
          do p <- nth_result (psub f) pi IndexError;
          do g <- nth_result (gsub f) gi IndexError;
          do ok <- canm f p g;
          if ok then
            do v <- iouv f p g;
            Ok (merase (snd gh) pdm, merase (fst gh) gtm, memplace (fst gh) (snd gh) nw, (c + 1 - v)%Q)
          else Ok s
      end
  end.

(** Loop over the match result (mot.cc:238-257): false positives, new pairs, cost.
    IsFP and IsTP are metrics_utils.cc:63-76. *)
Definition pd_step (f : mframe) (ps gs : list nat) (pm : list (option nat))
  (s : Z * amap * Q) (i : nat) : result (Z * amap * Q) :=
  let '(nfp, m, c) := s in
  do p <- nth_result ps i IndexError;
  match nth i pm None with
  | None => do z <- nth_result (pnlz f) p IndexError; Ok (if z then nfp else nfp + 1, m, c)
  | Some j =>
      do g <- nth_result gs j IndexError;
      do gi <- nth_result (gids f) g IndexError;
      do hi <- nth_result (pids f) p IndexError;
      do v <- iouv f p g;
      Ok (nfp, mset gi hi m, (c + 1 - v)%Q)
  end.
(** Loop over ground truths (mot.cc:259-267); IsTrackingFN is metrics_utils.cc:90-99. *)
Definition gt_step (f : mframe) (gs : list nat) (gm : list (option nat)) (s : Z * Z) (i : nat)
  : result (Z * Z) :=
  match nth i gm None with
  | Some _ => Ok s
  | None =>
      do g <- nth_result gs i IndexError;
      do d <- nth_result (gdiff f) g IndexError;
      if Nat.leb d (level f) then Ok (fst s + 1, snd s) else Ok (fst s, snd s + 1)
  end.

(** CHECK that no prediction is matched twice (mot.cc:93-99, 271-277). *)
Fixpoint nodupb (l : list nat) : bool :=
  match l with [] => true | a :: l' => negb (existsb (Nat.eqb a) l') && nodupb l' end.

(** MOT::Match (mot.cc:213-284): (num_fps, num_fns, above, pairs, cost). *)
Definition mot_match (f : mframe) (pdm gtm : amap) (c : Q) : result (Z * Z * Z * amap * Q) :=
  do ps <- mapM (fun kv => nth_result (psub f) (snd kv) IndexError) (iter f pdm);
  do gs <- mapM (fun kv => nth_result (gsub f) (snd kv) IndexError) (iter f gtm);
  do pg <- matchf f ps gs;
  do a <- foldM (pd_step f ps gs (fst pg)) (seq 0 (length (fst pg))) (0, [], c);
  do b <- foldM (gt_step f gs (snd pg)) (seq 0 (length (snd pg))) (0, 0);
  let '(nfp, m, c') := a in
  if nodupb (vals m) then Ok (nfp, fst b, snd b, m, c') else Err CheckFailed.

(** State of a MOT object (mot.h:118-127). *)
Record mot := { gt_pd : amap; pd_gt : amap; meas : measurement }.
Definition mot_init : mot := {| gt_pd := []; pd_gt := []; meas := zero_measurement |}.

(** ComputeNumMismatches (mot.cc:286-324). *)
Definition num_mismatches (f : mframe) (st : mot) (nw gtm : amap) : Z :=
  fold_left (fun acc gh =>
    let a := match mfind (fst gh) (gt_pd st) with
             | Some h => if Nat.eqb h (snd gh) then 0 else 1
             | None => 0 end in
    let b := match mfind (snd gh) (pd_gt st) with
             | Some g => if mhas g gtm then 0 else if mhas g nw then 0 else 1
             | None => 0 end in
    acc + a + b) (iter f nw) 0.

(** Update of the persistent maps (mot.cc:117-135). *)
Definition update_maps (f : mframe) (st : mot) (nw : amap) : result (amap * amap) :=
  let m1 := fold_left (fun m gh => mset (fst gh) (snd gh) m) (iter f nw) (gt_pd st) in
  let evict := flat_map (fun gh =>
    match mfind (snd gh) (pd_gt st) with
    | Some g => if mhas g nw then [] else [g]
    | None => [] end) (iter f nw) in
  let m2 := fold_left (fun m g => merase g m) evict m1 in
  do inv <- foldM (fun m gh => if mhas (snd gh) m then Err CheckFailed
                               else Ok (memplace (snd gh) (fst gh) m)) (iter f m2) [];
  Ok (m2, inv).

(** MOT::Eval (mot.cc:67-178) without details; also returns the new mapping of the frame. *)
Definition eval (st : mot) (f : mframe) : result (mot * amap) :=
  do pdm0 <- build_pd_map f;
  do gtm0 <- build_gt_map f;
  do k <- foldM (keep_step f) (iter f (gt_pd st)) (pdm0, gtm0, [], cost (meas st));
  let '(pdm, gtm, kept, c) := k in
  do r <- mot_match f pdm gtm c;
  let '(nfp, nfn, above, m, c') := r in
  let nw := fold_left (fun a gh => memplace (fst gh) (snd gh) a) (iter f m) kept in
  if negb (nodupb (vals nw)) then Err CheckFailed else
  do mm <- update_maps f st nw;
  let ms := {| misses := misses (meas st) + nfn;
               fps := fps (meas st) + nfp;
               mismatches := mismatches (meas st) + num_mismatches f st nw gtm;
               matches := matches (meas st) + Z.of_nat (length nw);
               objects_gt := objects_gt (meas st) + Z.of_nat (length (gsub f)) - above;
               cost := c' |} in
  Ok ({| gt_pd := fst mm; pd_gt := snd mm; meas := ms |}, nw).

(** Frames of a sequence in order; returns the final state and each frame's mapping. *)
Fixpoint eval_all (st : mot) (fs : list mframe) : result (mot * list amap) :=
  match fs with
  | [] => Ok (st, [])
  | f :: fs' =>
      do r <- eval st f;
      do rs <- eval_all (fst r) fs';
      Ok (fst rs, snd r :: snd rs)
  end.
