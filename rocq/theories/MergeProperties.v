(** Theorems for C10, C12, C13 and C48. *)
From Coq Require Import Permutation.
From Verif Require Import Base HungarianSpec MotSpec MergeModel MergeSpec MergeProofs.
Open Scope Z_scope.

(** Merging scenes that share breakdowns and cutoffs adds every counter up. *)
Theorem C10_merge_is_sum {D} (L : list (list (measurements (tmeas D)))) S :
  L <> [] -> S <> [] -> (forall v, In v L -> shape t_cut v = S) ->
  exists v, merge_scenes L = Ok v /\ shape t_cut v = S /\
    forall i j m, cell v i j = Some m ->
      t_misses m = zsum_cells t_misses L i j /\ t_fps m = zsum_cells t_fps L i j /\
      t_mismatches m = zsum_cells t_mismatches L i j /\ t_matches m = zsum_cells t_matches L i j /\
      t_objects m = zsum_cells t_objects L i j /\ (t_cost m == qsum_cells t_cost L i j)%Q.
Proof. exact (merge_scenes_sums L S). Qed.
Print Assumptions C10_merge_is_sum.

(** The order of the scenes, and scenes that measured nothing, do not matter. *)
Theorem C10_merge_order {D} (L L' : list (list (measurements (tmeas D)))) S :
  Permutation L L' -> (forall v, In v L -> v <> [] -> shape t_cut v = S) ->
  merge_scenes L = merge_scenes L'.
Proof. exact (merge_scenes_perm L L' S). Qed.
Print Assumptions C10_merge_order.

(** Merging groups of scenes first and the group results afterwards gives the same. *)
Theorem C10_merge_grouping {D} (L1 L2 : list (list (measurements (tmeas D)))) S :
  (forall v, In v (L1 ++ L2) -> v <> [] -> shape t_cut v = S) ->
  exists v1 v2, merge_scenes L1 = Ok v1 /\ merge_scenes L2 = Ok v2 /\
    merge_scenes (L1 ++ L2) = merge_scenes [v1; v2].
Proof. exact (merge_scenes_group L1 L2 S). Qed.
Print Assumptions C10_merge_grouping.

(** Merging is refused exactly for results that disagree on breakdowns or cutoffs. *)
Theorem C10_merge_defined {D} (a b : list (measurements (tmeas D))) :
  ((exists v, merge_scenes [a; b] = Ok v) <-> (a = [] \/ b = [] \/ Forall2 (mergeable same_cutoff) a b)) /\
  match merge_scenes [a; b] with Ok _ => True | Err e => e = CheckFailed end.
Proof. exact (merge_tracking_defined a b). Qed.
Print Assumptions C10_merge_defined.

Definition ex_t (n : Z) (c : Q) : tmeas nat :=
  {| t_misses := n; t_fps := n + 1; t_mismatches := 1; t_matches := 2 * n; t_objects := 3 * n; t_cost := inject_Z n;
     t_cutoff := c; t_details := [] |}.
Definition ex_v (n : Z) : list (measurements (tmeas nat)) :=
  [ {| bd := (1, 0, 1); ms := [ex_t n 0; ex_t (n + 1) (1 # 2)] |}; {| bd := (1, 0, 2); ms := [ex_t n 0] |} ].
Example C10_nonvacuous :
  let L := [ex_v 1; ex_v 5; ex_v 7] in let S := shape t_cut (ex_v 1) in
  L <> [] /\ S <> [] /\ (forall v, In v L -> shape t_cut v = S) /\
  match merge_scenes L with
  | Ok v => map (fun x => map t_counters (ms x)) v =
            [[[13; 16; 3; 26; 39]; [16; 19; 3; 32; 48]]; [[13; 16; 3; 26; 39]]]
  | Err _ => False end.
Proof.
  repeat split; try discriminate. intros v [<-|[<-|[<-|[]]]]; reflexivity.
Qed.
Example C10_mismatch_nonvacuous :
  merge_scenes [ex_v 1; [ {| bd := (1, 0, 1); ms := [ex_t 1 0; ex_t 1 (1 # 3)] |}; {| bd := (1, 0, 2); ms := [ex_t 1 0] |} ]]
  = Err CheckFailed.
Proof. reflexivity. Qed.

(** Merging frames adds counters and weighted sums up and, when every frame carries its own details,
    concatenates the details in frame order. *)
Theorem C12_merge_is_sum {D} (L : list (list (measurements (dmeas D)))) S :
  L <> [] -> S <> [] -> (forall v, In v L -> shape d_cutoff v = S /\ cutoffs_set d_cutoff v) ->
  exists v, merge_frames L = Ok v /\ shape d_cutoff v = S /\
    forall i j m, cell v i j = Some m ->
      d_tps m = zsum_cells d_tps L i j /\ d_fps m = zsum_cells d_fps L i j /\ d_fns m = zsum_cells d_fns L i j /\
      (d_ha m == qsum_cells d_ha L i j)%Q /\ (d_la m == qsum_cells d_la L i j)%Q /\
      ((forall w b, In w L -> cell w i j = Some b -> length (d_details b) = 1%nat) ->
       d_details m = concat_cells d_details L i j).
Proof. exact (merge_frames_sums L S). Qed.
Print Assumptions C12_merge_is_sum.

Theorem C12_merge_order {D} (L L' : list (list (measurements (dmeas D)))) S :
  Permutation L L' -> L <> [] -> S <> [] -> (forall v, In v L -> shape d_cutoff v = S /\ cutoffs_set d_cutoff v) ->
  exists v v', merge_frames L = Ok v /\ merge_frames L' = Ok v' /\ shape d_cutoff v = shape d_cutoff v' /\
    forall i j m m', cell v i j = Some m -> cell v' i j = Some m' ->
      d_counters m = d_counters m' /\ (d_ha m == d_ha m')%Q /\ (d_la m == d_la m')%Q.
Proof. exact (merge_frames_perm L L' S). Qed.
Print Assumptions C12_merge_order.

Theorem C12_merge_defined {D} (a b : list (measurements (dmeas D))) :
  ((exists v, merge_frames [a; b] = Ok v) <-> (a = [] \/ Forall2 (mergeable same_dcutoff) a b)) /\
  match merge_frames [a; b] with Ok _ => True | Err e => e = CheckFailed end.
Proof. exact (merge_detection_defined a b). Qed.
Print Assumptions C12_merge_defined.

Definition ex_d (n : Z) : dmeas Z :=
  {| d_cutoff := Some (1 # 2); d_tps := n; d_fps := 1; d_fns := 2; d_ha := 1 # 2; d_la := 1 # 4; d_details := [n] |}.
Definition ex_dv (n : Z) : list (measurements (dmeas Z)) := [ {| bd := (1, 0, 1); ms := [ex_d n] |} ].
Definition details_of (r : result (list (measurements (dmeas Z)))) : list (list (list Z)) :=
  match r with Ok v => map (fun x => map d_details (ms x)) v | Err _ => [] end.

(** A measurement without a score cutoff is neutral on both sides. *)
Theorem C12_unset_neutral {D} (a b : dmeas D) :
  (d_cutoff a = None -> merge_detection a b = Ok b) /\
  (d_cutoff a <> None -> d_cutoff b = None -> merge_detection a b = Ok a).
Proof. exact (merge_unset a b). Qed.
Print Assumptions C12_unset_neutral.

(** The details are not: merging two merged pairs of frames loses them, so grouping matters. *)
Theorem C12_details_grouping_refuted : exists a b c d v1 v2,
  merge_frames [a; b] = Ok v1 /\ merge_frames [c; d] = Ok v2 /\
  details_of (merge_frames [a; b; c; d]) = [[[1; 2; 3; 4]]] /\
  details_of (merge_frames [v1; v2]) = [[[]]].
Proof.
  exists (ex_dv 1), (ex_dv 2), (ex_dv 3), (ex_dv 4).
  eexists. eexists. split; [reflexivity|]. split; [reflexivity|]. split; reflexivity.
Qed.
Print Assumptions C12_details_grouping_refuted.

(** An empty frame result is neutral only on the left: unlike for tracking it is fatal on the right. *)
Theorem C12_empty_right_refuted : exists a : list (measurements (dmeas Z)),
  merge_frames [[]; a] = Ok a /\ merge_frames [a; []] = Err CheckFailed.
Proof. exists (ex_dv 1). split; reflexivity. Qed.
Print Assumptions C12_empty_right_refuted.

Example C12_nonvacuous :
  let L := [ex_dv 1; ex_dv 5; ex_dv 7] in let S := shape d_cutoff (ex_dv 1) in
  L <> [] /\ S <> [] /\ (forall v, In v L -> shape d_cutoff v = S /\ cutoffs_set d_cutoff v) /\
  match merge_frames L with
  | Ok v => map (fun x => map d_counters (ms x)) v = [[[13; 3; 6]]] /\ details_of (Ok v) = [[[1; 5; 7]]]
  | Err _ => False end.
Proof.
  assert (H : forall n, cutoffs_set d_cutoff (ex_dv n)).
  { intros n i j m. unfold cell, ex_dv. destruct i as [|[|i]]; cbn; try discriminate.
    destruct j as [|[|j]]; cbn; try discriminate. intros [= <-]. discriminate. }
  repeat split; try discriminate; destruct H0 as [<-|[<-|[<-|[]]]]; try reflexivity; apply H.
Qed.

(** Merging keeps measurements plausible, so the next theorem applies to merged measurements. *)
Theorem C13_plausible_preserved {D} (a b c : dmeas D) :
  plausible a -> plausible b -> merge_detection a b = Ok c -> plausible c.
Proof. exact (dadd_plausible a b c). Qed.
Print Assumptions C13_plausible_preserved.

(** Every reported precision (plain, heading weighted, longitudinal affinity weighted) and recall is in [0,1]. *)
Theorem C13_unit_interval {D} min_precision (num : dmeas D -> Q) (m : dmeas D) :
  0 <= d_tps m -> 0 <= d_fps m -> 0 <= d_fns m -> (0 <= num m <= inject_Z (d_tps m))%Q ->
  (0 <= fst (reported min_precision num m) <= 1)%Q /\ (0 <= snd (reported min_precision num m) <= 1)%Q.
Proof. exact (reported_unit min_precision num m). Qed.
Print Assumptions C13_unit_interval.

(** Exact values: without true positives the point is (precision 1, recall 0); otherwise recall is
    tps/(tps+fns) and precision is num/(tps+fps), or 0 if that is below the configured minimum. *)
Theorem C13_exact {D} min_precision num (m : dmeas D) : 0 <= d_tps m -> 0 <= d_fps m -> 0 <= d_fns m ->
  let p := fst (reported min_precision num m) in let r := snd (reported min_precision num m) in
  (d_tps m = 0 -> p = 1%Q /\ (r == 0)%Q) /\
  (0 < d_tps m ->
   (r * inject_Z (d_tps m + d_fns m) == inject_Z (d_tps m))%Q /\
   ((num m < min_precision * inject_Z (d_tps m + d_fps m))%Q -> p = 0%Q) /\
   ((min_precision * inject_Z (d_tps m + d_fps m) <= num m)%Q -> (p * inject_Z (d_tps m + d_fps m) == num m)%Q)).
Proof. exact (reported_exact min_precision num m). Qed.
Print Assumptions C13_exact.

Example C13_nonvacuous :
  plausible (ex_d 3) /\ Qred (fst (reported 0 d_ha (ex_d 3))) = (1 # 8)%Q /\ Qred (snd (reported 0 d_ha (ex_d 3))) = (3 # 5)%Q.
Proof. repeat split; cbn; try lia; unfold Qle; cbn; lia. Qed.

(** The reported tracking metrics belong to the first cutoff of largest MOTA, if that is positive. *)
Theorem C48_best_mota {D} (l : list (tmeas D)) :
  let r := to_tracking_metrics l in
  ((forall m, In m l -> t_objects m <> 0 -> (mota_of m <= 0)%Q) /\
   mota r = 0%Q /\ motp r = 0%Q /\ miss r = 0%Q /\ mismatch r = 0%Q /\ fp r = 0%Q /\ m_cutoff r = 0%Q) \/
  (exists l1 m l2, l = l1 ++ m :: l2 /\ t_objects m <> 0 /\ (0 < mota_of m)%Q /\ (mota r == mota_of m)%Q /\
   (forall x, In x l1 -> t_objects x <> 0 -> (mota_of x < mota_of m)%Q) /\
   (forall x, In x l2 -> t_objects x <> 0 -> (mota_of x <= mota_of m)%Q) /\
   miss r = ratio (t_misses m) (t_objects m) /\ fp r = ratio (t_fps m) (t_objects m) /\
   mismatch r = ratio (t_mismatches m) (t_objects m) /\ m_cutoff r = t_cutoff m /\
   motp r = if 0 <? t_matches m then (t_cost m / inject_Z (t_matches m))%Q else 0%Q).
Proof. exact (best_mota l). Qed.
Print Assumptions C48_best_mota.

(** A tracker whose best MOTA is negative is reported with MOTA, miss and false positive ratio 0. *)
Theorem C48_reported_mota_is_best_refuted : exists l : list (tmeas nat),
  l <> [] /\ (forall m, In m l -> t_objects m = 10 /\ (mota_of m < 0)%Q /\ t_misses m = 10) /\
  mota (to_tracking_metrics l) = 0%Q /\ miss (to_tracking_metrics l) = 0%Q /\ fp (to_tracking_metrics l) = 0%Q.
Proof.
  exists [ {| t_misses := 10; t_fps := 5; t_mismatches := 0; t_matches := 0; t_objects := 10; t_cost := 0; t_cutoff := 0; t_details := [] |} ].
  split; [discriminate|]. split; [intros m [<-|[]]; repeat split|repeat split].
Qed.
Print Assumptions C48_reported_mota_is_best_refuted.

Example C48_nonvacuous :
  let mk a c := {| t_misses := a; t_fps := 1; t_mismatches := 1; t_matches := 4; t_objects := 10; t_cost := 2; t_cutoff := c; t_details := @nil nat |} in
  let r := to_tracking_metrics [mk 5 0%Q; mk 3 (1 # 2)%Q; mk 3 (3 # 4)%Q; mk 7 1%Q] in
  Qred (mota r) = (1 # 2)%Q /\ m_cutoff r = (1 # 2)%Q /\ Qred (miss r) = (3 # 10)%Q /\ Qred (motp r) = (1 # 2)%Q.
Proof. repeat split. Qed.
