(** C15: the score cutoffs at which detection and tracking are evaluated.
    C49: tracking cutoffs are estimated from all the predictions. *)
From Coq Require Import Permutation.
From Verif Require Import Base HungarianSpec CutoffModel CutoffSpec CutoffProofs.
Open Scope Q_scope.

(** Exactly the desired number of cutoffs is produced, and a non-positive number is refused. *)
Theorem C15_count scores n :
  ((0 < n)%Z -> exists l, decide_cutoffs scores n = Ok l /\ Z.of_nat (length l) = n) /\
  ((n <= 0)%Z -> decide_cutoffs scores n = Err CheckFailed).
Proof. split; [exact (decide_total scores n)|exact (decide_reject scores n)]. Qed.
Print Assumptions C15_count.

(** One cutoff keeps everything non-negative; with few scores the cutoffs are uniform from 0 to 1. *)
Theorem C15_uniform scores n : (1 < n)%Z -> (Z.of_nat (length scores) <= n)%Z ->
  decide_cutoffs scores 1 = Ok [0] /\
  exists l, decide_cutoffs scores n = Ok l /\ length l = Z.to_nat n /\
    forall i, (i < Z.to_nat n)%nat -> nth i l 0 == inject_Z (Z.of_nat i) / inject_Z (n - 1).
Proof. intros H1 H2. split; [exact (decide_one scores)|exact (decide_uniform scores n H1 H2)]. Qed.
Print Assumptions C15_uniform.

(** With many scores, the cutoffs are the first score, then the scores that separate buckets of
    nearly equal, positive size (clamped to the unit interval), then 1. *)
Theorem C15_quantiles scores n : (1 < n)%Z -> (n < Z.of_nat (length scores))%Z ->
  exists sizes, length sizes = Z.to_nat (n - 1) /\ balanced sizes (Z.of_nat (length scores)) /\ (forall b, In b sizes -> 0 < b)%Z /\
    decide_cutoffs scores n = Ok (nth 0 scores 0 ::
      map (fun i => clamp01 (nth (Z.to_nat (Zsum (firstn i sizes))) scores 0)) (seq 1 (Z.to_nat (n - 2))) ++ [1]).
Proof. exact (decide_quantiles scores n). Qed.
Print Assumptions C15_quantiles.
Theorem C15_clamp s : (0 <= clamp01 s <= 1) /\ (0 <= s <= 1 -> clamp01 s == s).
Proof. split; [exact (clamp_bounds s)|exact (clamp_id s)]. Qed.
Print Assumptions C15_clamp.

(** For scores in the unit interval the cutoffs are ascending and in the unit interval. *)
Theorem C15_ascending scores n l : ascending scores -> unit_scores scores ->
  decide_cutoffs scores n = Ok l -> ascending l /\ forall c, In c l -> 0 <= c <= 1.
Proof. exact (decide_ascending scores n l). Qed.
Print Assumptions C15_ascending.
(** The first cutoff is not clamped: scores above 1 give cutoffs that are not ascending. *)
Theorem C15_ascending_refuted : exists scores l, ascending scores /\ decide_cutoffs scores 3 = Ok l /\ ~ ascending l.
Proof.
  exists [2;2;2;2], [2;1;1]. split; [repeat constructor; discriminate|]. split; [reflexivity|].
  intros H. inversion H as [|a b H1 H2]; subst. rewrite Forall_forall in H2. specialize (H2 1 (or_introl eq_refl)). now apply H2.
Qed.
Print Assumptions C15_ascending_refuted.

(** Detection: the cutoffs are decided from the sorted scores of all predictions of all frames. *)
Theorem C15_detection pds n : (0 < n)%Z ->
  exists all cutoffs, Permutation all (concat pds) /\ ascending all /\
    estimate_detection [] n pds (length pds) = Ok cutoffs /\ decide_cutoffs all n = Ok cutoffs /\ Z.of_nat (length cutoffs) = n.
Proof. exact (estimate_detection_ok pds n). Qed.
Print Assumptions C15_detection.

(** C49. The scores collected for tracking are those of all predictions exactly when the number of
    frames of scene f happens to equal the number of predictions of frame f of every scene. *)
Theorem C49_collected_iff pds : collect_scores pds = Ok (concat (map (@concat Q) pds)) <-> bounds_right pds.
Proof. exact (collect_scores_iff pds). Qed.
Print Assumptions C49_collected_iff.
Theorem C49_tracking pds n : (0 < n)%Z -> pds <> [] -> bounds_right pds ->
  exists all cutoffs, Permutation all (concat (map (@concat Q) pds)) /\ ascending all /\
    estimate_tracking [] n pds (length pds) = Ok cutoffs /\ decide_cutoffs all n = Ok cutoffs /\ Z.of_nat (length cutoffs) = n.
Proof. exact (estimate_tracking_ok pds n). Qed.
Print Assumptions C49_tracking.

(** Cutoffs already given are used as they are for tracking and refused for detection. *)
Theorem C49_given_cutoffs pds n num_gts existing :
  (length pds <> num_gts -> estimate_tracking existing n pds num_gts = Err CheckFailed) /\
  (length pds = num_gts -> pds = [] -> estimate_tracking existing n pds num_gts = Ok []) /\
  (length pds = num_gts -> pds <> [] -> existing <> [] -> estimate_tracking existing n pds num_gts = Ok existing) /\
  (length pds = num_gts -> pds <> [] -> existing = [] -> (n <= 0)%Z -> estimate_tracking existing n pds num_gts = Err CheckFailed) /\
  (forall scores, existing <> [] \/ length scores <> num_gts -> estimate_detection existing n scores num_gts = Err CheckFailed).
Proof. exact (given_cutoffs pds n num_gts existing). Qed.
Print Assumptions C49_given_cutoffs.
(** Otherwise predictions are dropped from the estimate, or memory is read out of range. *)
Theorem C49_all_predictions_refuted :
  (exists pds cutoffs cutoffs', estimate_tracking [] 3 pds (length pds) = Ok cutoffs /\
     decide_cutoffs (sort (concat (map (@concat Q) pds))) 3 = Ok cutoffs' /\ cutoffs <> cutoffs') /\
  (exists pds, estimate_tracking [] 3 pds (length pds) = Err IndexError /\
     exists cutoffs', decide_cutoffs (sort (concat (map (@concat Q) pds))) 3 = Ok cutoffs').
Proof.
  split.
  - exists [[[1#5;2#5;3#5;4#5]]], [0;(0 + (1/2));1], [1#5;3#5;1]. split; [reflexivity|]. split; [reflexivity|]. discriminate.
  - exists [[[1#5;2#5];[3#5;4#5]]]. split; [reflexivity|]. exists [1#5;3#5;1]. reflexivity.
Qed.
Print Assumptions C49_all_predictions_refuted.

Example C15_nonvacuous : decide_cutoffs [1#10;2#10;3#10;4#10;5#10;6#10;7#10] 4 = Ok [1#10;3#10;5#10;1].
Proof. reflexivity. Qed.
Example C49_nonvacuous : bounds_right [[[1#2;1#3];[1#4]];[[1#5;1#6]]] /\
  estimate_tracking [] 1 [[[1#2;1#3];[1#4]];[[1#5;1#6]]] 2 = Ok [0].
Proof.
  split; [|reflexivity]. intros [|[|s]] scene [|[|f]] frame E1 E2; cbn in E1; try (destruct s; discriminate);
    inversion E1; subst scene; cbn in E2; try (destruct f; discriminate); inversion E2; subst frame; cbn; eexists; (split; reflexivity).
Qed.
