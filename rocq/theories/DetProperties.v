(** Property C11: detection outcomes. *)
From Verif Require Import Base MotSpec MergeModel MergeSpec DetModel DetSpec DetProofs.
Open Scope Z_scope.

(** Which predictions and ground truths are counted, and as what. *)
Theorem C11_classification : forall c fr pm gm, match_ok pm gm ->
  let o := classify c fr pm gm in
  (forall p g, In (p, g) (tps o) <-> is_tp c fr pm p g) /\
  (forall p, In p (fps o) <-> is_fp c fr pm p) /\
  (forall g, In g (fns o) <-> is_fn c fr gm g) /\
  NoDup (map fst (tps o)) /\ NoDup (map snd (tps o)) /\ NoDup (fps o) /\ NoDup (fns o).
Proof.
  intros c fr pm gm H. cbv zeta. split; [exact (tp_iff c fr pm gm)|]. split; [exact (fp_iff c fr pm gm H)|].
  split; [exact (fn_iff c fr pm gm H)|]. destruct (tp_nodup c fr pm gm H), (fp_nodup c fr pm gm). auto.
Qed.
Print Assumptions C11_classification.

(** Counts never exceed the numbers of predictions and ground truths, and exhaust them without
    no-label zones, difficulty and heading filters. *)
Theorem C11_accounting : forall c fr pm gm, match_ok pm gm ->
  let o := classify c fr pm gm in
  (length (tps o) + length (fps o) <= length pm)%nat /\
  (length (tps o) + length (fns o) <= length gm)%nat /\
  (gt_only c = false -> (forall p g, (min_ha c < ha fr p g)%Q) ->
   ((forall p, nlz fr p = false) -> (length (tps o) + length (fps o) = length pm)%nat) /\
   ((forall g, diff fr g <= level c) -> (length (tps o) + length (fns o) = length gm)%nat)).
Proof.
  intros c fr pm gm H. cbv zeta. split; [exact (tp_fp_count c fr pm gm H)|]. split; [exact (tp_fn_count c fr pm gm H)|].
  intros Hg Hh. split; intros Hx; [now apply tp_fp_total|now apply tp_fn_total].
Qed.
Print Assumptions C11_accounting.

(** The weighted sums are the sums over the true positives, hence the measurement is plausible in
    the sense of C13. *)
Theorem C11_weighted_sums : forall c fr pm gm cutoff, match_ok pm gm ->
  (forall p g, (0 <= ha fr p g <= 1)%Q) -> (forall p g, (0 <= la fr p g <= 1)%Q) ->
  let o := classify c fr pm gm in
  (sum_ha o == Qsum (map (fun pg => ha fr (fst pg) (snd pg)) (tps o)))%Q /\
  (let_enabled c = true -> (sum_la o == Qsum (map (fun pg => la fr (fst pg) (snd pg)) (tps o)))%Q) /\
  (let_enabled c = false -> (sum_la o == inject_Z (Z.of_nat (length (tps o))))%Q) /\
  plausible (measure cutoff o).
Proof.
  intros c fr pm gm cutoff H Hh Hl. cbv zeta. destruct (classify_lists c fr pm gm) as (_ & _ & _ & S1 & S2).
  split; [exact S1|]. split; [intros E; now rewrite E in S2|]. split; [|now apply measure_plausible].
  intros E. rewrite E in S2. rewrite S2. generalize (tps (classify c fr pm gm)). intros l.
  induction l as [|a l IH]; [reflexivity|]. cbn [map length]. rewrite MotProofs.Qsum_cons, IH, Nat2Z.inj_succ, <- Z.add_1_l, inject_Z_plus.
  reflexivity.
Qed.
Print Assumptions C11_weighted_sums.

(** The reported counters are the numbers of true positives, false positives and false negatives. *)
Theorem C11_reported_counts : forall c fr pm gm cutoff T F N, match_ok pm gm ->
  NoDup T -> (forall p g, In (p, g) T <-> is_tp c fr pm p g) ->
  NoDup F -> (forall p, In p F <-> is_fp c fr pm p) ->
  NoDup N -> (forall g, In g N <-> is_fn c fr gm g) ->
  let m := measure cutoff (classify c fr pm gm) in
  d_tps m = Z.of_nat (length T) /\ d_fps m = Z.of_nat (length F) /\ d_fns m = Z.of_nat (length N) /\
  d_cutoff m = Some cutoff /\ d_ha m = sum_ha (classify c fr pm gm) /\ d_la m = sum_la (classify c fr pm gm).
Proof. exact reported_counts. Qed.
Print Assumptions C11_reported_counts.

(** A match whose heading accuracy is at or below the threshold is counted nowhere. *)
Theorem C11_heading_rejected_uncounted : forall c fr pm gm p g, match_ok pm gm ->
  nth_error pm p = Some (Z.of_nat g) -> (ha fr p g <= min_ha c)%Q ->
  let o := classify c fr pm gm in
  ~ In p (map fst (tps o)) /\ ~ In p (fps o) /\ ~ In g (map snd (tps o)) /\ ~ In g (fns o).
Proof. intros c fr pm gm p g H. exact (bad_heading c fr pm gm H p g). Qed.
Print Assumptions C11_heading_rejected_uncounted.

(** The difficulty level only selects false negatives; a higher level can only add some. *)
Theorem C11_level_monotone : forall c c' fr pm gm,
  gt_only c' = gt_only c -> min_ha c' = min_ha c -> let_enabled c' = let_enabled c ->
  level c <= level c' -> match_ok pm gm ->
  tps (classify c' fr pm gm) = tps (classify c fr pm gm) /\ fps (classify c' fr pm gm) = fps (classify c fr pm gm) /\
  incl (fns (classify c fr pm gm)) (fns (classify c' fr pm gm)).
Proof. exact level_mono. Qed.
Print Assumptions C11_level_monotone.

Definition ex_frame : dframe :=
  {| n_gt := 4; in_bd := fun g => negb (Nat.eqb g 3); nlz := fun p => Nat.eqb p 3; diff := fun g => if Nat.eqb g 2 then 2 else 1;
     iou := fun p g => if Nat.eqb p 4 && Nat.eqb g 3 then 1 # 2 else 0%Q;
     ha := fun p _ => if Nat.eqb p 1 then 1 # 10 else 3 # 4; la := fun _ _ => 1 # 2 |}.
Definition ex_pm := [1; 0; -1; -1; -1].
Definition ex_gm := [1; 0; -1; -1].
Example C11_nonvacuous : match_ok ex_pm ex_gm /\
  let o := classify {| gt_only := true; level := 2; min_ha := 1 # 5; let_enabled := true |} ex_frame ex_pm ex_gm in
  tps o = [(0, 1)]%nat /\ fps o = [2]%nat /\ fns o = [2]%nat.
Proof.
  split; [|repeat split; reflexivity]. split; intros i m.
  - do 6 (destruct i as [|i]; [intros [= <-]; (now left) || (right; cbn; split; [lia|reflexivity])|]). destruct i; discriminate.
  - do 5 (destruct i as [|i]; [intros [= <-]; (now left) || (right; cbn; split; [lia|reflexivity])|]). destruct i; discriminate.
Qed.
