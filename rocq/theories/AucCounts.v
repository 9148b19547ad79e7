From Coq Require Import Reals List Bool Arith Lra Lia Permutation.
From Verif Require Import Base ResultLib GeomModel GeomBase WayModel AucModel AucProofs.
From Verif Require Import AucSpec.
Import ListNotations.
Open Scope R_scope.

(** ** Numbers of cells *)
Lemma number_nonneg f l : 0 <= number f l.
Proof. apply pos_INR. Qed.
Lemma number_cons f c l : number f (c :: l) = (if f c then 1 else 0) + number f l.
Proof. unfold number. cbn [filter]. destruct (f c); [|lra]. cbn [length]. rewrite S_INR. lra. Qed.
Lemma number_ext f g l : (forall c, In c l -> f c = g c) -> number f l = number g l.
Proof. intros E. unfold number. now rewrite (filter_ext_in f g l E). Qed.
Lemma number_le f g l : (forall c, In c l -> f c = true -> g c = true) -> number f l <= number g l.
Proof.
  induction l as [|c l I]; intros E; [right; reflexivity|]. rewrite !number_cons.
  assert (I' := I (fun d D => E d (or_intror D))). specialize (E c (or_introl eq_refl)).
  destruct (f c); [rewrite E by reflexivity; lra|]. destruct (g c); lra.
Qed.
Lemma number_zero f l : number f l = 0 <-> forall c, In c l -> f c = false.
Proof.
  induction l as [|c l I]; [split; [intros _ c []|reflexivity]|]. rewrite number_cons. pose proof (number_nonneg f l) as N. split.
  - intros E d [<-|D]; [destruct (f c); [lra|reflexivity]|]. apply I; [destruct (f c); lra|exact D].
  - intros E. rewrite (E c (or_introl eq_refl)), (proj2 I); [lra|]. intros d D. apply E. now right.
Qed.
Lemma number_and f g l : number (fun c => f c && g c) l = number f l <-> forall c, In c l -> f c = true -> g c = true.
Proof.
  induction l as [|c l I]; [split; [intros _ c []|reflexivity]|]. rewrite !number_cons.
  assert (N : number (fun c => f c && g c) l <= number f l). { apply number_le. intros d _. now destruct (f d). }
  split.
  - intros E d [<-|D] F.
    + rewrite F in E. destruct (g c); [reflexivity|]. cbn [andb] in E. lra.
    + apply (proj1 I); [|exact D|exact F]. destruct (f c); [destruct (g c); cbn [andb] in E; lra|cbn [andb] in E; lra].
  - intros E. rewrite (proj2 I) by (intros d D; apply E; now right). specialize (E c (or_introl eq_refl)).
    destruct (f c); [rewrite E by reflexivity; reflexivity|reflexivity].
Qed.
Lemma number_split f l : number f l + number (fun c => negb (f c)) l = INR (length l).
Proof.
  induction l as [|c l I]; [unfold number; cbn; lra|]. rewrite !number_cons. cbn [length]. rewrite S_INR. destruct (f c); cbn [negb]; lra.
Qed.
Lemma number_perm f l l' : Permutation l l' -> number f l = number f l'.
Proof. intros P. induction P; rewrite ?number_cons; lra. Qed.

(** ** Levels *)
Lemma above_mono i c : above (S i) c = true -> above i c = true.
Proof.
  unfold above. destruct i as [|i]; [reflexivity|]. cbn [Nat.eqb orb]. intros E. apply andb_true_iff in E as [A B].
  apply Nat.ltb_lt in A. rewrite (proj2 (Nat.ltb_lt (S i) 99)) by lia. cbn [andb].
  destruct (Rlt_dec (INR (S (S i)) / 99) (snd c)) as [L|]; [|discriminate]. destruct Rlt_dec as [|N]; [reflexivity|].
  exfalso. apply N. rewrite S_INR in L. lra.
Qed.
Lemma above_down j i c : (i <= j)%nat -> above j c = true -> above i c = true.
Proof. induction 1 as [|j H I]; [auto|]. intros E. apply I. now apply above_mono. Qed.
Lemma above_first c : above 0 c = true.
Proof. reflexivity. Qed.
Lemma above_last c : above 99 c = false.
Proof. reflexivity. Qed.
Lemma above_between k c : (1 <= k <= 98)%nat -> above k c = true <-> INR k / 99 < snd c.
Proof.
  intros K. unfold above. rewrite (proj2 (Nat.eqb_neq k 0)) by lia. rewrite (proj2 (Nat.ltb_lt k 99)) by lia. cbn [orb andb].
  destruct Rlt_dec; split; intros; auto; discriminate.
Qed.
Lemma label_occupied c : label (fst c) = occupied c.
Proof. unfold label, occupied. now destruct Req_EM_T. Qed.
Lemma threshold_above i c : (i <= 99)%nat -> predicted c -> rltb (threshold i) (snd c) = above i c.
Proof.
  intros L [P Q]. unfold threshold, above. destruct (Nat.eqb_spec i 0) as [E|N].
  - cbn [orb]. apply rltb_iff. unfold epsilon. lra.
  - cbn [orb]. change (num_thresholds - 1)%nat with 99%nat. destruct (Nat.eqb_spec i 99) as [E|M].
    + rewrite E. cbn [Nat.ltb Nat.leb andb]. apply rltb_false. unfold epsilon. lra.
    + rewrite (proj2 (Nat.ltb_lt i 99)) by lia. cbn [andb]. unfold rltb.
      replace (INR 99) with 99 by (rewrite INR_IZR_INZ; reflexivity). reflexivity.
Qed.

Definition all_predicted (l : list (R * R)) : Prop := forall c, In c l -> predicted c.
Section Cells.
Variable l : list (R * R).
Hypothesis A : all_predicted l.
Lemma tp_hits i : (i <= 99)%nat -> true_positives l i = hits l i.
Proof. intros L. unfold true_positives, hits. apply (number_ext _ _ l). intros c C. rewrite label_occupied, threshold_above by auto. reflexivity. Qed.
Lemma fp_alarms i : (i <= 99)%nat -> false_positives l i = alarms l i.
Proof. intros L. unfold false_positives, alarms. apply (number_ext _ _ l). intros c C. rewrite label_occupied, threshold_above by auto. reflexivity. Qed.
Lemma tp_fn i : true_positives l i + false_negatives l i = number occupied l.
Proof.
  change (number (fun c => label (fst c) && rltb (threshold i) (snd c)) l + number (fun c => label (fst c) && negb (rltb (threshold i) (snd c))) l = number occupied l).
  clear A. induction l as [|c m I]; [unfold number; cbn; lra|]. rewrite !number_cons, <- I, label_occupied.
  destruct (occupied c); cbn [andb]; [|lra]. destruct (rltb (threshold i) (snd c)); cbn [negb]; lra.
Qed.
End Cells.
Lemma hits_first l : hits l 0 = number occupied l.
Proof. unfold hits. apply number_ext. intros c _. now rewrite above_first, andb_true_r. Qed.
Lemma hits_last l : hits l 99 = 0.
Proof. unfold hits. apply number_zero. intros c _. now rewrite above_last, andb_false_r. Qed.
Lemma alarms_last l : alarms l 99 = 0.
Proof. unfold alarms. apply number_zero. intros c _. now rewrite above_last, andb_false_r. Qed.
Lemma hits_down l j i : (i <= j)%nat -> hits l j <= hits l i.
Proof.
  intros L. unfold hits. apply number_le. intros c _ E. apply andb_true_iff in E as [E F]. rewrite E.
  now rewrite (above_down j i c L F).
Qed.
Lemma alarms_down l j i : (i <= j)%nat -> alarms l j <= alarms l i.
Proof.
  intros L. unfold alarms. apply number_le. intros c _ E. apply andb_true_iff in E as [E F]. rewrite E.
  now rewrite (above_down j i c L F).
Qed.
Lemma hits_all l i : hits l i = number occupied l <-> forall c, In c l -> occupied c = true -> above i c = true.
Proof. apply number_and. Qed.
Lemma alarms_none l i : alarms l i = 0 <-> forall c, In c l -> occupied c = false -> above i c = false.
Proof.
  unfold alarms. rewrite number_zero. split; intros E c C.
  - intros O. specialize (E c C). rewrite O in E. exact E.
  - specialize (E c C). destruct (occupied c); [reflexivity|]. now apply E.
Qed.

(** ** Sums *)
Lemma sum_telescope f n k : reduce_sum (map (fun i => f i - f (S i)) (seq k n)) = f k - f (k + n)%nat.
Proof.
  revert k. induction n as [|n I]; intros k; cbn [seq map reduce_sum fold_right]; [rewrite Nat.add_0_r; ring|].
  fold (reduce_sum (map (fun i => f i - f (S i)) (seq (S k) n))). rewrite I. replace (S k + n)%nat with (k + S n)%nat by lia. ring.
Qed.
Lemma sum_cons x l : reduce_sum (x :: l) = x + reduce_sum l.
Proof. reflexivity. Qed.
Lemma sum_le (f g : nat -> R) l : (forall i, In i l -> f i <= g i) -> reduce_sum (map f l) <= reduce_sum (map g l).
Proof.
  induction l as [|i l I]; intros E; [right; reflexivity|]. cbn [map]. rewrite !sum_cons.
  pose proof (E i (or_introl eq_refl)). pose proof (I (fun j J => E j (or_intror J))). lra.
Qed.
Lemma sum_le_eq (f g : nat -> R) l : (forall i, In i l -> f i <= g i) ->
  reduce_sum (map f l) = reduce_sum (map g l) <-> forall i, In i l -> f i = g i.
Proof.
  induction l as [|i l I]; intros E; [split; [intros _ i []|reflexivity]|]. cbn [map]. rewrite !sum_cons.
  pose proof (E i (or_introl eq_refl)) as E1. assert (E2 := fun j J => E j (or_intror J)). pose proof (sum_le f g l E2) as E3. split.
  - intros Su j [<-|J]; [lra|]. apply (proj1 (I E2)); [lra|exact J].
  - intros Su. rewrite (Su i (or_introl eq_refl)), (proj2 (I E2)); [reflexivity|]. intros j J. apply Su. now right.
Qed.
Lemma sum_zero (f : nat -> R) l : (forall i, In i l -> f i = 0) -> reduce_sum (map f l) = 0.
Proof.
  induction l as [|i l I]; intros E; [reflexivity|]. cbn [map]. rewrite sum_cons, (E i (or_introl eq_refl)), I; [lra|].
  intros j J. apply E. now right.
Qed.
Lemma sum_single (f : nat -> R) l i : NoDup l -> In i l -> (forall j, In j l -> j <> i -> f j = 0) -> reduce_sum (map f l) = f i.
Proof.
  induction 1 as [|j l N D I]; intros H E; [destruct H|]. cbn [map]. rewrite sum_cons. destruct H as [->|H].
  - rewrite sum_zero; [lra|]. intros j J. apply E; [now right|]. intros ->. contradiction.
  - rewrite (E j (or_introl eq_refl)) by (intros ->; contradiction). rewrite I; auto; [lra|]. intros k K. apply E. now right.
Qed.
Lemma sum_scale (f : nat -> R) c l : reduce_sum (map (fun i => f i / c) l) = reduce_sum (map f l) / c.
Proof. induction l as [|i l I]; cbn [map]; [unfold reduce_sum; cbn; unfold Rdiv; ring|]. rewrite !sum_cons, I. unfold Rdiv. ring. Qed.
Lemma step_at (f : nat -> R) P n : f 0%nat = P -> f n <> P -> exists i, (i < n)%nat /\ f i = P /\ f (S i) <> P.
Proof.
  induction n as [|n I]; intros E N; [contradiction|]. destruct (Req_dec (f n) P) as [F|F].
  - exists n. auto.
  - destruct (I E F) as (i & L & G). exists i. split; [lia|exact G].
Qed.

(** ** The value *)
Definition level_part (l : list (R * R)) (i : nat) : R := part (hits l (S i)) (alarms l (S i)) (hits l i) (alarms l i).
Lemma hits_nonneg l i : 0 <= hits l i. Proof. apply number_nonneg. Qed.
Lemma alarms_nonneg l i : 0 <= alarms l i. Proof. apply number_nonneg. Qed.
Lemma level_range l i : 0 <= level_part l i <= hits l i - hits l (S i).
Proof. apply part_range; try apply number_nonneg; [apply hits_down|apply alarms_down]; lia. Qed.
Lemma level_cases l i : hits l (S i) < hits l i -> 0 < level_part l i <= hits l i - hits l (S i) /\ (level_part l i = hits l i - hits l (S i) <-> alarms l i = 0).
Proof. intros L. apply part_cases; try apply number_nonneg; [apply hits_down|apply alarms_down|]; auto; lia. Qed.
Lemma level_flat l i : hits l i = hits l (S i) -> level_part l i = 0.
Proof. apply part_flat. Qed.
Lemma value_eq l : all_predicted l -> auc_value l = divide_no_nan (reduce_sum (map (level_part l) (seq 0 99))) (number occupied l).
Proof.
  intros A. unfold auc_value. change (num_thresholds - 1)%nat with 99%nat.
  assert (E : forall i, In i (seq 0 99) -> increment (true_positives l) (false_positives l) (false_negatives l) i = divide_no_nan (level_part l i) (number occupied l)).
  { intros i I. apply in_seq in I. unfold increment. rewrite (tp_fn l), (Rmax_left (number occupied l) 0) by apply number_nonneg.
    rewrite !(tp_hits l A), !(fp_alarms l A) by lia. reflexivity. }
  rewrite (map_ext_in _ _ _ E). unfold divide_no_nan. destruct (Req_EM_T (number occupied l) 0) as [Z|Z].
  - apply sum_zero. reflexivity.
  - apply sum_scale.
Qed.
Lemma parts_range l : 0 <= reduce_sum (map (level_part l) (seq 0 99)) <= number occupied l.
Proof.
  split.
  - rewrite <- (sum_zero (fun _ => 0) (seq 0 99)) by reflexivity. apply sum_le. intros i _. apply level_range.
  - pose proof (sum_telescope (hits l) 99 0) as T. cbn [Nat.add] in T. rewrite hits_first, hits_last, Rminus_0_r in T. rewrite <- T. apply sum_le. intros i _. apply level_range.
Qed.
Lemma value_range l : all_predicted l -> 0 <= auc_value l <= 1.
Proof.
  intros A. rewrite (value_eq l A). unfold divide_no_nan. destruct Req_EM_T as [Z|Z]; [lra|].
  pose proof (parts_range l) as [P Q]. pose proof (number_nonneg occupied l). split.
  - apply Rmult_le_pos; [exact P|]. left. apply Rinv_0_lt_compat. lra.
  - apply (Rmult_le_reg_r (number occupied l)); [lra|]. unfold Rdiv. rewrite Rmult_assoc, Rinv_l by exact Z. lra.
Qed.
Lemma value_zero l : all_predicted l -> auc_value l = 0 <-> forall c, In c l -> occupied c = false.
Proof.
  intros A. rewrite <- number_zero, (value_eq l A). unfold divide_no_nan. destruct Req_EM_T as [Z|Z]; [tauto|]. split; [|contradiction].
  intros E. exfalso. assert (Su : reduce_sum (map (level_part l) (seq 0 99)) = 0).
  { apply (Rmult_eq_reg_r (/ number occupied l)); [|now apply Rinv_neq_0_compat]. rewrite Rmult_0_l. exact E. }
  destruct (step_at (hits l) (number occupied l) 99 (hits_first l)) as (i & L & I & J). { rewrite hits_last. auto. }
  assert (H : hits l (S i) < hits l i). { pose proof (hits_down l (S i) i ltac:(lia)). rewrite I in *. destruct (Rle_lt_or_eq_dec _ _ H); auto. contradiction. }
  destruct (level_cases l i H) as [[P _] _].
  rewrite <- (sum_zero (fun _ => 0) (seq 0 99)) in Su by reflexivity. symmetry in Su. rewrite sum_le_eq in Su by (intros j _; apply level_range).
  specialize (Su i). rewrite <- Su in P; [lra|]. apply in_seq. lia.
Qed.
Lemma value_one l : all_predicted l -> (exists c, In c l /\ occupied c = true) ->
  auc_value l = 1 <->
  (forall c, In c l -> occupied c = true) \/ exists k, (1 <= k <= 98)%nat /\ forall c, In c l -> occupied c = true <-> INR k / 99 < snd c.
Proof.
  intros A (w & W & O).
  assert (Z : number occupied l <> 0). { rewrite number_zero. intros N. rewrite (N w W) in O. discriminate. }
  assert (V : auc_value l = 1 <-> forall i, In i (seq 0 99) -> level_part l i = hits l i - hits l (S i)).
  { rewrite <- sum_le_eq by (intros i _; apply level_range). rewrite sum_telescope. cbn [Nat.add]. rewrite hits_first, hits_last, Rminus_0_r, (value_eq l A).
    unfold divide_no_nan. destruct Req_EM_T; [contradiction|]. split; intros E.
    - apply (Rmult_eq_reg_r (/ number occupied l)); [|now apply Rinv_neq_0_compat]. rewrite Rinv_r by exact Z. exact E.
    - rewrite E. unfold Rdiv. now rewrite Rinv_r. }
  rewrite V. clear V. split.
  - intros V. destruct (step_at (hits l) (number occupied l) 99 (hits_first l)) as (i & L & I & J). { rewrite hits_last. auto. }
    assert (H : hits l (S i) < hits l i). { pose proof (hits_down l (S i) i ltac:(lia)). rewrite I in *. destruct (Rle_lt_or_eq_dec _ _ H); auto. contradiction. }
    destruct (level_cases l i H) as [_ N]. pose proof (proj1 N (V i ltac:(apply in_seq; lia))) as F.
    rewrite alarms_none in F. rewrite hits_all in I. destruct (Nat.eq_dec i 0) as [->|D].
    + left. intros c C. specialize (F c C). destruct (occupied c); [reflexivity|]. specialize (F eq_refl). discriminate.
    + right. exists i. split; [lia|]. intros c C. rewrite <- above_between by lia. split; [now apply I|].
      intros T. destruct (occupied c) eqn:Oc; [reflexivity|]. rewrite (F c C Oc) in T. discriminate.
  - intros [F|(k & K & F)] i I; apply in_seq in I.
    + destruct (Rle_lt_or_eq_dec _ _ (hits_down l (S i) i ltac:(lia))) as [L|L]; [|rewrite level_flat by auto; lra].
      apply level_cases; [exact L|]. apply alarms_none. intros c C N. rewrite (F c C) in N. discriminate.
    + destruct (Rle_lt_or_eq_dec _ _ (hits_down l (S i) i ltac:(lia))) as [L|L]; [|rewrite level_flat by auto; lra].
      apply level_cases; [exact L|]. destruct (le_lt_dec k i) as [M|M].
      * assert (Ak : alarms l k = 0). { apply alarms_none. intros c C N. destruct (above k c) eqn:T; [|reflexivity]. rewrite above_between, <- F in T by auto. congruence. }
        pose proof (alarms_down l i k M). pose proof (alarms_nonneg l i). lra.
      * exfalso. assert (T : forall j, (j <= k)%nat -> hits l j = number occupied l).
        { intros j J. apply hits_all. intros c C Oc. apply (above_down k j c J). apply above_between; [exact K|]. now apply F. }
        rewrite !T in L by lia. lra.
Qed.
Lemma value_blind l : all_predicted l -> l <> [] -> (forall c d, In c l -> In d l -> same_levels (snd c) (snd d)) -> auc_value l = share l.
Proof.
  intros A N B. rewrite (value_eq l A). unfold divide_no_nan. destruct Req_EM_T as [Z|Z].
  { unfold share. rewrite Z. unfold Rdiv. ring. }
  destruct l as [|w m] eqn:El; [contradiction|]. rewrite <- El in *. assert (W : In w l) by (rewrite El; now left).
  assert (U : forall k c, (k <= 99)%nat -> In c l -> above k c = above k w).
  { intros k c K C. destruct (Nat.eq_dec k 0) as [->|]; [reflexivity|]. destruct (Nat.eq_dec k 99) as [->|]; [reflexivity|].
    apply eq_iff_eq_true. rewrite !above_between by lia. apply B; auto. lia. }
  destruct (step_at (hits l) (number occupied l) 99 (hits_first l)) as (i & L & I & J). { rewrite hits_last. auto. }
  assert (T1 : above i w = true).
  { destruct (above i w) eqn:T; [reflexivity|]. exfalso. apply Z. rewrite <- I. apply number_zero. intros c C. rewrite (U i c) by (auto; lia). rewrite T. apply andb_false_r. }
  assert (T2 : above (S i) w = false).
  { destruct (above (S i) w) eqn:T; [|reflexivity]. exfalso. apply J. apply hits_all. intros c C _. rewrite (U (S i) c) by (auto; lia). exact T. }
  assert (H2 : forall j, (S i <= j <= 99)%nat -> hits l j = 0 /\ alarms l j = 0).
  { intros j K. assert (T : above j w = false). { destruct (above j w) eqn:T; [|reflexivity]. rewrite (above_down j (S i) w) in T2 by (auto; lia). discriminate. }
    split; apply number_zero; intros c C; rewrite (U j c) by (auto; lia); rewrite T; apply andb_false_r. }
  assert (H1 : forall j, (j <= i)%nat -> hits l j = number occupied l).
  { intros j K. apply hits_all. intros c C _. rewrite (U j c) by (auto; lia). apply (above_down i j w K T1). }
  rewrite (sum_single _ _ i (seq_NoDup 99 0)); [|apply in_seq; lia|].
  - destruct (H2 (S i) ltac:(lia)) as [Hh Ha].
    assert (Al : alarms l i = number (fun c => negb (occupied c)) l).
    { apply number_ext. intros c C. rewrite (U i c) by (auto; lia). now rewrite T1, andb_true_r. }
    unfold level_part. rewrite Hh, Ha, Al, (H1 i (le_n i)). pose proof (number_nonneg occupied l) as Np.
    assert (Lp : INR (length l) <> 0) by (rewrite El; cbn [length]; apply not_0_INR; lia).
    rewrite part_first; try lra; try apply number_nonneg.
    rewrite number_split. unfold share. field. auto.
  - intros j K D. apply in_seq in K. apply level_flat. destruct (le_lt_dec i j) as [M|M].
    + destruct (H2 j ltac:(lia)) as [-> _]. destruct (H2 (S j) ltac:(lia)) as [-> _]. reflexivity.
    + rewrite (H1 j), (H1 (S j)) by lia. reflexivity.
Qed.
Lemma value_perm l l' : Permutation l l' -> auc_value l = auc_value l'.
Proof.
  intros P. unfold auc_value. f_equal. apply map_ext. intros i. unfold increment.
  assert (T : forall j, true_positives l j = true_positives l' j) by (intros j; apply (number_perm _ l l' P)).
  assert (F : forall j, false_positives l j = false_positives l' j) by (intros j; apply (number_perm _ l l' P)).
  assert (G : forall j, false_negatives l j = false_negatives l' j) by (intros j; apply (number_perm _ l l' P)).
  now rewrite !T, !F, !G.
Qed.
Lemma value_levels l l' : all_predicted l -> all_predicted l' ->
  Forall2 (fun c d => occupied c = occupied d /\ same_levels (snd c) (snd d)) l l' -> auc_value l = auc_value l'.
Proof.
  intros A A' F. rewrite (value_eq l A), (value_eq l' A').
  assert (U : forall f : R * R -> bool, forall g, (forall c d, occupied c = occupied d /\ same_levels (snd c) (snd d) -> f c = g d) -> number f l = number g l').
  { intros f g E. clear A A'. induction F as [|c d l l' H F I]; [reflexivity|]. rewrite !number_cons, I, (E c d H). reflexivity. }
  assert (V : forall k c d, (k <= 99)%nat -> same_levels (snd c) (snd d) -> above k c = above k d).
  { intros k c d K S. destruct (Nat.eq_dec k 0) as [->|]; [reflexivity|]. destruct (Nat.eq_dec k 99) as [->|]; [reflexivity|].
    apply eq_iff_eq_true. rewrite !above_between by lia. apply S. lia. }
  assert (H : forall k, (k <= 99)%nat -> hits l k = hits l' k). { intros k K. apply U. intros c d [O S]. now rewrite O, (V k c d K S). }
  assert (G : forall k, (k <= 99)%nat -> alarms l k = alarms l' k). { intros k K. apply U. intros c d [O S]. now rewrite O, (V k c d K S). }
  rewrite (U occupied occupied) by (intros c d [O _]; exact O). f_equal. f_equal. apply map_ext_in. intros i I. apply in_seq in I.
  unfold level_part. now rewrite !H, !G by lia.
Qed.
Lemma total_sum l : total l = reduce_sum l.
Proof. induction l as [|x l I]; [reflexivity|]. cbn [total]. now rewrite I. Qed.
Lemma value_area l : all_predicted l -> (exists c, In c l /\ occupied c = true) ->
  exists areas, length areas = 99%nat /\
    (forall k, (k < 99)%nat -> interpolated_area (hits l (S k)) (alarms l (S k)) (hits l k) (alarms l k) (nth k areas 0)) /\
    auc_value l = total areas / number occupied l.
Proof.
  intros A (w & W & O). exists (map (level_part l) (seq 0 99)).
  assert (Z : number occupied l <> 0). { rewrite number_zero. intros N. rewrite (N w W) in O. discriminate. }
  split; [rewrite map_length; apply seq_length|]. split.
  - intros k K. rewrite (nth_indep _ 0 (level_part l 0)) by (rewrite map_length, seq_length; exact K). rewrite map_nth, seq_nth by exact K. cbn [Nat.add].
    apply part_area; try apply number_nonneg; [apply hits_down|apply alarms_down]; lia.
  - pose proof (value_eq l A) as E. unfold divide_no_nan in E. destruct (Req_EM_T (number occupied l) 0); [contradiction|].
    rewrite (total_sum (map (level_part l) (seq 0 99))). exact E.
Qed.
