(** Matching people: one to one, best possible. *)
From Coq Require Import Reals Lra Psatz List Arith Lia Bool ZArith Permutation.
From Verif Require Import Base ResultLib GeomModel GeomBase PoseModel PoseSpec PoseReorder PoseBox.
Import ListNotations.
Open Scope R_scope.

(** ** Matchings *)
Lemma NoDup_filter_map {A B} (f : A -> B) (p : A -> bool) l : NoDup (map f l) -> NoDup (map f (filter p l)).
Proof.
  induction l as [|a l IH]; cbn; auto. intros N. inversion_clear N as [|x y N1 N2]. destruct (p a); cbn; auto.
  constructor; auto. intros I. apply N1. apply in_map_iff in I. destruct I as (b & E & I). apply filter_In in I.
  apply in_map_iff. exists b. tauto.
Qed.
Lemma matching_filter p M r c : matching M r c -> matching (filter p M) r c.
Proof.
  intros (A & B & C). repeat split; try (now apply NoDup_filter_map); apply filter_In in H; now apply C.
Qed.
Lemma NoDup_app_intro {A} (l m : list A) : NoDup l -> NoDup m -> (forall a, In a l -> ~ In a m) -> NoDup (l ++ m).
Proof.
  induction l as [|a l IH]; cbn; auto. intros N1 N2 D. inversion_clear N1 as [|x y N3 N4]. constructor.
  - intros I. apply in_app_iff in I. destruct I as [I|I]; [auto | apply (D a); auto].
  - apply IH; auto.
Qed.
Lemma matching_app M N r c : matching M r c -> matching N r c ->
  (forall m n, In m M -> In n N -> fst m <> fst n /\ snd m <> snd n) -> matching (M ++ N) r c.
Proof.
  intros (A & B & C) (A' & B' & C') D. repeat split.
  - rewrite map_app. apply NoDup_app_intro; auto. intros i I J. apply in_map_iff in I, J. destruct I as (m & <- & I), J as (n & E & J).
    destruct (D m n I J) as [F _]. congruence.
  - rewrite map_app. apply NoDup_app_intro; auto. intros i I J. apply in_map_iff in I, J. destruct I as (m & <- & I), J as (n & E & J).
    destruct (D m n I J) as [_ F]. congruence.
  - apply in_app_iff in H. destruct H as [H|H]; [now apply C | now apply C'].
  - apply in_app_iff in H. destruct H as [H|H]; [now apply C | now apply C'].
Qed.
Lemma unmatched_some used n : NoDup used -> (length used < n)%nat -> exists i, (i < n)%nat /\ ~ In i used.
Proof.
  intros N L. destruct (unmatched used n) as [|i l] eqn:E.
  - exfalso. assert (I : incl (seq 0 n) used).
    { intros i I. destruct (in_dec Nat.eq_dec i used) as [J|J]; auto.
      assert (In i (unmatched used n)) by (apply unmatched_In; split; auto; apply in_seq in I; lia). rewrite E in H. destruct H. }
    apply NoDup_incl_length in I; [|apply seq_NoDup]. rewrite seq_length in I. lia.
  - assert (I : In i (unmatched used n)) by (rewrite E; now left). apply unmatched_In in I. exists i. tauto.
Qed.
Lemma complete_extends M r c : matching M r c -> exists X, complete (M ++ X) r c.
Proof.
  remember (Nat.min r c - length M)%nat as k eqn:K. revert M K. induction k as [|k IH]; intros M K HM.
  - exists []. rewrite app_nil_r. split; auto. destruct HM as (A & B & C).
    assert (LR : (length M <= r)%nat).
    { assert (I : incl (map fst M) (seq 0 r)) by (intros i I; apply in_map_iff in I; destruct I as (m & <- & I); apply in_seq; specialize (C m I); lia).
      apply NoDup_incl_length in I; auto. rewrite map_length, seq_length in I. lia. }
    assert (LC : (length M <= c)%nat).
    { assert (I : incl (map snd M) (seq 0 c)) by (intros i I; apply in_map_iff in I; destruct I as (m & <- & I); apply in_seq; specialize (C m I); lia).
      apply NoDup_incl_length in I; auto. rewrite map_length, seq_length in I. lia. }
    lia.
  - pose proof HM as (A & B & C).
    destruct (unmatched_some (map fst M) r A) as (i & I1 & I2); [rewrite map_length; lia|].
    destruct (unmatched_some (map snd M) c B) as (j & J1 & J2); [rewrite map_length; lia|].
    destruct (IH (M ++ [(i, j)])) as (X & HX).
    + rewrite app_length; cbn; lia.
    + apply matching_app; auto.
      * repeat split; cbn; try (constructor; [intros [] | constructor]); destruct H as [<-|[]]; cbn; auto.
      * intros m n IM [<-|[]]. cbn. split; intros E; [apply I2 | apply J2]; rewrite <- E; now apply in_map.
    + exists ((i, j) :: X). now rewrite <- app_assoc in HX.
Qed.
Lemma matching_nil r c : matching [] r c.
Proof. repeat split; cbn; try constructor; destruct H. Qed.

(** ** A solver exists *)
Fixpoint lists_of {A} (k : nat) (xs : list A) : list (list A) :=
  match k with O => [[]] | S k => flat_map (fun x => map (cons x) (lists_of k xs)) xs end.
Lemma lists_of_In {A} k (xs l : list A) : length l = k -> incl l xs -> In l (lists_of k xs).
Proof.
  revert l. induction k as [|k IH]; intros l L I.
  - destruct l; [now left | discriminate].
  - destruct l as [|a l]; [discriminate|]. injection L as L. cbn. apply in_flat_map. exists a. split; [apply I; now left|].
    apply in_map. apply IH; auto. intros b B. apply I. now right.
Qed.
Fixpoint nodupb (l : list nat) : bool := match l with [] => true | a :: l => negb (existsb (Nat.eqb a) l) && nodupb l end.
Lemma nodupb_iff l : nodupb l = true <-> NoDup l.
Proof.
  induction l as [|a l IH]; cbn; [split; auto; constructor|]. rewrite andb_true_iff, negb_true_iff, IH. split.
  - intros (A & B). constructor; auto. intros I. assert (existsb (Nat.eqb a) l = true) by (apply existsb_eqb; auto). congruence.
  - intros N. inversion_clear N as [|x y N1 N2]. split; auto. destruct (existsb _ l) eqn:E; auto. apply existsb_eqb in E. contradiction.
Qed.
Definition completeb (r c : nat) (M : list (nat * nat)) : bool :=
  nodupb (map fst M) && nodupb (map snd M) && forallb (fun m => Nat.ltb (fst m) r && Nat.ltb (snd m) c) M && Nat.eqb (length M) (Nat.min r c).
Lemma completeb_iff r c M : completeb r c M = true <-> complete M r c.
Proof.
  unfold completeb, complete, matching. rewrite !andb_true_iff, !nodupb_iff, forallb_forall, Nat.eqb_eq. split.
  - intros (((A & B) & C) & D). repeat split; auto; intros; specialize (C m H); apply andb_true_iff in C; rewrite !Nat.ltb_lt in C; tauto.
  - intros ((A & B & C) & D). repeat split; auto. intros m I. apply andb_true_iff. rewrite !Nat.ltb_lt. now apply C.
Qed.
Fixpoint least {A} (f : A -> R) (a : A) (l : list A) : A :=
  match l with [] => a | b :: l => least f (if Rle_dec (f a) (f b) then a else b) l end.
Lemma least_In {A} (f : A -> R) l : forall a, In (least f a l) (a :: l).
Proof.
  induction l as [|b l IH]; intros a; cbn; auto. destruct (Rle_dec (f a) (f b)); [destruct (IH a) | destruct (IH b)]; auto.
Qed.
Lemma least_le {A} (f : A -> R) l : forall a b, In b (a :: l) -> f (least f a l) <= f b.
Proof.
  induction l as [|c l IH]; intros a b; cbn [least].
  - intros [->|[]]. cbn. lra.
  - intros [->|[->|I]].
    + destruct (Rle_dec (f b) (f c)) as [L|L]; [apply IH; now left|]. pose proof (IH c c (or_introl eq_refl)). lra.
    + destruct (Rle_dec (f a) (f b)) as [L|L]; [pose proof (IH a a (or_introl eq_refl)); lra | apply IH; now left].
    + destruct (Rle_dec (f a) (f c)); apply IH; now right.
Qed.
Definition all_complete (r c : nat) : list (list (nat * nat)) :=
  filter (completeb r c) (lists_of (Nat.min r c) (list_prod (seq 0 r) (seq 0 c))).
Lemma all_complete_In r c M : In M (all_complete r c) <-> complete M r c.
Proof.
  unfold all_complete. rewrite filter_In, completeb_iff. split; [tauto|]. intros H. split; auto. destruct H as ((_ & _ & C) & L).
  apply lists_of_In; auto. intros [i j] I. apply in_prod; apply in_seq; specialize (C _ I); cbn in C; lia.
Qed.
Definition brute_force : solver := fun maximize r c cost =>
  match all_complete r c with [] => [] | M :: l => least (fun M => (if maximize then -1 else 1) * cost_of cost M) M l end.
Theorem brute_force_solves : solves brute_force.
Proof.
  intros r c cost. unfold brute_force. destruct (all_complete r c) as [|M0 l] eqn:E.
  - exfalso. destruct (complete_extends [] r c (matching_nil r c)) as (X & HX). apply all_complete_In in HX. rewrite E in HX. destruct HX.
  - split; [|split].
    + apply all_complete_In. rewrite E. apply least_In.
    + apply all_complete_In. rewrite E. apply least_In.
    + intros M HM. apply all_complete_In in HM. rewrite E in HM. split.
      * pose proof (least_le (fun M => 1 * cost_of cost M) l M0 M HM) as A. cbn beta in A. lra.
      * pose proof (least_le (fun M => -1 * cost_of cost M) l M0 M HM) as A. cbn beta in A. lra.
Qed.

(** ** What the filtered assignments optimise *)
Lemma best_max assign r c score M : solves assign -> (forall i j, 0 <= score i j) -> matching M r c ->
  cost_of score M <= cost_of score (filter (fun ij => rltb 0 (score (fst ij) (snd ij))) (assign true r c score)).
Proof.
  intros HS HN HM. destruct (complete_extends M r c HM) as (X & HX). destruct (HS r c score) as (_ & _ & O).
  destruct (O _ HX) as [_ L]. unfold cost_of in *. rewrite sum_app in L. rewrite sum_filter.
  assert (E : sum_of (fun m => score (fst m) (snd m)) (assign true r c score) =
              sum_of (fun a => if rltb 0 (score (fst a) (snd a)) then score (fst a) (snd a) else 0) (assign true r c score)).
  { apply sum_ext. intros m _. destruct (rltb 0 _) eqn:F; auto. apply rltb_false in F. specialize (HN (fst m) (snd m)). lra. }
  rewrite <- E. pose proof (sum_nonneg (fun m : nat * nat => score (fst m) (snd m)) X (fun m _ => HN (fst m) (snd m))). lra.
Qed.
Lemma sum_const {A} (k : R) (l : list A) : sum_of (fun _ => k) l = k * INR (length l).
Proof. induction l as [|a l IH]; [cbn; lra|]. rewrite sum_cons, IH. cbn [length]. rewrite S_INR. lra. Qed.
Lemma sum_minus {A} (k : R) (f : A -> R) (l : list A) : sum_of (fun a => k - f a) l = k * INR (length l) - sum_of f l.
Proof. induction l as [|a l IH]; [cbn; lra|]. rewrite !sum_cons, IH. cbn [length]. rewrite S_INR. lra. Qed.
Lemma best_min assign r c cost top M : solves assign -> (forall i j, cost i j <= top) -> matching M r c ->
  sum_of (fun m => top - cost (fst m) (snd m)) M <=
  sum_of (fun m => top - cost (fst m) (snd m)) (filter (fun ij => rltb (cost (fst ij) (snd ij)) top) (assign false r c cost)).
Proof.
  intros HS HN HM. destruct (complete_extends M r c HM) as (X & HX). destruct (HS r c cost) as (HC & _ & O).
  destruct (O _ HX) as [L _]. unfold cost_of in *. rewrite sum_filter.
  assert (E : sum_of (fun m => top - cost (fst m) (snd m)) (assign false r c cost) =
              sum_of (fun a => if rltb (cost (fst a) (snd a)) top then top - cost (fst a) (snd a) else 0) (assign false r c cost)).
  { apply sum_ext. intros m _. destruct (rltb _ top) eqn:F; auto. apply rltb_false in F. specialize (HN (fst m) (snd m)). lra. }
  rewrite <- E.
  assert (P : 0 <= sum_of (fun m : nat * nat => top - cost (fst m) (snd m)) X).
  { apply sum_nonneg. intros m _. specialize (HN (fst m) (snd m)). lra. }
  assert (Q1 : sum_of (fun m : nat * nat => top - cost (fst m) (snd m)) (M ++ X) <= sum_of (fun m : nat * nat => top - cost (fst m) (snd m)) (assign false r c cost)).
  { rewrite (sum_minus top (fun m : nat * nat => cost (fst m) (snd m)) (M ++ X)), (sum_minus top (fun m : nat * nat => cost (fst m) (snd m)) (assign _ _ _ _)).
    destruct HX as [_ LX], HC as [_ LA]. rewrite LX, LA. lra. }
  rewrite sum_app in Q1. lra.
Qed.

(** ** The mean error *)
Lemma error_bounds penalty g p : 0 <= penalty -> 0 <= error penalty g p <= penalty.
Proof.
  intros H. unfold error. pose proof (dist3_nonneg (place g) (place p)).
  destruct (visible g), (visible p); try lra. split; [now apply Rmin_glb | apply Rmin_r].
Qed.
Lemma combine_len {A B} (a : list A) (b : list B) : length a = length b -> length (combine a b) = length a.
Proof. intros E. rewrite combine_length. lia. Qed.
Lemma pair_error_bounds penalty n g p : 0 <= penalty -> length g = n -> length p = n -> 0 <= pair_error penalty g p <= penalty * INR n.
Proof.
  intros H Lg Lp. unfold pair_error. split.
  - apply sum_nonneg. intros. now apply error_bounds.
  - rewrite <- Lg, <- (combine_len g p) by lia. rewrite <- sum_const. apply sum_le. intros. now apply error_bounds.
Qed.
Lemma rsum_repeat x n : rsum (repeat x n) = x * INR n.
Proof. induction n as [|n IH]; [cbn; lra|]. rewrite S_INR. cbn [repeat]. change (rsum (x :: repeat x n)) with (x + rsum (repeat x n)). rewrite IH. lra. Qed.
Lemma clip_top penalty x : 0 <= penalty -> clip 0 penalty x <= penalty.
Proof. intros H. unfold clip. apply Rmax_lub; auto. apply Rmin_r. Qed.
Section Mean.
  Variables (gt pr : list person) (n : nat) (cand : nat -> nat -> bool) (penalty : R).
  Hypotheses (N : (0 < n)%nat) (P0 : 0 < penalty) (P1 : penalty <= 10000000000).
  Lemma mean_top i j : mean_error gt pr n cand penalty i j <= penalty.
  Proof. apply clip_top. lra. Qed.
  Lemma mean_not i j : cand i j = false -> mean_error gt pr n cand penalty i j = penalty.
  Proof.
    intros C. unfold mean_error. rewrite C, rsum_repeat. assert (0 < INR n) by (apply lt_0_INR; lia).
    unfold Rdiv. rewrite Rmult_assoc, Rinv_r by lra. unfold clip, very_large_error. rewrite Rmin_right by lra. apply Rmax_left. lra.
  Qed.
  Lemma mean_cand i j : rectangular n gt -> rectangular n pr -> (i < length gt)%nat -> (j < length pr)%nat -> cand i j = true ->
    mean_error gt pr n cand penalty i j = pair_error penalty (person_at gt i) (person_at pr j) / INR n.
  Proof.
    intros RG RP I J C. unfold mean_error. rewrite C. change (nth_person gt i) with (person_at gt i). change (nth_person pr j) with (person_at pr j).
    destruct (errors_value penalty (person_at gt i) (person_at pr j)) as (_ & _ & ->); [lra|].
    assert (0 < INR n) by (apply lt_0_INR; lia).
    destruct (pair_error_bounds penalty n (person_at gt i) (person_at pr j)) as [A B]; [lra | now apply rect_at | now apply rect_at|].
    assert (0 <= pair_error penalty (person_at gt i) (person_at pr j) / INR n) by (apply Rmult_le_pos; [auto | apply Rlt_le, Rinv_0_lt_compat; auto]).
    assert (pair_error penalty (person_at gt i) (person_at pr j) / INR n <= penalty).
    { apply (Rmult_le_reg_r (INR n)); auto. unfold Rdiv. rewrite Rmult_assoc, Rinv_l by lra. lra. }
    unfold clip. rewrite Rmin_left by auto. now apply Rmax_left.
  Qed.
End Mean.
