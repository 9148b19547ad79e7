(** Index arithmetic for row-major arrays. *)
From Coq Require Import Permutation.
From Verif Require Import Base NdArray.
Open Scope nat_scope.

Lemma tabulate_length {A} n (f : nat -> A) : length (tabulate n f) = n.
Proof. unfold tabulate. now rewrite map_length, seq_length. Qed.

Lemma nth_tabulate {A} n (f : nat -> A) k d : k < n -> nth k (tabulate n f) d = f k.
Proof.
  intros Hk. unfold tabulate.
  rewrite (nth_indep _ d (f 0)) by (now rewrite map_length, seq_length).
  rewrite map_nth, seq_nth by exact Hk. reflexivity.
Qed.

Lemma tabulate_ext {A} n (f g : nat -> A) :
  (forall k, k < n -> f k = g k) -> tabulate n f = tabulate n g.
Proof.
  intros H. unfold tabulate. apply map_ext_in. intros a Ha.
  apply in_seq in Ha. apply H. lia.
Qed.

Lemma tabulate_nth {A} (l : list A) d : tabulate (length l) (fun k => nth k l d) = l.
Proof.
  apply (nth_ext _ _ d d); rewrite tabulate_length; [reflexivity|].
  intros k Hk. now rewrite nth_tabulate.
Qed.

Definition valid_index (sh idx : list nat) : Prop := Forall2 lt idx sh.

Lemma ravel_lt sh idx : valid_index sh idx -> ravel sh idx < prodl sh.
Proof.
  unfold valid_index. induction 1 as [|i s idx' sh' Hi HF IH]; simpl; [lia|]. unfold prodl in *. simpl. nia.
Qed.

Lemma unravel_valid sh k : k < prodl sh -> valid_index sh (unravel sh k).
Proof.
  revert k. induction sh as [|s sh IH]; intros k Hk; simpl; [constructor|].
  unfold prodl in Hk; simpl in Hk; fold (prodl sh) in Hk.
  assert (prodl sh <> 0) by nia.
  constructor.
  - apply Nat.div_lt_upper_bound; nia.
  - apply IH. apply Nat.mod_upper_bound. assumption.
Qed.

Lemma ravel_unravel sh k : k < prodl sh -> ravel sh (unravel sh k) = k.
Proof.
  revert k. induction sh as [|s sh IH]; intros k Hk; simpl.
  - unfold prodl in Hk; simpl in Hk; lia.
  - unfold prodl in Hk; simpl in Hk; fold (prodl sh) in Hk.
    assert (prodl sh <> 0) by nia.
    rewrite IH by (now apply Nat.mod_upper_bound).
    pose proof (Nat.div_mod k (prodl sh)). lia.
Qed.

Lemma unravel_ravel sh idx : valid_index sh idx -> unravel sh (ravel sh idx) = idx.
Proof.
  unfold valid_index. induction 1 as [|i s idx' sh' Hi HF IH]; simpl; [reflexivity|].
  pose proof (ravel_lt _ _ HF) as Hr.
  assert (prodl sh' <> 0) by lia.
  rewrite Nat.add_comm, Nat.div_add, Nat.mod_add by assumption.
  rewrite (Nat.div_small (ravel sh' idx')), (Nat.mod_small (ravel sh' idx')) by assumption.
  now rewrite IH.
Qed.

Lemma transpose_length {A} (d : A) sh p xs :
  length (transpose d sh p xs) = prodl (permute p sh).
Proof. unfold transpose. apply tabulate_length. Qed.

(** [is_perm_pair n p q]: p and q are mutually inverse permutations of 0..n-1. *)
Definition is_perm_pair (n : nat) (p q : list nat) : Prop :=
  length p = n /\ length q = n /\
  (forall i, i < n -> nth i p 0 < n /\ nth (nth i p 0) q 0 = i) /\
  (forall i, i < n -> nth i q 0 < n /\ nth (nth i q 0) p 0 = i).

Lemma permute_length p l : length (permute p l) = length p.
Proof. unfold permute. apply map_length. Qed.

Lemma permute_nth p l i : i < length p -> nth i (permute p l) 0 = nth (nth i p 0) l 0.
Proof.
  intros Hi. unfold permute.
  rewrite (nth_indep _ 0 ((fun a => nth a l 0) 0)) by (now rewrite map_length).
  now rewrite (map_nth (fun a => nth a l 0)).
Qed.

Lemma permute_inverse n p q l :
  is_perm_pair n p q -> length l = n -> permute q (permute p l) = l.
Proof.
  intros (Hp & Hq & H1 & H2) Hl. apply (nth_ext _ _ 0 0).
  - rewrite permute_length. lia.
  - rewrite permute_length. intros i Hi. rewrite permute_nth by lia.
    destruct (H2 i ltac:(lia)) as [Ha Hb].
    rewrite permute_nth by lia. now rewrite Hb.
Qed.

Lemma valid_index_nth sh idx :
  valid_index sh idx <->
  length idx = length sh /\ forall i, i < length sh -> nth i idx 0 < nth i sh 0.
Proof.
  unfold valid_index. split.
  - induction 1 as [|a s idx' sh' Ha HF [IH1 IH2]]; simpl; [split; [reflexivity|intros; lia]|].
    split; [lia|]. intros [|i] Hi; [exact Ha|]. apply IH2. lia.
  - revert idx. induction sh as [|s sh IH]; intros [|a idx] [Hl H]; simpl in *; try lia; [constructor|].
    constructor; [exact (H 0 ltac:(lia))|].
    apply IH. split; [lia|]. intros i Hi. exact (H (S i) ltac:(lia)).
Qed.

Lemma permute_valid n p q sh idx :
  is_perm_pair n p q -> length sh = n -> valid_index sh idx ->
  valid_index (permute p sh) (permute p idx).
Proof.
  intros (Hp & Hq & H1 & H2) Hn Hv. apply valid_index_nth in Hv as [Hl Hv].
  apply valid_index_nth. rewrite !permute_length. split; [reflexivity|].
  intros i Hi. rewrite !permute_nth by lia. apply Hv.
  destruct (H1 i ltac:(lia)). lia.
Qed.

Lemma is_perm_pair_sym n p q : is_perm_pair n p q -> is_perm_pair n q p.
Proof. unfold is_perm_pair. intuition. Qed.

Lemma nth_transpose {A} (d : A) n sh p q xs idx :
  is_perm_pair n p q -> inv_perm p = q -> length sh = n -> valid_index sh idx ->
  nth (ravel (permute p sh) (permute p idx)) (transpose d sh p xs) d = nth (ravel sh idx) xs d.
Proof.
  intros HP HI Hn Hv.
  pose proof (permute_valid _ _ _ _ _ HP Hn Hv) as Hv'.
  unfold transpose. rewrite nth_tabulate by (now apply ravel_lt).
  rewrite unravel_ravel by assumption. rewrite HI.
  rewrite (permute_inverse n) by (try assumption; apply valid_index_nth in Hv; lia).
  reflexivity.
Qed.

Lemma prodl_permute n p q sh :
  is_perm_pair n p q -> length sh = n -> prodl (permute p sh) = prodl sh.
Proof.
  intros (Hp & Hq & H1 & H2) Hn.
  assert (HPerm : Permutation p (seq 0 n)).
  { apply NoDup_Permutation_bis.
    - apply (NoDup_nth p 0). intros i j Hi Hj Heq.
      destruct (H1 i ltac:(lia)) as [_ <-]. destruct (H1 j ltac:(lia)) as [_ <-]. now rewrite Heq.
    - rewrite seq_length. lia.
    - intros a Ha. apply (In_nth p a 0) in Ha as (i & Hi & <-).
      apply in_seq. destruct (H1 i ltac:(lia)). lia. }
  assert (HP2 : Permutation (permute p sh) sh).
  { unfold permute. rewrite (Permutation_map _ HPerm).
    replace (map (fun a => nth a sh 0) (seq 0 n)) with sh; [reflexivity|].
    rewrite <- Hn. symmetry. exact (tabulate_nth sh 0). }
  clear - HP2. unfold prodl. induction HP2 as [| x l l' Hl IH | x y l | l l' l'' Hl IH Hl' IH']; simpl; nia.
Qed.

Lemma transpose_inverse {A} (d : A) n sh p q xs :
  is_perm_pair n p q -> inv_perm p = q -> inv_perm q = p ->
  length sh = n -> length xs = prodl sh ->
  transpose d (permute p sh) q (transpose d sh p xs) = xs.
Proof.
  intros HP HI1 HI2 Hn Hx.
  pose proof (is_perm_pair_sym _ _ _ HP) as HQ.
  assert (Hps : length (permute p sh) = n) by (rewrite permute_length; apply HP).
  assert (Hpp : permute q (permute p sh) = sh) by (now apply (permute_inverse n)).
  apply (nth_ext _ _ d d).
  - rewrite transpose_length, Hpp. congruence.
  - rewrite transpose_length, Hpp. intros k Hk.
    pose proof (unravel_valid _ _ Hk) as Hv.
    set (idx := unravel sh k) in *.
    assert (Hk' : k = ravel sh idx) by (unfold idx; now rewrite ravel_unravel).
    rewrite Hk'.
    pose proof (permute_valid _ _ _ _ _ HP Hn Hv) as Hv'.
    pose proof (nth_transpose d n (permute p sh) q p (transpose d sh p xs) (permute p idx)
      HQ HI2 Hps Hv') as E.
    rewrite Hpp in E. rewrite (permute_inverse n) in E
      by (try assumption; apply valid_index_nth in Hv; lia).
    rewrite E. now apply (nth_transpose d n sh p q).
Qed.
