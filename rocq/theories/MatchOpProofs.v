From Coq Require Import Sorted Permutation.
From Verif Require Import Base ResultLib ListLib HungarianModel HungarianSpec MatcherModel MatcherSpec MatcherProofs MatchOpModel MatchOpSpec.
Open Scope Z_scope.

Lemma columns_dims t d : columns t d <-> dims_ok t d = true.
Proof.
  unfold columns. split.
  - intros [[-> ->]|[[-> [-> | ->]]|[-> ->]]]; reflexivity.
  - unfold dims_ok. destruct t; [discriminate| | |]; do 8 (try (destruct d as [|d]; try discriminate; auto 6)).
Qed.
Definition mkobj (b : lbox) : object lbox := {| otype := 1%nat; oscore := 1; obox := b |}.
Lemma parse_ok t d f : columns t d -> parse_box d f = Ok (mkobj (box_of d f)).
Proof. intros [[_ ->]|[[_ [-> | ->]]|[_ ->]]]; reflexivity. Qed.
Definition objs (d n : nat) (f : nat -> nat -> Q) : list (object lbox) := map (fun i => mkobj (box_of d (f i))) (seq 0 n).
Lemma element_ok t x b : columns t (dim x) -> parse_element x b = Ok (objs (dim x) (num x) (value x b)).
Proof. intros C. unfold parse_element, objs. apply mapM_ok. intros i _. exact (parse_ok t _ _ C). Qed.

Definition extentb (t : box_type) (b : lbox) : bool :=
  match t with
  | BOX_3D => positive (bwidth b) && positive (blength b) && positive (bheight b)
  | _ => positive (bwidth b) && positive (blength b)
  end.
Lemma positive_iff q : positive q = true <-> (0 < q)%Q.
Proof.
  unfold positive. rewrite negb_true_iff. split; intros H.
  - destruct (Qlt_le_dec 0 q) as [L|L]; [exact L|]. apply Qle_bool_iff in L. congruence.
  - apply not_true_is_false. rewrite Qle_bool_iff. apply Qlt_not_le, H.
Qed.
Lemma extentb_iff t b : extentb t b = true <-> has_extent t b.
Proof.
  unfold extentb, has_extent. destruct t; rewrite !andb_true_iff, !positive_iff; intuition; discriminate.
Qed.
Lemma valid_ok t l : t <> BOX_UNKNOWN ->
  valid_indices t l = Ok (filter (fun i => match nth_error l i with Some o => extentb t (obox o) | None => false end) (seq 0 (length l))).
Proof.
  intros N. unfold valid_indices. rewrite (mapM_ok _ (fun o => extentb t (obox o))) by (intros o _; destruct t; [congruence|reflexivity..]).
  cbn [bind]. f_equal.
  assert (G : forall k, map fst (filter snd (combine (seq k (length l)) (map (fun o => extentb t (obox o)) l))) =
    filter (fun i => match nth_error l (i - k) with Some o => extentb t (obox o) | None => false end) (seq k (length l))).
  { induction l as [|o l IH]; intros k; [reflexivity|]. cbn [length seq map combine filter snd]. rewrite Nat.sub_diag. cbn [nth_error].
    replace (filter _ (seq (S k) (length l))) with (filter (fun i => match nth_error l (i - S k) with Some o => extentb t (obox o) | None => false end) (seq (S k) (length l))).
    - destruct (extentb t (obox o)); cbn [map fst]; rewrite IH; reflexivity.
    - apply filter_ext_in. intros i I. apply in_seq in I. replace (i - k)%nat with (S (i - S k)) by lia. reflexivity. }
  rewrite G. apply filter_ext. intros i. rewrite Nat.sub_0_r. reflexivity.
Qed.
Lemma objs_nth d n f i : (i < n)%nat -> nth_error (objs d n f) i = Some (mkobj (box_of d (f i))).
Proof.
  intros L. unfold objs. rewrite nth_error_map. replace (nth_error (seq 0 n) i) with (Some i); [reflexivity|].
  symmetry. rewrite (nth_error_nth' _ 0%nat) by (rewrite seq_length; exact L). rewrite seq_nth by exact L. reflexivity.
Qed.
Lemma objs_length d n f : length (objs d n f) = n.
Proof. unfold objs. rewrite map_length, seq_length. reflexivity. Qed.
Definition picked (t : box_type) (d n : nat) (f : nat -> nat -> Q) : list nat := filter (fun i => extentb t (box_of d (f i))) (seq 0 n).
Lemma valid_objs t d n f : t <> BOX_UNKNOWN -> valid_indices t (objs d n f) = Ok (picked t d n f).
Proof.
  intros N. rewrite valid_ok, objs_length by exact N. f_equal. unfold picked. apply filter_ext_in.
  intros i I. apply in_seq in I. rewrite objs_nth by lia. reflexivity.
Qed.
Lemma picked_in t d n f i : In i (picked t d n f) <-> (i < n)%nat /\ has_extent t (box_of d (f i)).
Proof. unfold picked. rewrite filter_In, in_seq, extentb_iff. intuition lia. Qed.
Lemma seq_sorted n : forall k, StronglySorted lt (seq k n).
Proof. induction n as [|n IH]; intros k; cbn [seq]; constructor; [apply IH|]. apply Forall_forall. intros i I. apply in_seq in I. lia. Qed.
Lemma filter_sorted {A} (R : A -> A -> Prop) p l : StronglySorted R l -> StronglySorted R (filter p l).
Proof.
  induction 1 as [|a l S IH F]; cbn [filter]; [constructor|]. destruct (p a); [|exact IH]. constructor; [exact IH|].
  apply Forall_forall. intros b I. apply filter_In in I as [I _]. rewrite Forall_forall in F. exact (F b I).
Qed.
Lemma sorted_nodup l : StronglySorted lt l -> NoDup l.
Proof. induction 1 as [|a l S IH F]; constructor; [|exact IH]. intros I. rewrite Forall_forall in F. specialize (F a I). lia. Qed.
Lemma picked_sorted t d n f : StronglySorted lt (picked t d n f).
Proof. apply filter_sorted, seq_sorted. Qed.

(** ** From positions to pairs *)
Definition pairs_of (psub gsub : list nat) (ims : list (nat * option nat)) : list (nat * nat) :=
  flat_map (fun im => match snd im with None => [] | Some j => [(nth (fst im) psub 0%nat, nth j gsub 0%nat)] end) ims.
Lemma sorted_nth l : StronglySorted lt l -> forall i j, (i < j < length l)%nat -> (nth i l 0 < nth j l 0)%nat.
Proof.
  induction 1 as [|a l S IH F]; intros i j L; cbn [length] in L; [lia|]. destruct j as [|j]; [lia|]. destruct i as [|i]; cbn [nth].
  - rewrite Forall_forall in F. apply F. apply nth_In. lia.
  - apply IH. lia.
Qed.
Lemma enum_in {A} (l : list A) k x : In (k, x) (combine (seq 0 (length l)) l) <-> nth_error l k = Some x.
Proof.
  assert (G : forall s, In (k, x) (combine (seq s (length l)) l) <-> (s <= k)%nat /\ nth_error l (k - s) = Some x).
  { induction l as [|a l IH]; intros s; cbn [length seq combine In].
    - split; [intros []|]. intros [_ H]. destruct (k - s)%nat; discriminate.
    - rewrite IH. split.
      + intros [[= <- <-]|[L H]]; [rewrite Nat.sub_diag; split; [lia|reflexivity]|]. split; [lia|]. replace (k - s)%nat with (S (k - S s)) by lia. exact H.
      + intros [L H]. destruct (Nat.eq_dec s k) as [->|Q]; [left; rewrite Nat.sub_diag in H; injection H as ->; reflexivity|].
        right. split; [lia|]. replace (k - s)%nat with (S (k - S s)) in H by lia. exact H. }
  rewrite G, Nat.sub_0_r. intuition lia.
Qed.
Lemma nth_some {A} (l : list (option A)) i j : nth i l None = Some j <-> nth_error l i = Some (Some j).
Proof.
  split; intros H.
  - destruct (nth_error l i) as [o|] eqn:E; [rewrite (nth_error_nth _ _ _ E) in H; congruence|].
    apply nth_error_None in E. rewrite nth_overflow in H by exact E. discriminate.
  - exact (nth_error_nth _ _ _ H).
Qed.
Lemma pairs_in psub gsub pm i j : In (i, j) (pairs_of psub gsub (combine (seq 0 (length pm)) pm)) <->
  exists k c, nth k pm None = Some c /\ i = nth k psub 0%nat /\ j = nth c gsub 0%nat.
Proof.
  unfold pairs_of. rewrite in_flat_map. split.
  - intros ([k [c|]] & I & J); cbn [fst snd] in J; [|destruct J]. apply enum_in in I. destruct J as [[= <- <-]|[]].
    exists k, c. split; [apply nth_some; exact I|]. split; reflexivity.
  - intros (k & c & E & -> & ->). exists (k, Some c). split; [apply enum_in, nth_some; exact E|]. left. reflexivity.
Qed.
Lemma pairs_sorted psub gsub pm : StronglySorted lt psub -> (length pm <= length psub)%nat ->
  StronglySorted lt (map fst (pairs_of psub gsub (combine (seq 0 (length pm)) pm))).
Proof.
  intros SS L.
  assert (G : forall s (l : list (option nat)), (s + length l <= length psub)%nat ->
    StronglySorted lt (map fst (pairs_of psub gsub (combine (seq s (length l)) l))) /\
    Forall (fun i => exists k, (s <= k < s + length l)%nat /\ i = nth k psub 0%nat) (map fst (pairs_of psub gsub (combine (seq s (length l)) l)))).
  { intros s l. revert s. induction l as [|o l IH]; intros s B; cbn [length seq combine] in *; [split; constructor|].
    destruct (IH (S s) ltac:(lia)) as [S' F']. unfold pairs_of. cbn [flat_map fst snd]. fold (pairs_of psub gsub (combine (seq (S s) (length l)) l)).
    assert (F2 : Forall (fun i => exists k, (s <= k < s + Datatypes.S (length l))%nat /\ i = nth k psub 0%nat) (map fst (pairs_of psub gsub (combine (seq (Datatypes.S s) (length l)) l)))).
    { eapply Forall_impl; [|exact F']. intros i (k & K & E). exists k. split; [lia|exact E]. }
    destruct o as [c|]; cbn [app map fst]; [|split; assumption]. split; [|constructor; [exists s; split; [lia|reflexivity]|exact F2]].
    constructor; [exact S'|]. eapply Forall_impl; [|exact F']. intros i (k & K & ->). apply sorted_nth; [exact SS|lia]. }
  exact (proj1 (G 0%nat pm ltac:(lia))).
Qed.
Lemma pairs_snd_nodup psub gsub pm : NoDup gsub -> (forall i c, nth i pm None = Some c -> (c < length gsub)%nat) ->
  (forall i i' c, nth i pm None = Some c -> nth i' pm None = Some c -> i = i') ->
  NoDup (map snd (pairs_of psub gsub (combine (seq 0 (length pm)) pm))).
Proof.
  intros N B I.
  assert (G : forall l s, (forall k o, nth_error l k = Some o -> nth (s + k) pm None = o) ->
    NoDup (map snd (pairs_of psub gsub (combine (seq s (length l)) l))) /\
    Forall (fun j => exists k c, (s <= k)%nat /\ nth k pm None = Some c /\ j = nth c gsub 0%nat) (map snd (pairs_of psub gsub (combine (seq s (length l)) l)))).
  { induction l as [|o l IH]; intros s H; cbn [length seq combine]; [split; constructor|].
    destruct (IH (S s)) as [N' F']. { intros k o' E. rewrite <- (H (S k) o' E). f_equal. lia. }
    unfold pairs_of. cbn [flat_map fst snd]. fold (pairs_of psub gsub (combine (seq (S s) (length l)) l)).
    assert (F2 : Forall (fun j => exists k c, (s <= k)%nat /\ nth k pm None = Some c /\ j = nth c gsub 0%nat) (map snd (pairs_of psub gsub (combine (seq (S s) (length l)) l)))).
    { eapply Forall_impl; [|exact F']. intros j (k & c & K & E). exists k, c. split; [lia|exact E]. }
    destruct o as [c|]; cbn [app map snd]; [|split; assumption].
    pose proof (H 0%nat (Some c) eq_refl) as Hc. rewrite Nat.add_0_r in Hc. split; [|constructor; [exists s, c; split; [lia|split; [exact Hc|reflexivity]]|exact F2]].
    constructor; [|exact N']. intros J. rewrite Forall_forall in F'. destruct (F' _ J) as (k & c' & K & E & Q).
    apply NoDup_nth in Q; [|exact N|exact (B _ _ Hc)|exact (B _ _ E)]. subst c'. pose proof (I _ _ _ Hc E). lia. }
  apply (G pm 0%nat). intros k o E. cbn [plus]. exact (nth_error_nth _ _ _ E).
Qed.

(** Sums. *)
Lemma sum_at (P : nat -> Z) w0 i0 l : NoDup l -> In i0 l -> P i0 = 0 ->
  Zsum (map (fun i => if Nat.eqb i i0 then w0 else P i) l) = w0 + Zsum (map P l).
Proof.
  intros N I Z0. induction l as [|a l IH]; [destruct I|]. inversion N as [|? ? N1 N2]; subst. cbn [map]. unfold Zsum in *. cbn [fold_right].
  destruct (Nat.eqb_spec a i0) as [->|Q].
  - rewrite Z0. replace (map (fun i => if Nat.eqb i i0 then w0 else P i) l) with (map P l); [lia|].
    apply map_ext_in. intros b J. destruct (Nat.eqb_spec b i0) as [->|]; [destruct (N1 J)|reflexivity].
  - destruct I as [E|I]; [congruence|]. rewrite (IH N2 I). lia.
Qed.
