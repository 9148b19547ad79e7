From Coq Require Import Qround Sorting.Sorted Permutation Lqa.
From Verif Require Import Base ResultLib ListLib HungarianSpec ApProofs CutoffModel CutoffSpec.
Open Scope Q_scope.

Lemma qlt_iff a b : Qlt_bool a b = true <-> a < b.
Proof. unfold Qlt_bool. rewrite negb_true_iff. apply qle_false. Qed.
Lemma qlt_false a b : Qlt_bool a b = false <-> b <= a.
Proof. unfold Qlt_bool. rewrite negb_false_iff. apply Qle_bool_iff. Qed.

(** ** Uniform cutoffs *)
Lemma seq_loop_ok delta k : 0 < delta -> forall fuel start stop,
  stop == start + inject_Z (Z.of_nat k) * delta -> (k <= fuel)%nat ->
  exists l, seq_loop fuel start stop delta = Ok l /\ length l = k /\
    forall i, (i < k)%nat -> nth i l 0 == start + inject_Z (Z.of_nat i) * delta.
Proof.
  intros Hd. induction k as [|k IH]; intros fuel start stop E Hf.
  - change (inject_Z (Z.of_nat 0)) with 0 in E. exists []. split; [|split; [reflexivity|intros i Hi; lia]].
    assert (H : Qlt_bool start stop = false) by (apply qlt_false; lra). destruct fuel; cbn [seq_loop]; now rewrite H.
  - destruct fuel as [|fuel]; [lia|]. rewrite Nat2Z.inj_succ, <- Z.add_1_l, inject_Z_plus in E. change (inject_Z 1) with 1 in E.
    assert (Hk : 0 <= inject_Z (Z.of_nat k) * delta) by (apply Qmult_le_0_compat; [unfold Qle; cbn; lia|lra]).
    assert (H : Qlt_bool start stop = true) by (apply qlt_iff; lra). cbn [seq_loop]. rewrite H.
    destruct (IH fuel (start + delta) stop) as (l & El & Ll & Hl); [lra|lia|].
    rewrite El. cbn [bind]. exists (start :: l). split; [reflexivity|]. split; [cbn; lia|].
    intros [|i] Hi; cbn [nth]; [change (inject_Z (Z.of_nat 0)) with 0; ring|]. rewrite Hl by lia.
    rewrite Nat2Z.inj_succ, <- Z.add_1_l, inject_Z_plus. change (inject_Z 1) with 1. ring.
Qed.
Lemma rev_nth_last {A} (l : list A) d : l <> [] -> exists t, rev l = nth (length l - 1) l d :: t.
Proof.
  intros H. destruct (@exists_last _ l H) as (l' & a & ->). rewrite rev_app_distr. cbn [rev app]. exists (rev l').
  rewrite app_length. cbn [length]. replace (length l' + 1 - 1)%nat with (length l') by lia. now rewrite nth_middle.
Qed.
Lemma sequence_ok k : (0 < k)%nat -> exists l, sequence 0 1 (1 / inject_Z (Z.of_nat k)) = Ok l /\ length l = S k /\
  forall i, (i <= k)%nat -> nth i l 0 == inject_Z (Z.of_nat i) / inject_Z (Z.of_nat k).
Proof.
  intros Hk. set (K := inject_Z (Z.of_nat k)). assert (HK : 0 < K) by (unfold K, Qlt; cbn; lia).
  set (delta := 1 / K). assert (Hd : 0 < delta) by (unfold delta; apply Qlt_shift_div_l; [exact HK|lra]).
  unfold sequence.
  destruct (seq_loop_ok delta k Hd (Z.to_nat (Qceiling ((1 - 0) / delta))) 0 1) as (l & El & Ll & Hl).
  - unfold delta. fold K. field. lra.
  - assert (E : (1 - 0) / delta == K) by (unfold delta; field; lra). rewrite (Qceiling_comp _ _ E). unfold K. rewrite Qceiling_Z. lia.
  - rewrite El. cbn [bind]. assert (Hne : l <> []) by (destruct l; [cbn in Ll; lia|discriminate]).
    destruct (rev_nth_last l 0 Hne) as (t & Et). rewrite Et.
    assert (Hlast : nth (length l - 1) l 0 == 1 - delta).
    { rewrite Ll, Hl by lia. replace (Z.of_nat (k - 1)) with (Z.of_nat k + - 1)%Z by lia. rewrite inject_Z_plus. fold K.
      change (inject_Z (-1)) with (- (1)). unfold delta. field. lra. }
    assert (Hb : Qlt_bool (delta * (1 # 2)) (1 - nth (length l - 1) l 0) = true) by (apply qlt_iff; rewrite Hlast; lra).
    rewrite Hb. exists (l ++ [1]). split; [reflexivity|]. split; [rewrite app_length; cbn; lia|].
    intros i Hi. destruct (Nat.eq_dec i k) as [->|Hn].
    + rewrite app_nth2 by lia. rewrite Ll, Nat.sub_diag. cbn [nth]. fold K. field. lra.
    + rewrite app_nth1 by lia. rewrite Hl by lia. unfold delta. fold K. field. lra.
Qed.

(** ** Buckets *)
Lemma buckets_ok k : forall rem q, (0 < k)%nat -> (Z.of_nat k * q <= rem <= Z.of_nat k * (q + 1))%Z ->
  length (bucket_sizes k rem) = k /\ Zsum (bucket_sizes k rem) = rem /\
  forall b, In b (bucket_sizes k rem) -> b = q \/ b = (q + 1)%Z.
Proof.
  induction k as [|k IH]; intros rem q Hk Hr; [lia|]. cbn [bucket_sizes].
  set (b := (rem / Z.of_nat (S k))%Z).
  assert (Hb : b = q \/ b = (q + 1)%Z).
  { assert (q <= b)%Z by (unfold b; apply Z.div_le_lower_bound; lia).
    assert (b <= q + 1)%Z by (unfold b; apply Z.div_le_upper_bound; lia). lia. }
  assert (Hdiv : (b * Z.of_nat (S k) <= rem < (b + 1) * Z.of_nat (S k))%Z).
  { unfold b. pose proof (Z.div_mod rem (Z.of_nat (S k)) ltac:(lia)). pose proof (Z.mod_pos_bound rem (Z.of_nat (S k)) ltac:(lia)). nia. }
  destruct k as [|k].
  - cbn [bucket_sizes length]. split; [reflexivity|]. unfold Zsum. cbn [fold_right]. split; [lia|]. intros x [<-|[]]. exact Hb.
  - destruct (IH (rem - b)%Z q) as (I1 & I2 & I3); [lia| |].
    + destruct Hb as [->| ->]; nia.
    + split; [cbn [length]; now rewrite I1|]. split.
      * unfold Zsum in *. cbn [fold_right]. rewrite I2. lia.
      * intros x [<-|Hx]; [exact Hb|now apply I3].
Qed.
Lemma buckets_balanced k rem : (0 < k)%nat -> (0 <= rem)%Z ->
  length (bucket_sizes k rem) = k /\ balanced (bucket_sizes k rem) rem /\
  forall b, In b (bucket_sizes k rem) -> (rem / Z.of_nat k <= b)%Z.
Proof.
  intros Hk Hr. pose proof (Z.div_mod rem (Z.of_nat k) ltac:(lia)) as Hd. pose proof (Z.mod_pos_bound rem (Z.of_nat k) ltac:(lia)) as Hm.
  destruct (buckets_ok k rem (rem / Z.of_nat k)%Z Hk) as (A & B & C); [nia|].
  split; [exact A|]. split; [split; [exact B|eauto]|]. intros b Hb. destruct (C b Hb); lia.
Qed.

(** Positions of the picked scores. *)
Fixpoint positions (last_idx : Z) (sizes : list Z) : list Z :=
  match sizes with [] => [] | b :: s => (last_idx + b)%Z :: positions (last_idx + b)%Z s end.
Lemma pick_ok scores sizes : forall last, (0 <= last)%Z -> (forall b, In b sizes -> 0 <= b)%Z ->
  (last + Zsum sizes < Z.of_nat (length scores))%Z ->
  pick scores last sizes = Ok (map (fun i => clamp01 (nth (Z.to_nat i) scores 0)) (positions last sizes)).
Proof.
  induction sizes as [|b sizes IH]; intros last Hl Hb Hs; cbn [pick positions map]; [reflexivity|].
  assert (Hb0 : (0 <= b)%Z) by (apply Hb; now left).
  assert (HZ : (0 <= Zsum sizes)%Z).
  { clear -Hb. induction sizes as [|c s IHs]; [apply Z.le_refl|]. unfold Zsum in *. cbn [fold_right].
    assert (0 <= c)%Z by (apply Hb; right; now left). assert (0 <= fold_right Z.add 0 s)%Z; [|lia].
    apply IHs. intros x [<-|Hx]; apply Hb; [now left|right; now right]. }
  unfold Zsum in Hs, HZ. cbn [fold_right] in Hs.
  destruct (nth_error scores (Z.to_nat (last + b))) as [s|] eqn:E.
  - rewrite IH; [|lia|intros x Hx; apply Hb; now right|unfold Zsum; lia]. cbn [bind]. rewrite (nth_error_nth _ _ 0 E). reflexivity.
  - apply nth_error_None in E. lia.
Qed.
Lemma positions_length sizes : forall last, length (positions last sizes) = length sizes.
Proof. induction sizes as [|b s IH]; intros last; cbn [positions length]; [reflexivity|]. now rewrite IH. Qed.
Lemma positions_bounds sizes : forall last, (forall b, In b sizes -> 0 <= b)%Z ->
  forall p, In p (positions last sizes) -> (last <= p <= last + Zsum sizes)%Z.
Proof.
  induction sizes as [|b s IH]; intros last Hb p Hp; [destruct Hp|]. cbn [positions] in Hp. unfold Zsum. cbn [fold_right]. fold (Zsum s).
  assert (0 <= b)%Z by (apply Hb; now left).
  assert (0 <= Zsum s)%Z.
  { clear -Hb. induction s as [|c s IHs]; [apply Z.le_refl|]. unfold Zsum in *. cbn [fold_right].
    assert (0 <= c)%Z by (apply Hb; right; now left). assert (0 <= fold_right Z.add 0 s)%Z; [|lia].
    apply IHs. intros x [<-|Hx]; apply Hb; [now left|right; now right]. }
  destruct Hp as [<-|Hp]; [lia|]. specialize (IH (last + b)%Z (fun x Hx => Hb x (or_intror Hx)) p Hp). lia.
Qed.
Lemma positions_sorted sizes : forall last, (forall b, In b sizes -> 0 <= b)%Z -> StronglySorted Z.le (positions last sizes).
Proof.
  induction sizes as [|b s IH]; intros last Hb; cbn [positions]; constructor; [apply IH; intros x Hx; apply Hb; now right|].
  apply Forall_forall. intros p Hp. apply positions_bounds in Hp; [lia|]. intros x Hx. apply Hb. now right.
Qed.
Lemma positions_nth sizes : forall last i, (i < length sizes)%nat ->
  nth i (positions last sizes) 0%Z = (last + Zsum (firstn (S i) sizes))%Z.
Proof.
  induction sizes as [|b s IH]; intros last i Hi; [cbn in Hi; lia|]. cbn [positions]. destruct i as [|i]; cbn [nth].
  - cbn [firstn]. unfold Zsum. cbn [fold_right]. lia.
  - cbn [length] in Hi. rewrite IH by lia. change (firstn (S (S i)) (b :: s)) with (b :: firstn (S i) s).
    unfold Zsum. cbn [fold_right]. lia.
Qed.
Lemma Zsum_firstn_lt sizes k : (forall b, In b sizes -> 0 < b)%Z -> (k < length sizes)%nat -> (Zsum (firstn k sizes) < Zsum sizes)%Z.
Proof.
  revert k. induction sizes as [|b s IH]; intros k Hb Hk; [cbn in Hk; lia|]. assert (0 < b)%Z by (apply Hb; now left).
  assert (Hs : (0 <= Zsum s)%Z).
  { clear -Hb. induction s as [|c s IHs]; [apply Z.le_refl|]. unfold Zsum in *. cbn [fold_right].
    assert (0 < c)%Z by (apply Hb; right; now left). assert (0 <= fold_right Z.add 0 s)%Z; [|lia].
    apply IHs. intros x [<-|Hx]; apply Hb; [now left|right; now right]. }
  destruct k as [|k]; cbn [firstn]; unfold Zsum in *; cbn [fold_right]; [lia|].
  assert (fold_right Z.add 0 (firstn k s) < fold_right Z.add 0 s)%Z; [|lia]. apply IH; [intros x Hx; apply Hb; now right|cbn in Hk; lia].
Qed.

Lemma clamp_bounds s : 0 <= clamp01 s <= 1.
Proof.
  unfold clamp01. destruct (Qlt_bool s 1) eqn:E1; cbv zeta.
  - apply qlt_iff in E1. destruct (Qlt_bool 0 s) eqn:E2; [apply qlt_iff in E2|]; lra.
  - destruct (Qlt_bool 0 1); lra.
Qed.
Lemma clamp_id s : 0 <= s <= 1 -> clamp01 s == s.
Proof.
  intros H. unfold clamp01. destruct (Qlt_bool s 1) eqn:E1; cbv zeta.
  - destruct (Qlt_bool 0 s) eqn:E2; [reflexivity|]. apply qlt_false in E2. lra.
  - apply qlt_false in E1. change (Qlt_bool 0 1) with true. cbn. lra.
Qed.
Lemma clamp_mono a b : a <= b -> clamp01 a <= clamp01 b.
Proof.
  intros H. unfold clamp01. cbv zeta. change (Qlt_bool 0 1) with true.
  destruct (Qlt_bool a 1) eqn:A1; [apply qlt_iff in A1|apply qlt_false in A1];
  (destruct (Qlt_bool b 1) eqn:B1; [apply qlt_iff in B1|apply qlt_false in B1]);
  (destruct (Qlt_bool 0 a) eqn:A2; [apply qlt_iff in A2|apply qlt_false in A2]);
  (destruct (Qlt_bool 0 b) eqn:B2; [apply qlt_iff in B2|apply qlt_false in B2]);
  change (Qlt_bool 0 1) with true; cbv iota; lra.
Qed.

Theorem decide_quantiles scores n : (1 < n)%Z -> (n < Z.of_nat (length scores))%Z ->
  exists sizes, length sizes = Z.to_nat (n - 1) /\ balanced sizes (Z.of_nat (length scores)) /\ (forall b, In b sizes -> 0 < b)%Z /\
    decide_cutoffs scores n = Ok (nth 0 scores 0 ::
      map (fun i => clamp01 (nth (Z.to_nat (Zsum (firstn i sizes))) scores 0)) (seq 1 (Z.to_nat (n - 2))) ++ [1]).
Proof.
  intros H1 H2. set (N := Z.of_nat (length scores)) in *.
  destruct (buckets_balanced (Z.to_nat (n - 1)) N) as (A & B & C); [lia|lia|].
  set (sizes := bucket_sizes (Z.to_nat (n - 1)) N) in *.
  assert (Hpos : forall b, In b sizes -> (0 < b)%Z).
  { intros b Hb. specialize (C b Hb). assert (0 < N / Z.of_nat (Z.to_nat (n - 1)))%Z; [|lia]. apply Z.div_str_pos. lia. }
  exists sizes. split; [exact A|]. split; [exact B|]. split; [exact Hpos|].
  unfold decide_cutoffs. rewrite (proj2 (Z.leb_gt _ _)) by lia. rewrite (proj2 (Z.eqb_neq _ _)) by lia.
  fold N. rewrite (proj2 (Z.leb_gt _ _)) by lia. fold sizes. cbv zeta.
  assert (Hs0 : exists sc, scores = nth 0 scores 0 :: sc).
  { subst N. destruct scores as [|s0 sc]; [cbn in H2; lia|]. now exists sc. }
  destruct Hs0 as (sc & Es).
  set (k := (Z.to_nat (n - 1) - 1)%nat).
  assert (Hin : forall b, In b (firstn k sizes) -> In b sizes).
  { intros b Hb. rewrite <- (firstn_skipn k sizes). apply in_or_app. now left. }
  assert (Hlt : (Zsum (firstn k sizes) < N)%Z).
  { destruct B as [B _]. rewrite <- B. apply Zsum_firstn_lt; [exact Hpos|]. unfold k. lia. }
  rewrite pick_ok; [|lia|intros b Hb; specialize (Hpos b (Hin b Hb)); lia|fold N; lia].
  cbn [bind].
  assert (Lk : length (firstn k sizes) = k) by (rewrite firstn_length; unfold k; lia).
  assert (Em : map (fun i => clamp01 (nth (Z.to_nat i) scores 0)) (positions 0 (firstn k sizes)) =
               map (fun i => clamp01 (nth (Z.to_nat (Zsum (firstn i sizes))) scores 0)) (seq 1 (Z.to_nat (n - 2)))).
  { replace (positions 0 (firstn k sizes)) with (map (fun i => Zsum (firstn i sizes)) (seq 1 k)).
    - rewrite map_map. f_equal. f_equal. unfold k. lia.
    - symmetry. apply (nth_ext _ _ 0%Z 0%Z); [rewrite positions_length, Lk, map_length, seq_length; reflexivity|].
      intros i Hi. rewrite positions_length, Lk in Hi. rewrite positions_nth by (rewrite Lk; exact Hi).
      rewrite (nth_map _ _ _ 0%nat) by (rewrite seq_length; exact Hi). rewrite seq_nth by exact Hi.
      rewrite firstn_firstn. replace (Nat.min (S i) k) with (1 + i)%nat by lia. lia. }
  rewrite Em. clear Em.
  set (body := map _ (seq 1 _)).
  assert (Lb : length body = Z.to_nat (n - 2)) by (unfold body; now rewrite map_length, seq_length).
  rewrite Es at 1. cbv beta iota.
  assert (El : (Z.of_nat (length (nth 0 scores 0%Q :: body ++ [1%Q])) =? n)%Z = true).
  { apply Z.eqb_eq. cbn [length]. rewrite app_length, Lb. cbn [length]. lia. }
  rewrite El. reflexivity.
Qed.

Lemma decide_one scores : decide_cutoffs scores 1 = Ok [0].
Proof. reflexivity. Qed.
Lemma decide_uniform scores n : (1 < n)%Z -> (Z.of_nat (length scores) <= n)%Z ->
  exists l, decide_cutoffs scores n = Ok l /\ length l = Z.to_nat n /\
    forall i, (i < Z.to_nat n)%nat -> nth i l 0 == inject_Z (Z.of_nat i) / inject_Z (n - 1).
Proof.
  intros H1 H2. unfold decide_cutoffs. rewrite (proj2 (Z.leb_gt _ _)) by lia. rewrite (proj2 (Z.eqb_neq _ _)) by lia.
  cbv zeta. rewrite (proj2 (Z.leb_le _ _)) by lia.
  destruct (sequence_ok (Z.to_nat (n - 1))) as (l & El & Ll & Hl); [lia|].
  replace (Z.of_nat (Z.to_nat (n - 1))) with (n - 1)%Z in * by lia.
  exists l. split; [exact El|]. split; [lia|]. intros i Hi. apply Hl. lia.
Qed.
Theorem decide_total scores n : (0 < n)%Z -> exists l, decide_cutoffs scores n = Ok l /\ Z.of_nat (length l) = n.
Proof.
  intros Hn. destruct (Z.eq_dec n 1) as [->|H1]; [exists [0]; now split|].
  destruct (Z_le_gt_dec (Z.of_nat (length scores)) n) as [H|H].
  - destruct (decide_uniform scores n) as (l & E & L & _); [lia|exact H|]. exists l. split; [exact E|lia].
  - destruct (decide_quantiles scores n) as (sz & _ & _ & _ & E); [lia|lia|]. eexists. split; [exact E|].
    cbn [length]. rewrite app_length, map_length, seq_length. cbn [length]. lia.
Qed.
Lemma decide_reject scores n : (n <= 0)%Z -> decide_cutoffs scores n = Err CheckFailed.
Proof. intros H. unfold decide_cutoffs. now rewrite (proj2 (Z.leb_le _ _)) by lia. Qed.

(** ** Order *)
Lemma ascending_nth l : ascending l -> forall i j, (i <= j < length l)%nat -> nth i l 0 <= nth j l 0.
Proof.
  induction 1 as [|x l Hs IH Hx]; intros i j Hij; [cbn in Hij; lia|]. cbn [length] in Hij.
  destruct j as [|j]; [assert (i = 0)%nat as -> by lia; apply Qle_refl|]. destruct i as [|i]; cbn [nth].
  - rewrite Forall_forall in Hx. apply Hx. apply nth_In. lia.
  - apply IH. lia.
Qed.
Lemma ascending_of_nth l : (forall i j, (i < j < length l)%nat -> nth i l 0 <= nth j l 0) -> ascending l.
Proof.
  induction l as [|x l IH]; intros H; constructor.
  - apply IH. intros i j Hij. apply (H (S i) (S j)). cbn [length]. lia.
  - apply Forall_forall. intros y Hy. destruct (In_nth _ _ 0 Hy) as (j & Hj & <-). apply (H 0%nat (S j)). cbn [length]. lia.
Qed.
Lemma Zsum_firstn_mono sizes i j : (forall b, In b sizes -> 0 <= b)%Z -> (i <= j)%nat -> (Zsum (firstn i sizes) <= Zsum (firstn j sizes))%Z.
Proof.
  revert i j. induction sizes as [|b s IH]; intros i j Hb Hij; [rewrite !firstn_nil; lia|].
  assert (0 <= b)%Z by (apply Hb; now left). assert (Hb' : forall x, In x s -> (0 <= x)%Z) by (intros x Hx; apply Hb; now right).
  destruct i as [|i], j as [|j]; cbn [firstn]; try lia; unfold Zsum in *; cbn [fold_right].
  - specialize (IH 0%nat j Hb' ltac:(lia)). cbn [firstn fold_right] in IH. lia.
  - specialize (IH i j Hb' ltac:(lia)). lia.
Qed.
Theorem decide_ascending scores n l : ascending scores -> unit_scores scores ->
  decide_cutoffs scores n = Ok l -> ascending l /\ forall c, In c l -> 0 <= c <= 1.
Proof.
  intros Ha Hu E. destruct (Z_le_gt_dec n 0) as [Hn|Hn]; [now rewrite decide_reject in E by exact Hn|].
  destruct (Z.eq_dec n 1) as [->|H1].
  { rewrite decide_one in E. apply Ok_inj in E. subst l. split; [repeat constructor|]. intros c [<-|[]]. lra. }
  destruct (Z_le_gt_dec (Z.of_nat (length scores)) n) as [H|H].
  - destruct (decide_uniform scores n) as (l' & E' & L & Hn'); [lia|exact H|]. rewrite E in E'. apply Ok_inj in E'. subst l'.
    assert (HK : 0 < inject_Z (n - 1)) by (unfold Qlt; cbn; lia).
    split.
    + apply ascending_of_nth. intros i j Hij. rewrite (Hn' i), (Hn' j) by lia. unfold Qdiv.
      apply Qmult_le_compat_r; [rewrite <- Zle_Qle; lia|]. apply Qinv_le_0_compat. lra.
    + intros c Hc. destruct (In_nth _ _ 0 Hc) as (i & Hi & <-). rewrite (Hn' i) by lia. split.
      * apply Qle_shift_div_l; [exact HK|]. setoid_replace (0 * inject_Z (n - 1)) with 0 by ring. change 0 with (inject_Z 0). rewrite <- Zle_Qle. lia.
      * apply Qle_shift_div_r; [exact HK|]. setoid_replace (1 * inject_Z (n - 1)) with (inject_Z (n - 1)) by ring. rewrite <- Zle_Qle. lia.
  - destruct (decide_quantiles scores n) as (sz & Lsz & B & Hp & E'); [lia|lia|]. rewrite E in E'. apply Ok_inj in E'.
    assert (Hidx : forall i, (i < length sz)%nat -> (0 <= Zsum (firstn i sz) < Z.of_nat (length scores))%Z).
    { intros i Hi. split.
      - pose proof (Zsum_firstn_mono sz 0 i) as M. cbn [firstn] in M. apply M; [intros b Hb; specialize (Hp b Hb); lia|lia].
      - destruct B as [B _]. rewrite <- B. now apply Zsum_firstn_lt. }
    assert (Hc : forall i, (i < length sz)%nat -> 0 <= nth (Z.to_nat (Zsum (firstn i sz))) scores 0 <= 1).
    { intros i Hi. specialize (Hidx i Hi). apply Hu. apply nth_In. lia. }
    assert (Hnth : forall i, (i < length sz)%nat -> nth i l 0 == nth (Z.to_nat (Zsum (firstn i sz))) scores 0).
    { intros [|i] Hi; rewrite E'; cbn [nth]; [reflexivity|].
      rewrite app_nth1 by (rewrite map_length, seq_length; lia).
      rewrite (nth_map _ _ _ 0%nat) by (rewrite seq_length; lia). rewrite seq_nth by lia.
      apply clamp_id. now apply Hc. }
    assert (Ll : length l = S (length sz)).
    { rewrite E'. cbn [length]. rewrite app_length, map_length, seq_length. cbn [length]. lia. }
    assert (Hlast : nth (length sz) l 0 = 1).
    { rewrite E'. destruct (length sz) as [|m] eqn:Em; [lia|]. cbn [nth]. rewrite app_nth2; rewrite map_length, seq_length; [|lia].
      replace (m - Z.to_nat (n - 2))%nat with 0%nat by lia. reflexivity. }
    split.
    + apply ascending_of_nth. intros i j Hij. destruct (Nat.eq_dec j (length sz)) as [->|Hj].
      * rewrite Hlast, Hnth by lia. apply Hc. lia.
      * rewrite (Hnth i), (Hnth j) by lia. apply ascending_nth; [exact Ha|].
        assert (Zsum (firstn i sz) <= Zsum (firstn j sz))%Z by (apply Zsum_firstn_mono; [intros b Hb; specialize (Hp b Hb); lia|lia]).
        pose proof (Hidx i ltac:(lia)). pose proof (Hidx j ltac:(lia)). lia.
    + intros c Hin. destruct (In_nth _ _ 0 Hin) as (i & Hi & <-). destruct (Nat.eq_dec i (length sz)) as [->|Hj]; [rewrite Hlast; lra|].
      rewrite Hnth by lia. apply Hc. lia.
Qed.

(** ** Sorting *)
Lemma insert_perm x l : Permutation (insert x l) (x :: l).
Proof. induction l as [|y l IH]; cbn [insert]; [reflexivity|]. destruct (Qle_bool x y); [reflexivity|]. rewrite IH. apply perm_swap. Qed.
Lemma sort_perm l : Permutation (sort l) l.
Proof. unfold sort. induction l as [|x l IH]; cbn [fold_right]; [reflexivity|]. now rewrite insert_perm, IH. Qed.
Lemma insert_sorted x l : ascending l -> ascending (insert x l).
Proof.
  induction 1 as [|y l Hs IH Hy]; cbn [insert]; [repeat constructor|]. destruct (Qle_bool x y) eqn:E.
  - apply Qle_bool_iff in E. constructor; [now constructor|]. constructor; [exact E|].
    rewrite Forall_forall in *. intros z Hz. eapply Qle_trans; [exact E|now apply Hy].
  - apply qle_false in E. constructor; [exact IH|]. apply Forall_forall. intros z Hz.
    apply (Permutation_in _ (insert_perm x l)) in Hz. destruct Hz as [<-|Hz]; [now apply Qlt_le_weak|]. rewrite Forall_forall in Hy. now apply Hy.
Qed.
Lemma sort_sorted l : ascending (sort l).
Proof. unfold sort. induction l as [|x l IH]; cbn [fold_right]; [constructor|]. now apply insert_sorted. Qed.

(** ** Tracking collection *)
Lemma collect_pds_iff sc : forall k i, is_ok (collect_pds sc k i) = true <-> (k = 0 \/ i + k <= length sc)%nat.
Proof.
  induction k as [|k IH]; intros i; cbn [collect_pds]; [cbn; split; [now left|reflexivity]|].
  destruct (nth_error sc i) as [s|] eqn:E.
  - specialize (IH (S i)). assert (i < length sc)%nat by (apply nth_error_Some; congruence).
    destruct (collect_pds sc k (S i)) as [l|e]; cbn [bind is_ok] in *; split; intros H0; try discriminate; try reflexivity.
    + right. destruct (proj1 IH eq_refl); lia.
    + apply IH. right. lia.
  - apply nth_error_None in E. cbn. split; [discriminate|]. intros [|]; lia.
Qed.
Lemma collect_pds_val sc : forall k i l, collect_pds sc k i = Ok l -> l = firstn k (skipn i sc).
Proof.
  induction k as [|k IH]; intros i l E; cbn [collect_pds] in E; [apply Ok_inj in E; subst; reflexivity|].
  destruct (nth_error sc i) as [s|] eqn:En; [|discriminate].
  destruct (collect_pds sc k (S i)) as [l'|] eqn:Ec; cbn [bind] in E; [|discriminate]. apply Ok_inj in E. subst l.
  apply IH in Ec. subst l'. clear IH.
  revert i En. induction sc as [|a sc IHsc]; intros [|i] En; cbn in En; try discriminate; [injection En as ->; reflexivity|].
  cbn [skipn]. now apply IHsc.
Qed.
Definition right_from (pds : list (list (list Q))) (frames : list (list Q)) (i : nat) : Prop :=
  forall j frame, nth_error frames j = Some frame ->
    exists scene', nth_error pds (i + j) = Some scene' /\ length scene' = length frame.
Lemma collect_frames_right pds frames : forall i, right_from pds frames i -> collect_frames pds frames i = Ok (concat frames).
Proof.
  induction frames as [|f frames IH]; intros i H; cbn [collect_frames concat]; [reflexivity|].
  destruct (H 0%nat f eq_refl) as (sc & E & L). rewrite Nat.add_0_r in E. rewrite E.
  destruct (collect_pds f (length sc) 0) as [a|e] eqn:Ec.
  - apply collect_pds_val in Ec. cbn [skipn] in Ec. rewrite L, firstn_all in Ec. subst a. cbn [bind].
    rewrite IH; [reflexivity|]. intros j fr Hj. destruct (H (S j) fr Hj) as (sc' & E' & L'). exists sc'. split; [|exact L'].
    now rewrite <- Nat.add_succ_comm in E'.
  - assert (Hok : is_ok (collect_pds f (length sc) 0) = true) by (apply collect_pds_iff; lia). rewrite Ec in Hok. discriminate.
Qed.
Lemma collect_frames_inv pds frames : forall i l, collect_frames pds frames i = Ok l ->
  (length l <= length (concat frames))%nat /\ (length l = length (concat frames) -> right_from pds frames i).
Proof.
  induction frames as [|f frames IH]; intros i l E; cbn [collect_frames concat] in *.
  - apply Ok_inj in E. subst l. split; [cbn; lia|]. intros _ [|j] fr Hj; discriminate.
  - destruct (nth_error pds i) as [sc|] eqn:En; [|discriminate].
    destruct (collect_pds f (length sc) 0) as [a|] eqn:Ec; cbn [bind] in E; [|discriminate].
    destruct (collect_frames pds frames (S i)) as [l'|] eqn:Ef; cbn [bind] in E; [|discriminate]. apply Ok_inj in E. subst l.
    destruct (IH _ _ Ef) as [I1 I2].
    assert (Hk : (length sc <= length f)%nat).
    { assert (Hok : is_ok (collect_pds f (length sc) 0) = true) by now rewrite Ec. apply collect_pds_iff in Hok. lia. }
    apply collect_pds_val in Ec. cbn [skipn] in Ec. assert (La : length a = length sc) by (subst a; rewrite firstn_length; lia).
    rewrite !app_length. split; [lia|]. intros Heq [|j] fr Hj.
    + injection Hj as <-. exists sc. rewrite Nat.add_0_r. split; [exact En|lia].
    + assert (Heq' : length l' = length (concat frames)) by lia. destruct (I2 Heq' j fr Hj) as (sc' & E' & L'). exists sc'.
      rewrite <- Nat.add_succ_comm. now split.
Qed.
Theorem collect_scores_iff pds : collect_scores pds = Ok (concat (map (@concat Q) pds)) <-> bounds_right pds.
Proof.
  unfold collect_scores. split.
  - intros E. destruct (mapM (fun scene => collect_frames pds scene 0) pds) as [ls|] eqn:Em; cbn [bind] in E; [|discriminate].
    apply Ok_inj in E. assert (EL : length (concat ls) = length (concat (map (@concat Q) pds))) by now rewrite E. clear E.
    assert (G : forall ss ls, mapM (fun scene => collect_frames pds scene 0) ss = Ok ls ->
              (length (concat ls) <= length (concat (map (@concat Q) ss)))%nat /\
              (length (concat ls) = length (concat (map (@concat Q) ss)) -> forall scene, In scene ss -> right_from pds scene 0)).
    { clear. induction ss as [|sc ss IH]; intros ls E; cbn [mapM] in E.
      - apply Ok_inj in E. subst ls. split; [cbn; lia|]. intros _ s [].
      - destruct (collect_frames pds sc 0) as [l|] eqn:Ef; cbn [bind] in E; [|discriminate].
        destruct (mapM _ ss) as [ls'|] eqn:Em; cbn [bind] in E; [|discriminate]. apply Ok_inj in E. subst ls.
        destruct (IH _ eq_refl) as [I1 I2]. destruct (collect_frames_inv _ _ _ _ Ef) as [J1 J2].
        cbn [map concat]. rewrite !app_length. split; [lia|]. intros Heq s [<-|Hs]; [apply J2; lia|apply I2; [lia|exact Hs]]. }
    destruct (G _ _ Em) as [_ G2]. intros s scene f frame Hs Hf. apply nth_error_In in Hs.
    apply (G2 EL scene Hs f frame Hf).
  - intros H. assert (G : forall ss, (forall scene, In scene ss -> right_from pds scene 0) ->
              mapM (fun scene => collect_frames pds scene 0) ss = Ok (map (@concat Q) ss)).
    { clear. induction ss as [|sc ss IH]; intros H; cbn [mapM map]; [reflexivity|].
      rewrite collect_frames_right by (apply H; now left). cbn [bind]. rewrite IH; [reflexivity|]. intros s Hs. apply H. now right. }
    rewrite G; [reflexivity|]. intros scene Hs j fr Hj. destruct (In_nth_error _ _ Hs) as (s & Es). apply (H s scene j fr Es Hj).
Qed.
Theorem estimate_detection_ok pds n : (0 < n)%Z ->
  exists all cutoffs, Permutation all (concat pds) /\ ascending all /\
    estimate_detection [] n pds (length pds) = Ok cutoffs /\ decide_cutoffs all n = Ok cutoffs /\ Z.of_nat (length cutoffs) = n.
Proof.
  intros Hn. destruct (decide_total (sort (concat pds)) n Hn) as (l & E & L).
  exists (sort (concat pds)), l. split; [apply sort_perm|]. split; [apply sort_sorted|]. unfold estimate_detection.
  rewrite Nat.eqb_refl. cbn [negb]. auto.
Qed.
Theorem estimate_tracking_ok pds n : (0 < n)%Z -> pds <> [] -> bounds_right pds ->
  exists all cutoffs, Permutation all (concat (map (@concat Q) pds)) /\ ascending all /\
    estimate_tracking [] n pds (length pds) = Ok cutoffs /\ decide_cutoffs all n = Ok cutoffs /\ Z.of_nat (length cutoffs) = n.
Proof.
  intros Hn Hp Hb. set (A := concat (map (@concat Q) pds)). destruct (decide_total (sort A) n Hn) as (l & E & L).
  exists (sort A), l. split; [apply sort_perm|]. split; [apply sort_sorted|].
  split; [|split; assumption]. unfold estimate_tracking. rewrite Nat.eqb_refl. cbn [negb].
  apply collect_scores_iff in Hb. destruct pds as [|p ps]; [now destruct Hp|]. rewrite (proj2 (Z.leb_gt _ _)) by lia.
  rewrite Hb. cbn [bind]. exact E.
Qed.

Theorem given_cutoffs pds n num_gts existing :
  (length pds <> num_gts -> estimate_tracking existing n pds num_gts = Err CheckFailed) /\
  (length pds = num_gts -> pds = [] -> estimate_tracking existing n pds num_gts = Ok []) /\
  (length pds = num_gts -> pds <> [] -> existing <> [] -> estimate_tracking existing n pds num_gts = Ok existing) /\
  (length pds = num_gts -> pds <> [] -> existing = [] -> (n <= 0)%Z -> estimate_tracking existing n pds num_gts = Err CheckFailed) /\
  (forall scores, existing <> [] \/ length scores <> num_gts -> estimate_detection existing n scores num_gts = Err CheckFailed).
Proof.
  unfold estimate_tracking, estimate_detection. split; [|split; [|split; [|split]]].
  - intros H. apply Nat.eqb_neq in H. rewrite H. reflexivity.
  - intros <- ->. reflexivity.
  - intros <- Hp He. rewrite Nat.eqb_refl. cbn [negb]. destruct pds; [congruence|]. destruct existing; [congruence|]. reflexivity.
  - intros <- Hp -> Hn. rewrite Nat.eqb_refl. cbn [negb]. destruct pds; [congruence|]. apply Z.leb_le in Hn. rewrite Hn. reflexivity.
  - intros scores H. destruct (Nat.eqb (length scores) num_gts) eqn:E; cbn [negb]; [|reflexivity].
    destruct existing; [|reflexivity]. apply Nat.eqb_eq in E. destruct H as [H|H]; congruence.
Qed.
