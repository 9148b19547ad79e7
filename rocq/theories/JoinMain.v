(** Proofs about the whole of merge, and examples. *)
From Coq Require Import String Permutation.
From Verif Require Import Base ResultLib ListLib JoinModel JoinSpec JoinLists JoinProofs JoinGroup.
Open Scope list_scope.
Open Scope nat_scope.

Lemma prefix_iff p : forall c, String.prefix p c = true <-> exists rest, c = String.append p rest.
Proof.
  induction p as [|a p IH]; intros c.
  - destruct c; cbn; split; intros _; try reflexivity; eexists; reflexivity.
  - destruct c as [|b c]; cbn [String.prefix].
    + split; [discriminate | intros [r H]; discriminate].
    + destruct (Ascii.ascii_dec a b) as [-> |Hn].
      * rewrite IH. split; intros [r H]; exists r; cbn in *; congruence.
      * split; [discriminate | intros [r H]; cbn in H; congruence].
Qed.
Lemma select_iff prefix t c : In c (select_key_columns prefix t) <-> is_key prefix t c.
Proof. unfold select_key_columns, is_key. rewrite filter_In, prefix_iff. reflexivity. Qed.
Lemma common_iff prefix left right c :
  In c (filter (fun c => mem c (select_key_columns prefix right)) (select_key_columns prefix left))
  <-> common_key prefix left right c.
Proof. rewrite filter_In, mem_iff, !select_iff. reflexivity. Qed.
Lemma well_formed_ext (P Q : string -> Prop) t : (forall c, Q c -> P c) -> well_formed P t -> well_formed Q t.
Proof. intros H (H1 & H2 & H3). split; [exact H1|]. split; [exact H2|]. intros r c v Hr Hc. apply H3; auto. Qed.

Lemma differs_iff keys common : negb (forallb (fun c => mem c common) keys) = true <-> exists c, In c keys /\ ~ In c common.
Proof.
  rewrite negb_true_iff. induction keys as [|k keys IH]; cbn.
  - split; [discriminate | intros (c & [] & _)].
  - destruct (mem k common) eqn:E; cbn.
    + rewrite IH. apply mem_iff in E. split; intros (c & Hc & Hn); exists c; [tauto|].
      destruct Hc as [<- |Hc]; [contradiction|tauto].
    + apply mem_false in E. split; [|reflexivity]. intros _. exists k. tauto.
Qed.

Section Whole.
  Context (arrange : list row -> list row) (prefix : string) (left right : table).
  Hypothesis Harr : forall l, Permutation (arrange l) l.
  Let P := common_key prefix left right.
  Let on := filter (fun c => mem c (select_key_columns prefix right)) (select_key_columns prefix left).
  Hypothesis WL : well_formed P left.
  Hypothesis WR : well_formed P right.

  Lemma HP c : P c <-> In c on.
  Proof. symmetry. apply common_iff. Qed.
  Lemma IL : incl on (columns left).
  Proof. intros c H. apply HP in H. exact (proj1 (proj1 H)). Qed.
  Lemma IR : incl on (columns right).
  Proof. intros c H. apply HP in H. exact (proj1 (proj2 H)). Qed.
  Lemma on_nodup : NoDup on.
  Proof. apply NoDup_filter, NoDup_filter. exact (proj1 WL). Qed.

  Lemma prepare t other flag : well_formed P t -> incl on (columns t) -> on <> [] ->
    (forall c, P c <-> is_key prefix t c /\ is_key prefix other c) ->
    exists t', (if flag && negb (forallb (fun c => mem c on) (select_key_columns prefix t))
                then group_by arrange on t else Ok t) = Ok t' /\
      prepared P prefix flag t other t' /\ well_formed P t' /\ incl on (columns t') /\
      (flag = true -> extra_key prefix t other -> unique_on P t').
  Proof.
    intros Wt It Hon HPt.
    assert (Hex : (flag && negb (forallb (fun c => mem c on) (select_key_columns prefix t)) = true)
                  <-> (flag = true /\ extra_key prefix t other)).
    { rewrite andb_true_iff, differs_iff. unfold extra_key.
      split; intros [Hf (c & Hc & Hn)]; (split; [exact Hf|]); exists c.
      - apply select_iff in Hc. split; [exact Hc|]. intros Ho. apply Hn, HP, HPt. tauto.
      - split; [apply select_iff; exact Hc|]. intros Ho. apply HP, HPt in Ho. tauto. }
    destruct (flag && negb (forallb (fun c => mem c on) (select_key_columns prefix t))) eqn:Eb.
    - pose proof (proj1 Hex eq_refl) as Hc.
      destruct (group_by_grouped t on P HP) with (arrange := arrange) as (g & Hg & H1 & H2 & H3 & H4);
        [apply (well_formed_ext P); [intros c; apply HP | exact Wt] | exact It | exact on_nodup | exact Harr | exact Hon|].
      exists g. split; [exact Hg|]. split; [left; tauto|].
      split; [apply (well_formed_ext (fun c => In c on)); [intros c; apply HP | exact H2]|].
      split; [exact H3 | intros _ _; exact H4].
    - exists t. split; [reflexivity|].
      assert (Hno : ~ (flag = true /\ extra_key prefix t other)) by (intros H; apply Hex in H; discriminate).
      split; [right; tauto|]. split; [exact Wt|]. split; [exact It|]. intros Hf He. tauto.
  Qed.

  Lemma merge_full ln rn lg rg : (exists c, P c) ->
    exists left' right' out,
      prepared P prefix lg left right left' /\ prepared P prefix rg right left right' /\
      merge arrange left right ln rn lg rg prefix = Ok out /\
      joined P ln rn left' right' out /\
      well_formed P left' /\ well_formed P right' /\ (forall c, P c -> In c (columns left')) /\
      (forall c, P c -> In c (columns right')) /\
      (lg = true -> extra_key prefix left right -> unique_on P left') /\
      (rg = true -> extra_key prefix right left -> unique_on P right') /\
      columns out = out_columns left' right' on.
  Proof.
    intros [k Hk]. assert (Hon : on <> []) by (apply HP in Hk; intros H; rewrite H in Hk; exact Hk).
    destruct (prepare left right lg WL IL Hon (fun c => conj (fun H => H) (fun H => H))) as (l' & El & Pl & Wl & Il & Ul).
    destruct (prepare right left rg WR IR Hon) as (r' & Er & Pr & Wr & Ir & Ur).
    { intros c. unfold P, common_key. tauto. }
    destruct (pd_merge_joined l' r' on P HP) with (arrange := arrange) (ln := ln) (rn := rn) as (out & Eo & Ho & Hc);
      [apply (well_formed_ext P); [intros c; apply HP | exact Wl]
      |apply (well_formed_ext P); [intros c; apply HP | exact Wr]
      |exact Il | exact Ir | exact Harr | exact Hon|].
    exists l', r', out. split; [exact Pl|]. split; [exact Pr|]. split.
    { unfold merge. fold on. rewrite El. cbn [bind]. rewrite Er. cbn [bind]. exact Eo. }
    split; [exact Ho|]. split; [exact Wl|]. split; [exact Wr|].
    split; [intros c H; apply Il, HP, H|]. split; [intros c H; apply Ir, HP, H|].
    split; [exact Ul|]. split; [exact Ur | exact Hc].
  Qed.
  Lemma merge_refuses ln rn lg rg : ~ (exists c, P c) ->
    merge arrange left right ln rn lg rg prefix = Err ValueError.
  Proof.
    intros Hn. assert (Hon : on = []).
    { destruct on as [|k ks] eqn:E; [reflexivity|]. exfalso. apply Hn. exists k. apply HP. rewrite E. left. reflexivity. }
    unfold merge. fold on. rewrite Hon.
    destruct (lg && _); [reflexivity|]. cbn [bind]. destruct (rg && _); reflexivity.
  Qed.
End Whole.

Theorem merge_is_join arrange prefix left right ln rn lg rg :
  (forall l, Permutation (arrange l) l) ->
  let on := common_key prefix left right in
  well_formed on left -> well_formed on right -> (exists c, on c) ->
  exists left' right' out,
    prepared on prefix lg left right left' /\ prepared on prefix rg right left right' /\
    merge arrange left right ln rn lg rg prefix = Ok out /\
    joined on ln rn left' right' out.
Proof.
  intros Ha on WL WR He.
  destruct (merge_full arrange prefix left right Ha WL WR ln rn lg rg He) as (l & r & o & H1 & H2 & H3 & H4 & _).
  exists l, r, o. tauto.
Qed.

(** Counting the rows of a join. *)
Lemma same_length {A} (l l' : list A) : NoDup l -> NoDup l' -> (forall x, In x l <-> In x l') -> List.length l = List.length l'.
Proof.
  intros H H' Hi. apply Nat.le_antisymm; apply NoDup_incl_length; try assumption; intros x Hx; apply Hi; exact Hx.
Qed.
Lemma nodup_map_on {A B} (f : A -> B) l : (forall x y, In x l -> In y l -> f x = f y -> x = y) -> NoDup l -> NoDup (map f l).
Proof.
  intros Hi H. induction H as [|x l Hx Hl IH]; cbn; constructor.
  - intros Hin. apply in_map_iff in Hin. destruct Hin as [y [Hy Hyl]].
    assert (y = x) by (apply Hi; [right; exact Hyl | left; reflexivity | exact Hy]). subst. contradiction.
  - apply IH. intros a b Ha Hb. apply Hi; right; assumption.
Qed.
Lemma row_at_lt t i : (exists r, row_at t i r) <-> i < List.length (rows t).
Proof.
  split.
  - intros [r H]. apply nth_error_Some. unfold row_at in H. congruence.
  - intros H. destruct (nth_error (rows t) i) as [r|] eqn:E; [exists r; exact E|]. apply nth_error_None in E. lia.
Qed.

Lemma left_join_length P left right out : joined P false true left right out -> unique_on P right ->
  List.length (rows out) = List.length (rows left).
Proof.
  intros (s & Hn & Hp & Hl & Hr & Hz & Hf) Hu.
  rewrite <- (forall2_length _ _ _ Hf), <- (map_length fst s).
  assert (Hlen : List.length (rows left) = List.length (map Some (seq 0 (List.length (rows left)))))
    by (rewrite map_length, seq_length; reflexivity).
  rewrite Hlen. apply same_length.
  - apply nodup_map_on; [|exact Hn]. intros [[i|] [j|]] [[i'|] [j'|]] Hx Hy He; cbn in He; try discriminate;
      try (injection He as <-); try contradiction; try reflexivity;
      try (apply Hr in Hx; destruct Hx; discriminate); try (apply Hr in Hy; destruct Hy; discriminate).
    + apply Hp in Hx, Hy. destruct Hx as (l & r & Hli & Hrj & Hag), Hy as (l' & r' & Hli' & Hrj' & Hag').
      unfold row_at in Hli, Hli'. assert (l' = l) by congruence. subst l'. f_equal. f_equal.
      apply (Hu j j' r r' Hrj Hrj'). exact (agree_trans _ _ _ _ _ _ _ (agree_sym _ _ _ _ _ Hag) Hag').
    + exfalso. apply Hp in Hx. apply Hl in Hy. destruct Hx as (l & r & Hli & Hrj & Hag), Hy as (_ & l' & Hli' & Hno).
      unfold row_at in Hli, Hli'. assert (l' = l) by congruence. subst l'. exact (Hno j r Hrj Hag).
    + exfalso. apply Hp in Hy. apply Hl in Hx. destruct Hy as (l & r & Hli & Hrj & Hag), Hx as (_ & l' & Hli' & Hno).
      unfold row_at in Hli, Hli'. assert (l' = l) by congruence. subst l'. exact (Hno j' r Hrj Hag).
  - apply nodup_map_inj; [congruence | apply seq_NoDup].
  - intros x. rewrite !in_map_iff. split.
    + intros [[a b] [Hx Hin]]. cbn in Hx. subst a. destruct x as [i|].
      * exists i. split; [reflexivity|]. apply in_seq. split; [lia|]. cbn. apply row_at_lt.
        destruct b as [j|]; [apply Hp in Hin; destruct Hin as (l & r & H & _) | apply Hl in Hin; destruct Hin as (_ & l & H & _)]; exists l; exact H.
      * destruct b as [j|]; [apply Hr in Hin; destruct Hin; discriminate | contradiction].
    + intros [i [<- Hi]]. apply in_seq in Hi.
      assert (Hlt : i < List.length (rows left)) by lia. apply row_at_lt in Hlt. destruct Hlt as [l Hli].
      destruct (in_dec (fun a b : option nat => ltac:(decide equality; apply Nat.eq_dec)) (Some i) (map fst s)) as [Hin|Hno].
      * apply in_map_iff in Hin. destruct Hin as [y [Hy Hin]]. exists y. split; assumption.
      * exists (Some i, None). split; [reflexivity|]. apply Hl. split; [reflexivity|]. exists l. split; [exact Hli|].
        intros j r Hrj Hag. apply Hno. apply in_map_iff. exists (Some i, Some j). split; [reflexivity|].
        apply Hp. exists l, r. tauto.
Qed.

Theorem one_row_per_record arrange prefix left right rg out :
  (forall l, Permutation (arrange l) l) ->
  let on := common_key prefix left right in
  well_formed on left -> well_formed on right ->
  unique_on on right \/ (rg = true /\ extra_key prefix right left) ->
  merge arrange left right false true false rg prefix = Ok out ->
  List.length (rows out) = List.length (rows left).
Proof.
  intros Ha on WL WR Hu Hm.
  set (keys := filter (fun c => mem c (select_key_columns prefix right)) (select_key_columns prefix left)).
  assert (He : exists c, on c).
  { destruct keys as [|k ks] eqn:E.
    - rewrite merge_refuses in Hm; [discriminate|]. intros [c Hc]. apply common_iff in Hc. fold keys in Hc.
      rewrite E in Hc. exact Hc.
    - exists k. apply common_iff. fold keys. rewrite E. left. reflexivity. }
  destruct (merge_full arrange prefix left right Ha WL WR false true false rg He)
    as (l & r & o & H1 & H2 & H3 & H4 & _ & _ & _ & _ & _ & Hur & _).
  rewrite Hm in H3. injection H3 as <-.
  destruct H1 as [[H1 _]|[_ ->]]; [discriminate|].
  apply (left_join_length on left r out H4).
  destruct H2 as [(Hr1 & Hr2 & _)|[Hno ->]]; [exact (Hur Hr1 Hr2)|].
  destruct Hu as [Hu|Hu]; [exact Hu | contradiction].
Qed.

(** With both tables grouped, no key is repeated. *)
Lemma key_agrees_left (P : string -> Prop) left right out i l j o : NoDup (columns left) -> NoDup (columns out) ->
  (forall c, P c -> In c (columns left)) ->
  made_of P left right out (Some i, j) o -> row_at left i l -> agree P left out l o.
Proof.
  intros NL NO HL [H _] Hl c v Hc.
  assert (Hn : out_name P left right "_x" c c) by (split; [tauto | reflexivity]).
  destruct (H c c (HL c Hc) Hn) as (w & Hw & l' & Hl' & Hlw).
  unfold row_at in Hl, Hl'. assert (l' = l) by congruence. subst l'.
  split; intros Hv; [rewrite (holds_inj _ _ _ _ _ NL Hv Hlw); exact Hw | rewrite (holds_inj _ _ _ _ _ NO Hv Hw); exact Hlw].
Qed.
Lemma key_agrees_right (P : string -> Prop) left right out j r o : NoDup (columns right) -> NoDup (columns out) ->
  (forall c, P c -> In c (columns left)) ->
  made_of P left right out (None, Some j) o -> row_at right j r -> agree P right out r o.
Proof.
  intros NR NO HL [H _] Hr c v Hc.
  assert (Hn : out_name P left right "_x" c c) by (split; [tauto | reflexivity]).
  destruct (H c c (HL c Hc) Hn) as (w & Hw & Hk & _).
  destruct (Hk Hc) as (r' & Hr' & Hrw).
  unfold row_at in Hr, Hr'. assert (r' = r) by congruence. subst r'.
  split; intros Hv; [rewrite (holds_inj _ _ _ _ _ NR Hv Hrw); exact Hw | rewrite (holds_inj _ _ _ _ _ NO Hv Hw); exact Hrw].
Qed.
Lemma forall2_nth {A B} (R : A -> B -> Prop) l l' i y : Forall2 R l l' -> nth_error l' i = Some y ->
  exists x, nth_error l i = Some x /\ R x y.
Proof.
  intros H. revert i. induction H as [|a b l l' Hab H IH]; intros [|i] Hi; cbn in *; try discriminate.
  - injection Hi as <-. exists a. tauto.
  - exact (IH i Hi).
Qed.

Lemma join_unique (P : string -> Prop) ln rn left right out :
  NoDup (columns left) -> NoDup (columns right) -> NoDup (columns out) ->
  (forall c, P c -> In c (columns left)) ->
  joined P ln rn left right out -> unique_on P left -> unique_on P right -> unique_on P out.
Proof.
  intros NL NR NO HL (s & Hn & Hp & Hl & Hr & Hz & Hf) Ul Ur a b oa ob Ha Hb Hag.
  destruct (forall2_nth _ _ _ _ _ Hf Ha) as [sa [Hsa Ma]].
  destruct (forall2_nth _ _ _ _ _ Hf Hb) as [sb [Hsb Mb]].
  pose proof (nth_error_In _ _ Hsa) as Ia. pose proof (nth_error_In _ _ Hsb) as Ib.
  assert (Hleft : forall x y, In (Some x, y) s -> exists l, row_at left x l).
  { intros x [y|] H; [apply Hp in H; destruct H as (l & r & H & _) | apply Hl in H; destruct H as (_ & l & H & _)]; exists l; exact H. }
  assert (Hmixed : forall i y j o o', In (Some i, y) s -> In (None, Some j) s ->
    made_of P left right out (Some i, y) o -> made_of P left right out (None, Some j) o' -> agree P out out o o' -> False).
  { intros i y j o o' Hi Hj Mi Mj Ho. destruct (Hleft i y Hi) as [l Hli].
    apply Hr in Hj. destruct Hj as (_ & r & Hrj & Hno). apply (Hno i l Hli).
    apply (agree_trans _ _ _ _ _ _ _ (key_agrees_left _ _ _ _ _ _ _ _ NL NO HL Mi Hli)).
    apply (agree_trans _ _ _ _ _ _ _ Ho). apply agree_sym. exact (key_agrees_right _ _ _ _ _ _ _ NR NO HL Mj Hrj). }
  assert (Hss : sa = sb).
  { destruct sa as [[i|] y], sb as [[i'|] y'].
    - destruct (Hleft i y Ia) as [l Hli]. destruct (Hleft i' y' Ib) as [l' Hli'].
      assert (i = i').
      { apply (Ul i i' l l' Hli Hli').
        apply (agree_trans _ _ _ _ _ _ _ (key_agrees_left _ _ _ _ _ _ _ _ NL NO HL Ma Hli)).
        apply (agree_trans _ _ _ _ _ _ _ Hag). apply agree_sym. exact (key_agrees_left _ _ _ _ _ _ _ _ NL NO HL Mb Hli'). }
      subst i'. f_equal. unfold row_at in Hli, Hli'. assert (l' = l) by congruence. subst l'.
      destruct y as [j|], y' as [j'|]; [| | |reflexivity].
      + apply Hp in Ia, Ib. destruct Ia as (la & r & Hla & Hrj & Hx), Ib as (lb & r' & Hlb & Hrj' & Hx').
        unfold row_at in Hla, Hlb. assert (la = l) by congruence. assert (lb = l) by congruence. subst la lb.
        f_equal. apply (Ur j j' r r' Hrj Hrj'). exact (agree_trans _ _ _ _ _ _ _ (agree_sym _ _ _ _ _ Hx) Hx').
      + exfalso. apply Hp in Ia. apply Hl in Ib. destruct Ia as (la & r & Hla & Hrj & Hx), Ib as (_ & lb & Hlb & Hno).
        unfold row_at in Hla, Hlb. assert (la = l) by congruence. assert (lb = l) by congruence. subst la lb. exact (Hno j r Hrj Hx).
      + exfalso. apply Hp in Ib. apply Hl in Ia. destruct Ib as (la & r & Hla & Hrj & Hx), Ia as (_ & lb & Hlb & Hno).
        unfold row_at in Hla, Hlb. assert (la = l) by congruence. assert (lb = l) by congruence. subst la lb. exact (Hno j' r Hrj Hx).
    - exfalso. destruct y' as [j|]; [|contradiction]. exact (Hmixed i y j oa ob Ia Ib Ma Mb Hag).
    - exfalso. destruct y as [j|]; [|contradiction]. exact (Hmixed i' y' j ob oa Ib Ia Mb Ma (agree_sym _ _ _ _ _ Hag)).
    - destruct y as [j|]; [|contradiction]. destruct y' as [j'|]; [|contradiction]. do 2 f_equal.
      pose proof (proj1 (Hr j) Ia) as (_ & r & Hrj & _). pose proof (proj1 (Hr j') Ib) as (_ & r' & Hrj' & _).
      apply (Ur j j' r r' Hrj Hrj').
      apply (agree_trans _ _ _ _ _ _ _ (key_agrees_right _ _ _ _ _ _ _ NR NO HL Ma Hrj)).
      apply (agree_trans _ _ _ _ _ _ _ Hag). apply agree_sym. exact (key_agrees_right _ _ _ _ _ _ _ NR NO HL Mb Hrj'). }
  subst sb. rewrite NoDup_nth_error in Hn. apply Hn; [apply nth_error_Some; congruence | congruence].
Qed.

Lemma out_plain left right on : (forall c, In c (columns left) -> In c (columns right) -> In c on) ->
  out_columns left right on = columns left ++ filter (fun c => negb (mem c on)) (columns right).
Proof.
  intros H. unfold out_columns.
  assert (Hs : forall c, mem c (columns left) && mem c (columns right) && negb (mem c on) = false).
  { intros c. destruct (mem c (columns left)) eqn:E1; [|reflexivity]. destruct (mem c (columns right)) eqn:E2; [|reflexivity].
    apply mem_iff in E1, E2. rewrite (proj2 (mem_iff c on) (H c E1 E2)). reflexivity. }
  f_equal; rewrite <- map_id; apply map_ext; intros c; rewrite Hs; reflexivity.
Qed.
Lemma prepared_columns P prefix flag t other t' : prepared P prefix flag t other t' ->
  forall c, In c (columns t') <-> In c (columns t).
Proof. intros [(_ & _ & H & _)|[_ ->]] c; [apply H | tauto]. Qed.

Lemma merge_columns arrange prefix left right ln rn lg rg out :
  (forall l, Permutation (arrange l) l) ->
  let on := common_key prefix left right in
  well_formed on left -> well_formed on right -> share_only on left right ->
  merge arrange left right ln rn lg rg prefix = Ok out ->
  NoDup (columns out) /\ (forall c, In c (columns out) <-> In c (columns left) \/ In c (columns right)) /\
  exists left' right', prepared on prefix lg left right left' /\ prepared on prefix rg right left right' /\
    joined on ln rn left' right' out /\ well_formed on left' /\ well_formed on right' /\
    (forall c, on c -> In c (columns left')) /\
    (lg = true -> extra_key prefix left right -> unique_on on left') /\
    (rg = true -> extra_key prefix right left -> unique_on on right').
Proof.
  intros Ha on WL WR Hs Hm.
  set (keys := filter (fun c => mem c (select_key_columns prefix right)) (select_key_columns prefix left)).
  assert (He : exists c, on c).
  { destruct keys as [|k ks] eqn:E.
    - rewrite merge_refuses in Hm; [discriminate|]. intros [c Hc]. apply common_iff in Hc. fold keys in Hc.
      rewrite E in Hc. exact Hc.
    - exists k. apply common_iff. fold keys. rewrite E. left. reflexivity. }
  destruct (merge_full arrange prefix left right Ha WL WR ln rn lg rg He)
    as (l & r & o & H1 & H2 & H3 & H4 & H5 & H6 & H7 & H8 & H9 & H10 & H11).
  rewrite Hm in H3. injection H3 as <-. fold keys in H11.
  pose proof (prepared_columns _ _ _ _ _ _ H1) as Cl. pose proof (prepared_columns _ _ _ _ _ _ H2) as Cr.
  rewrite out_plain in H11.
  2:{ intros c Hc Hc'. apply common_iff. apply Hs; [apply Cl; exact Hc | apply Cr; exact Hc']. }
  assert (Hk : forall c, In c (columns r) /\ negb (mem c keys) = true <-> In c (columns right) /\ ~ on c).
  { intros c. rewrite negb_true_iff, mem_false, Cr. unfold keys. rewrite common_iff. reflexivity. }
  split; [|split].
  - rewrite H11. apply nodup_app; [exact (proj1 H5) | apply NoDup_filter; exact (proj1 H6)|].
    intros c Hc Hc'. apply filter_In, Hk in Hc'. apply Cl in Hc. destruct Hc' as [Hc' Hno]. exact (Hno (Hs c Hc Hc')).
  - intros c. rewrite H11, in_app_iff, filter_In, Hk, Cl.
    split; [tauto|]. intros [H|H]; [tauto|].
    destruct (in_dec string_dec c (columns left)) as [Hi|Hi]; [tauto|]. right. split; [exact H|].
    intros [[Hc _] _]. contradiction.
  - exists l, r. tauto.
Qed.

Theorem no_cross_product arrange prefix left right ln rn out :
  (forall l, Permutation (arrange l) l) ->
  let on := common_key prefix left right in
  well_formed on left -> well_formed on right -> share_only on left right ->
  extra_key prefix left right -> extra_key prefix right left ->
  merge arrange left right ln rn true true prefix = Ok out ->
  unique_on on out.
Proof.
  intros Ha on WL WR Hs El Er Hm.
  destruct (merge_columns arrange prefix left right ln rn true true out Ha WL WR Hs Hm)
    as (NO & _ & l & r & _ & _ & HJ & Wl & Wr & HL & Ul & Ur).
  apply (join_unique on ln rn l r out); [exact (proj1 Wl) | exact (proj1 Wr) | exact NO | exact HL | exact HJ | auto | auto].
Qed.

(** Examples and counterexamples. *)
Definition boxes_table : table :=
  {| columns := ["key.frame"; "key.laser_object"; "size"]%string;
     rows := [[Val 1; Val 10; Val 100]; [Val 1; Val 11; Val 101]; [Val 2; Val 10; Val 102]] |}.
Definition images_table : table :=
  {| columns := ["key.frame"; "key.camera"; "image"]%string;
     rows := [[Val 1; Val 7; Val 200]; [Val 1; Val 8; Val 201]; [Val 3; Val 7; Val 202]] |}.
Definition null_table : table :=
  {| columns := ["key.frame"; "key.laser_object"; "size"]%string; rows := [[Val 1; Val 10; Val 100]; [Null; Val 11; Val 101]] |}.

Ltac all_in := repeat match goal with H : _ \/ _ |- _ => destruct H | H : False |- _ => destruct H end; subst.
Lemma holds_cons k cols x r c v : holds (k :: cols) (x :: r) c v -> (c = k /\ v = x) \/ holds cols r c v.
Proof.
  intros [[|i] [Hi Hv]]; cbn in Hi, Hv.
  - left. split; congruence.
  - right. exists i. split; assumption.
Qed.
Lemma holds_nil r c v : ~ holds [] r c v.
Proof. intros [[|i] [Hi _]]; discriminate. Qed.
Lemma row_scalar cols : forall r, Forall scalar r -> forall c v, holds cols r c v -> scalar v.
Proof.
  intros r H c v [i [_ Hv]]. rewrite Forall_forall in H. exact (H v (nth_error_In _ _ Hv)).
Qed.
Lemma scalars_well_formed P t : NoDup (columns t) -> Forall (fun r => List.length r = List.length (columns t)) (rows t) ->
  Forall (Forall scalar) (rows t) -> well_formed P t.
Proof.
  intros H1 H2 H3. rewrite Forall_forall in H2, H3. split; [exact H1|]. split; [exact H2|].
  intros r c v Hr _. exact (row_scalar _ r (H3 r Hr) c v).
Qed.
Ltac nodup_names := repeat (constructor; [cbn; intuition discriminate|]); constructor.
Ltac scalar_rows := repeat constructor; intros ?; discriminate.
Lemma boxes_ok P : well_formed P boxes_table.
Proof. apply scalars_well_formed; [nodup_names | repeat constructor | scalar_rows]. Qed.
Lemma images_ok P : well_formed P images_table.
Proof. apply scalars_well_formed; [nodup_names | repeat constructor | scalar_rows]. Qed.
Lemma nulls_ok P : well_formed P null_table.
Proof. apply scalars_well_formed; [nodup_names | repeat constructor | scalar_rows]. Qed.
Lemma frame_common t u : In "key.frame"%string (columns t) -> In "key.frame"%string (columns u) -> common_key "key." t u "key.frame".
Proof. intros H H'. split; (split; [assumption | exists "frame"%string; reflexivity]). Qed.
Lemma boxes_extra : extra_key "key." boxes_table images_table.
Proof.
  exists "key.laser_object"%string. split; [split; [cbn; tauto | exists "laser_object"%string; reflexivity]|].
  intros [H _]. cbn in H. intuition discriminate.
Qed.
Lemma images_extra : extra_key "key." images_table boxes_table.
Proof.
  exists "key.camera"%string. split; [split; [cbn; tauto | exists "camera"%string; reflexivity]|].
  intros [H _]. cbn in H. intuition discriminate.
Qed.
Lemma share_frame : share_only (common_key "key." boxes_table images_table) boxes_table images_table.
Proof.
  intros c H H'. cbn in H, H'. destruct H as [<- |[<- |[<- |[]]]]; try (intuition discriminate).
  apply frame_common; cbn; tauto.
Qed.

(** Key sets differ, and without the flags every pairing comes out. *)
Theorem cross_product_example : forall arrange, exists left right out,
  let on := common_key "key." left right in
  well_formed on left /\ well_formed on right /\ share_only on left right /\
  extra_key "key." left right /\ extra_key "key." right left /\
  merge arrange left right false false false false "key." = Ok out /\
  ~ unique_on on out /\
  List.length (rows left) < List.length (rows out) /\ List.length (rows right) < List.length (rows out).
Proof.
  intros arrange. exists boxes_table, images_table. eexists.
  split; [apply boxes_ok|]. split; [apply images_ok|]. split; [exact share_frame|].
  split; [exact boxes_extra|]. split; [exact images_extra|]. split; [reflexivity|].
  split; [|cbn; lia].
  intros H. assert (Hc : 0 = 1); [|discriminate].
  apply (H 0 1 _ _ eq_refl eq_refl). intros c v [[Hc _] [Hc' _]].
  cbn in Hc, Hc'. destruct Hc as [<- |[<- |[<- |[]]]]; try (exfalso; intuition discriminate).
  cbn [columns]. split; intros Hv; apply holds_cons in Hv; (destruct Hv as [[_ ->]|Hv];
    [exists 0; split; reflexivity|]); exfalso; repeat (apply holds_cons in Hv; destruct Hv as [[Hv _]|Hv]; [discriminate|]);
    exact (holds_nil _ _ _ Hv).
Qed.

(** A record without a key disappears from an outer join when its table is grouped. *)
Theorem lost_record_example : forall arrange, (forall l, Permutation (arrange l) l) ->
  exists left right out i r,
  let on := common_key "key." left right in
  well_formed on left /\ well_formed on right /\
  merge arrange left right true true true false "key." = Ok out /\
  row_at left i r /\ holds (columns left) r "size" (Val 101) /\ ~ mentions out "size" (Val 101).
Proof.
  intros arrange Ha. exists null_table, images_table.
  set (x := [Val 1; Items [Val 10]; Items [Val 100]]).
  assert (Hx : arrange [x] = [x]) by (apply Permutation_length_1_inv, Permutation_sym, Ha).
  set (L := [x ++ [Val 7; Val 200]; x ++ [Val 8; Val 201]; [Val 3; Null; Null; Val 7; Val 202]]).
  exists {| columns := ["key.frame"; "key.laser_object"; "size"; "key.camera"; "image"]%string; rows := arrange L |}, 1.
  eexists. split; [apply nulls_ok|]. split; [apply images_ok|]. split.
  { unfold merge.
    assert (Hg : group_by arrange ["key.frame"%string] null_table
      = Ok {| columns := ["key.frame"; "key.laser_object"; "size"]%string; rows := [x] |}).
    { rewrite <- Hx. reflexivity. }
    change (filter (fun c => mem c (select_key_columns "key." images_table)) (select_key_columns "key." null_table)) with ["key.frame"%string].
    change (true && negb (forallb (fun c => mem c ["key.frame"%string]) (select_key_columns "key." null_table))) with true.
    cbn iota. rewrite Hg. reflexivity. }
  split; [reflexivity|]. split; [exists 2; split; reflexivity|].
  intros (r & v & Hr & Hv & Hm). cbn [rows columns] in Hr, Hv.
  apply (Permutation_in _ (Ha L)) in Hr. unfold L, x in Hr. cbn [app] in Hr.
  destruct Hr as [<- |[<- |[<- |[]]]]; repeat (apply holds_cons in Hv; destruct Hv as [[Hc Hv]|Hv]; [try discriminate|]);
    try (exact (holds_nil _ _ _ Hv)); subst v; destruct Hm as [Hm|(l & Hl & Hi)]; try discriminate;
    injection Hl as <-; destruct Hi as [Hi|[]]; discriminate.
Qed.
