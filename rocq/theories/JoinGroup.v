(** Proofs about grouping, and about the whole of merge. *)
From Coq Require Import String Permutation Sorted.
From Verif Require Import Base ResultLib ListLib JoinModel JoinSpec JoinLists JoinProofs.
Open Scope list_scope.
Open Scope nat_scope.

Lemma agree_refl P t r : agree P t t r r.
Proof. intros c v _. tauto. Qed.
Lemma agree_sym P t u r s : agree P t u r s -> agree P u t s r.
Proof. intros H c v Hc. symmetry. exact (H c v Hc). Qed.
Lemma agree_trans P t u w r s x : agree P t u r s -> agree P u w s x -> agree P t w r x.
Proof. intros H H' c v Hc. rewrite (H c v Hc). exact (H' c v Hc). Qed.

Lemma leaders_lead keys cols (A : nat -> row) l : forall seen,
  leaders keys cols (map A l) (map A seen)
  = map A (lead (fun i j => same_key keys cols (A i) (A j)) l seen).
Proof.
  induction l as [|i l IH]; intros seen; cbn [map leaders lead]; [reflexivity|].
  rewrite existsb_map. destruct (existsb (fun x => same_key keys cols (A i) (A x)) seen); [apply IH|].
  cbn [map]. f_equal. exact (IH (i :: seen)).
Qed.

Section Group.
  Context (t : table) (on : list string) (P : string -> Prop).
  Hypothesis HP : forall c, P c <-> In c on.
  Hypothesis WT : well_formed (fun c => In c on) t.
  Hypothesis IT : incl on (columns t).
  Hypothesis NO : NoDup on.

  Let cols := columns t.
  Let n := List.length (rows t).
  Let A i := nth i (rows t) [].
  Let E i j := same_key on cols (A i) (A j).
  Let okb (r : row) := negb (existsb (fun c => is_null (field cols r c)) on).
  Let K := filter (fun i => okb (A i)) (seq 0 n).
  Let others := filter (fun c => negb (mem c on)) cols.
  Let cls i := filter (E i) K.
  Definition grow (i : nat) : row :=
    map (field cols (A i)) on ++ map (fun c => Items (map (fun j => field cols (A j) c) (cls i))) others.

  Lemma at_t i r : row_at t i r <-> i < n /\ r = A i.
  Proof. exact (at_left t i r). Qed.
  Lemma at_A i : i < n -> row_at t i (A i).
  Proof. intros H. apply at_t. split; [exact H | reflexivity]. Qed.
  Lemma E_agree i j : i < n -> j < n -> (E i j = true <-> agree P t t (A i) (A j)).
  Proof.
    intros Hi Hj. unfold E, same_key.
    apply (matches_agree t t on P HP WT WT IT IT); apply nth_In; assumption.
  Qed.
  Lemma K_lt i : In i K -> i < n.
  Proof. intros H. apply filter_In in H. destruct H as [H _]. apply in_seq in H. lia. Qed.
  Lemma K_iff i : In i K <-> exists r, row_at t i r /\ forall c, P c -> ~ holds (columns t) r c Null.
  Proof.
    destruct WT as (NT & LT & ST). unfold K. rewrite filter_In, in_seq. split.
    - intros [Hi Hok]. exists (A i). assert (Hn : i < n) by lia. split; [exact (at_A i Hn)|].
      intros c Hc Hh. apply HP in Hc. apply field_holds in Hh; [|exact NT | apply LT, nth_In; exact Hn].
      unfold okb in Hok. apply negb_true_iff in Hok.
      assert (Ht : existsb (fun c => is_null (field cols (A i) c)) on = true).
      { apply existsb_exists. exists c. split; [exact Hc|]. fold cols in Hh. rewrite <- Hh. reflexivity. }
      congruence.
    - intros (r & Hr & Hn). apply at_t in Hr. destruct Hr as [Hi ->]. split; [lia|].
      unfold okb. apply negb_true_iff. destruct (existsb _ on) eqn:Ex; [|reflexivity]. exfalso.
      apply existsb_exists in Ex. destruct Ex as [c [Hc He]].
      apply (Hn c); [apply HP; exact Hc|].
      assert (Hh : holds cols (A i) c (field cols (A i) c))
        by (apply holds_field; [apply LT, nth_In; exact Hi | exact (IT _ Hc)]).
      destruct (field cols (A i) c); try discriminate. exact Hh.
  Qed.
  Lemma E_refl i : In i K -> E i i = true.
  Proof. intros H. apply E_agree; [exact (K_lt _ H) | exact (K_lt _ H) | apply agree_refl]. Qed.
  Lemma E_sym i j : In i K -> In j K -> E i j = true -> E j i = true.
  Proof.
    intros Hi Hj H. apply K_lt in Hi, Hj. apply E_agree; [exact Hj | exact Hi|].
    apply agree_sym. apply E_agree; assumption.
  Qed.
  Lemma E_trans i j k : In i K -> In j K -> In k K -> E i j = true -> E j k = true -> E i k = true.
  Proof.
    intros Hi Hj Hk H H'. apply K_lt in Hi, Hj, Hk. apply E_agree; [exact Hi | exact Hk|].
    apply (agree_trans P t t t _ (A j)); apply E_agree; assumption.
  Qed.
  Lemma nodup_K : NoDup K.
  Proof. apply NoDup_filter, seq_NoDup. Qed.

  Lemma in_others c : In c others <-> In c cols /\ ~ P c.
  Proof. unfold others. rewrite filter_In, negb_true_iff, mem_false, HP. reflexivity. Qed.
  Lemma nodup_out : NoDup (on ++ others).
  Proof.
    destruct WT as (NT & _ & _). apply nodup_app; [exact NO | apply NoDup_filter; exact NT|].
    intros c Hc Hc'. apply in_others in Hc'. rewrite HP in Hc'. tauto.
  Qed.
  Lemma grow_length i : List.length (grow i) = List.length (on ++ others).
  Proof. unfold grow. rewrite !app_length, !map_length. reflexivity. Qed.
  Lemma grow_key i c : In c on -> holds (on ++ others) (grow i) c (field cols (A i) c).
  Proof. intros H. apply holds_app_l. exact (holds_map (field cols (A i)) on c H). Qed.
  Lemma grow_other i c : In c others ->
    holds (on ++ others) (grow i) c (Items (map (fun j => field cols (A j) c) (cls i))).
  Proof.
    intros H. apply holds_app_r; [rewrite map_length; reflexivity|].
    exact (holds_map (fun c => Items (map (fun j => field cols (A j) c) (cls i))) others c H).
  Qed.
  Lemma in_cls p i : In i (cls p) <-> In i K /\ E p i = true.
  Proof. apply filter_In. Qed.
  Lemma grow_agree rs p i : In p K -> In i (cls p) ->
    agree P t {| columns := on ++ others; rows := rs |} (A i) (grow p).
  Proof.
    destruct WT as (NT & LT & ST). intros Hp Hi c v Hc. pose proof Hc as Hc'. apply HP in Hc'. apply in_cls in Hi. destruct Hi as [Hi He].
    pose proof (proj1 (E_agree p i (K_lt _ Hp) (K_lt _ Hi)) He) as Hag.
    rewrite <- (Hag c v Hc). cbn [columns].
    assert (Hlen : List.length (A p) = List.length cols) by (apply LT, nth_In, K_lt, Hp).
    split; intros H.
    - apply field_holds in H; [|exact NT | exact Hlen]. subst v. apply grow_key. exact Hc'.
    - apply field_holds in H; [|exact nodup_out | apply grow_length].
      assert (Hk : holds (on ++ others) (grow p) c (field cols (A p) c)) by (apply grow_key; exact Hc').
      apply field_holds in Hk; [|exact nodup_out | apply grow_length].
      rewrite H, <- Hk. apply holds_field; [exact Hlen | exact (IT _ Hc')].
  Qed.

  Lemma concat_map_flat {X Y} (f : X -> list Y) l : concat (map f l) = flat_map f l.
  Proof. symmetry. apply flat_map_concat_map. Qed.

  Lemma group_by_grouped arrange : (forall l, Permutation (arrange l) l) -> on <> [] ->
    exists g, group_by arrange on t = Ok g /\ grouped P t g /\ well_formed (fun c => In c on) g /\ incl on (columns g) /\
      unique_on P g.
  Proof.
    intros Harr Hon. destruct WT as (NT & LT & ST).
    assert (Hg : group_by arrange on t =
      Ok {| columns := on ++ others; rows := arrange (map grow (lead E K [])) |}).
    { unfold group_by. rewrite (not_nil on) by exact Hon. do 2 f_equal. f_equal.
      assert (Hkept : filter (fun r => negb (existsb (fun c => is_null (field (columns t) r c)) on)) (rows t) = map A K).
      { rewrite (list_as_seq [] (rows t)), filter_map. reflexivity. }
      rewrite Hkept. pose proof (leaders_lead on (columns t) A K []) as Hld. cbn [map] in Hld.
      rewrite Hld, map_map.
      apply map_ext. intros i. unfold grow. f_equal. apply map_ext. intros c. f_equal.
      rewrite filter_map, map_map. reflexivity. }
    destruct (Permutation_map_inv grow _ (Harr (map grow (lead E K [])))) as [L [HL Hperm]].
    rewrite HL in Hg.
    exists {| columns := on ++ others; rows := map grow L |}. split; [exact Hg|].
    assert (LK : incl L K).
    { intros p Hp. apply (lead_incl E K []). apply (Permutation_in p (Permutation_sym Hperm)). exact Hp. }
    assert (Hap : forall p q, In p L -> In q L -> E p q = true -> p = q).
    { intros p q Hp Hq. apply (lead_apart E K E_sym K (incl_refl K) []);
        apply (Permutation_in _ (Permutation_sym Hperm)); assumption. }
    assert (Hnd : NoDup L) by (apply (Permutation_NoDup Hperm), (lead_nodup E K E_refl K (incl_refl K))).
    assert (Hcov : forall i, In i K -> exists p, In p L /\ E p i = true).
    { intros i Hi. destruct (lead_covers E K E_refl K (incl_refl K) [] (incl_nil_l K) i Hi) as [p [[Hp|[]] He]].
      exists p. assert (Hp' : In p L) by (apply (Permutation_in _ Hperm); exact Hp).
      split; [exact Hp' | exact (E_sym _ _ Hi (LK _ Hp') He)]. }
    assert (Hwf : well_formed (fun c => In c on) {| columns := on ++ others; rows := map grow L |}).
    { split; [exact nodup_out|]. split.
      - intros r Hr. cbn [rows] in Hr. apply in_map_iff in Hr. destruct Hr as [p [<- _]]. apply grow_length.
      - intros r c v Hr Hc Hv. cbn [rows columns] in *. apply in_map_iff in Hr. destruct Hr as [p [<- Hp]].
        assert (Hk : holds (on ++ others) (grow p) c (field cols (A p) c)) by (apply grow_key; exact Hc).
        rewrite (holds_inj _ _ _ _ _ nodup_out Hv Hk).
        assert (Hpn : p < n) by (apply K_lt, LK, Hp).
        apply (ST (A p) c); [apply nth_In; exact Hpn | exact Hc|].
        apply holds_field; [apply LT, nth_In; exact Hpn | exact (IT _ Hc)]. }
    split; [|split; [exact Hwf|split]].
    - split; [|split; [exact nodup_out|]].
      { intros c. cbn [columns]. rewrite in_app_iff, in_others, HP. fold cols.
        destruct (in_dec string_dec c on) as [Hc|Hc]; [|tauto]. pose proof (IT _ Hc) as Hic. fold cols in Hic. tauto. }
      exists (map cls L). rewrite concat_map_flat. split; [|split; [|split]].
      + apply nodup_flat_map; [exact Hnd | intros p _; apply NoDup_filter, nodup_K|].
        intros p q z Hp Hq Hz Hz'. apply in_cls in Hz, Hz'. destruct Hz as [Hz He], Hz' as [_ He'].
        apply (Hap p q Hp Hq). apply (E_trans p z q (LK _ Hp) Hz (LK _ Hq) He).
        exact (E_sym q z (LK _ Hq) Hz He').
      + intros i. rewrite <- K_iff, in_flat_map. split.
        * intros [p [_ Hi]]. apply in_cls in Hi. tauto.
        * intros Hi. destruct (Hcov i Hi) as [p [Hp He]]. exists p. split; [exact Hp|]. apply in_cls. tauto.
      + intros c i j ri rj Hc Hi Hri Hrj. apply in_map_iff in Hc. destruct Hc as [p [<- Hp]].
        apply at_t in Hri, Hrj. destruct Hri as [Hin ->], Hrj as [Hjn ->].
        apply in_cls in Hi. destruct Hi as [Hi He].
        assert (Hpi : agree P t t (A p) (A i)) by (apply E_agree; [apply K_lt, LK, Hp | exact Hin | exact He]).
        split; intros H.
        * apply in_cls in H. destruct H as [Hj He'].
          apply (agree_trans P t t t _ (A p)); [apply agree_sym; exact Hpi|].
          apply E_agree; [apply K_lt, LK, Hp | exact Hjn | exact He'].
        * apply in_cls. split; [|apply E_agree; [apply K_lt, LK, Hp | exact Hjn | exact (agree_trans _ _ _ _ _ _ _ Hpi H)]].
          apply K_iff. apply K_iff in Hi. destruct Hi as (r & Hr & Hn). apply at_t in Hr. destruct Hr as [_ ->].
          exists (A j). split; [exact (at_A j Hjn)|]. intros c Hc Hh. apply (Hn c Hc). apply (H c Null Hc). exact Hh.
      + cbn [rows]. apply forall2_map_l, forall2_map_r. intros p Hp. split; [apply grow_length|].
        assert (Hpp : In p (cls p)) by (apply in_cls; split; [exact (LK _ Hp) | exact (E_refl p (LK _ Hp))]).
        split; [intros Hnil; rewrite Hnil in Hpp; exact Hpp|].
        split; [apply sorted_filter, sorted_filter, sorted_seq|]. split.
        * intros i r Hi Hr. apply at_t in Hr. destruct Hr as [_ ->]. exact (grow_agree _ p i (LK _ Hp) Hi).
        * intros c Hc Hnc. exists (map (fun j => field cols (A j) c) (cls p)).
          split; [apply grow_other, in_others; split; assumption|].
          apply forall2_map_r. intros i Hi. apply in_cls in Hi. destruct Hi as [Hi _]. apply K_lt in Hi.
          exists (A i). split; [exact (at_A i Hi)|]. apply holds_field; [apply LT, nth_In; exact Hi | exact Hc].
    - intros c Hc. cbn [columns]. apply in_or_app. left. exact Hc.
    - intros a b ra rb Ha Hb Hag. unfold row_at in Ha, Hb. cbn [rows] in Ha, Hb.
      rewrite nth_error_map in Ha, Hb.
      destruct (nth_error L a) as [p|] eqn:Ep; [|discriminate]. destruct (nth_error L b) as [q|] eqn:Eq; [|discriminate].
      cbn in Ha, Hb. injection Ha as <-. injection Hb as <-.
      pose proof (nth_error_In _ _ Ep) as Hp. pose proof (nth_error_In _ _ Eq) as Hq.
      assert (Hpp : In p (cls p)) by (apply in_cls; split; [exact (LK _ Hp) | exact (E_refl p (LK _ Hp))]).
      assert (Hqq : In q (cls q)) by (apply in_cls; split; [exact (LK _ Hq) | exact (E_refl q (LK _ Hq))]).
      assert (p = q).
      { apply (Hap p q Hp Hq). apply E_agree; [apply K_lt, LK, Hp | apply K_lt, LK, Hq|].
        apply (agree_trans _ _ _ _ _ _ _ (grow_agree (map grow L) p p (LK _ Hp) Hpp)).
        apply (agree_trans _ _ _ _ _ _ _ Hag). apply agree_sym. exact (grow_agree _ q q (LK _ Hq) Hqq). }
      subst q. rewrite NoDup_nth_error in Hnd. apply Hnd; [apply nth_error_Some; congruence | congruence].
  Qed.
End Group.
