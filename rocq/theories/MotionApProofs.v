(** Proofs about the motion mAP. *)
From Coq Require Import Qminmax Permutation Sorting.Sorted Lqa.
From Verif Require Import Base ListLib CutoffModel CutoffProofs MotionModel MotionApSpec.
Open Scope Q_scope.

(** ** The area loop *)
Definition step (s : Q * Q) (st : Q * (Q * Q)) : Q * (Q * Q) :=
  let '(area, h) := st in
  if Qlt_bool (fst h) (fst s) then (area + fst h * (snd h - snd s), s) else (area, h).
Lemma area_loop_fold l : forall h a, area_loop l h a = fold_left (fun st s => step s st) l (a, h).
Proof.
  induction l as [|s l IH]; intros h a; cbn [area_loop fold_left]; [reflexivity|].
  cbn [step]. destruct (Qlt_bool (fst h) (fst s)); apply IH.
Qed.
Definition maxp (l : list (Q * Q)) : Q := fold_right (fun s m => Qmax (fst s) m) 0 l.
Fixpoint spec_area (prev : Q) (l : list (Q * Q)) : Q :=
  match l with [] => 0 | s :: l' => (snd s - prev) * maxp l + spec_area (snd s) l' end.
Lemma maxp_nonneg l : 0 <= maxp l.
Proof. induction l as [|s l IH]; cbn [maxp fold_right]; [lra|]. eapply Qle_trans; [exact IH|apply Q.le_max_r]. Qed.
Lemma area_fold l z : (forall s, In s l -> 0 <= fst s) -> 0 <= fst z -> forall prev,
  let '(area, h) := fold_right step (0, z) (l ++ [z]) in
  fst h == maxp (l ++ [z]) /\ area + fst h * (snd h - prev) == spec_area prev (l ++ [z]).
Proof.
  intros Hp Hz. induction l as [|s l IH]; intros prev.
  - cbn [app fold_right step]. destruct (Qlt_bool (fst z) (fst z)) eqn:E; [apply qlt_iff in E; lra|].
    cbn [maxp spec_area fold_right]. rewrite (Q.max_l (fst z) 0) by exact Hz. split; [reflexivity|ring].
  - assert (Hs : 0 <= fst s) by (apply Hp; now left).
    assert (Hp' : forall s, In s l -> 0 <= fst s) by (intros x Hx; apply Hp; now right).
    cbn [app fold_right]. specialize (IH Hp' (snd s)).
    destruct (fold_right step (0, z) (l ++ [z])) as [area h]. destruct IH as [E1 E2].
    cbn [step]. cbn [maxp spec_area fold_right]. change (fold_right (fun s m => Qmax (fst s) m) 0 (l ++ [z])) with (maxp (l ++ [z])).
    destruct (Qlt_bool (fst h) (fst s)) eqn:E; [apply qlt_iff in E|apply qlt_false in E].
    + rewrite (Q.max_l (fst s) (maxp (l ++ [z]))) by lra. split; [reflexivity|]. rewrite <- E2. ring.
    + rewrite (Q.max_r (fst s) (maxp (l ++ [z]))) by lra. split; [exact E1|]. rewrite <- E2, <- E1. ring.
Qed.
Lemma bucket_map_area samples n : (0 < n)%Z ->
  bucket_map {| ps_samples := samples; ps_num := n |} == spec_area 0 (pr_curve 0 0 n (sort_samples samples)).
Proof.
  intros Hn. unfold bucket_map. cbn [ps_samples ps_num].
  set (L := pr_curve 0 0 n (sort_samples samples)).
  assert (HP : forall i tp l s, (0 <= i)%Z -> (0 <= tp)%Z -> In s (pr_curve i tp n l) -> 0 <= fst s).
  { intros i tp l. revert i tp. induction l as [|[c b] l IH]; intros i tp s Hi Ht; cbn [pr_curve]; [intros []|].
    intros [<-|H].
    - cbn [fst]. apply Qle_shift_div_l; [change 0 with (inject_Z 0); rewrite <- Zlt_Qlt; lia|].
      rewrite Qmult_0_l. change 0 with (inject_Z 0). rewrite <- Zle_Qle. destruct b; lia.
    - eapply IH; [| |exact H]; destruct b; lia. }
  specialize (HP 0%Z 0%Z (sort_samples samples)). fold L in HP.
  destruct (rev L) as [|z t] eqn:E.
  - assert (L = []) as -> by (rewrite <- (rev_involutive L), E; reflexivity). reflexivity.
  - assert (EL : L = rev t ++ [z]) by (rewrite <- (rev_involutive L), E; reflexivity).
    rewrite area_loop_fold, <- (fold_left_rev_right step).
    replace (rev (z :: t)) with L by (rewrite <- E, rev_involutive; reflexivity).
    assert (HA : forall s, In s (rev t) -> 0 <= fst s) by (intros s Hs; apply HP; [lia|lia|]; rewrite EL; apply in_or_app; now left).
    assert (HZ : 0 <= fst z) by (apply HP; [lia|lia|]; rewrite EL; apply in_or_app; right; now left).
    pose proof (area_fold (rev t) z HA HZ 0) as H. rewrite <- EL in H.
    destruct (fold_right step (0, z) L) as [a h]. destruct H as [_ H]. rewrite <- H. ring.
Qed.

(** ** Curves as functions of the outcomes *)
Lemma found_app a b : found (a ++ b) = (found a + found b)%Z.
Proof. unfold found. rewrite filter_app, app_length. lia. Qed.
Lemma found_cons b o : found (b :: o) = ((if b then 1 else 0) + found o)%Z.
Proof. unfold found. destruct b; cbn [filter length]; lia. Qed.
Lemma found_nonneg o : (0 <= found o)%Z. Proof. unfold found. lia. Qed.
Lemma found_le o : (found o <= Z.of_nat (length o))%Z.
Proof. induction o as [|b o IH]; [reflexivity|]. rewrite found_cons. cbn [length]. destruct b; lia. Qed.
Lemma found_firstn_mono o i j : (i <= j)%nat -> (found (firstn i o) <= found (firstn j o))%Z.
Proof.
  revert i j. induction o as [|b o IH]; intros i j H; [rewrite !firstn_nil; lia|].
  destruct i, j; cbn [firstn]; [lia|rewrite found_cons; pose proof (found_nonneg (firstn j o)); unfold found at 1; cbn; destruct b; lia|lia|].
  rewrite !found_cons. specialize (IH i j ltac:(lia)). lia.
Qed.
Lemma found_firstn_S o k : (k < length o)%nat -> found (firstn (S k) o) = (found (firstn k o) + if nth k o false then 1 else 0)%Z.
Proof.
  revert k. induction o as [|b o IH]; intros k H; cbn [length] in H; [lia|].
  destruct k; rewrite firstn_cons.
  - rewrite found_cons. cbn. destruct b; lia.
  - rewrite firstn_cons, !found_cons, IH by lia. cbn [nth]. lia.
Qed.
Lemma pr_curve_outcomes n samples : pr_curve 0 0 n samples =
  map (fun k => (precision (map snd samples) k, recall n (map snd samples) k)) (seq 1 (length samples)).
Proof.
  assert (G : forall l pre, pr_curve (Z.of_nat (length pre)) (found pre) n l =
     map (fun k => (precision (pre ++ map snd l) k, recall n (pre ++ map snd l) k)) (seq (S (length pre)) (length l))).
  { induction l as [|[c b] l IH]; intros pre; cbn [pr_curve length seq map]; [reflexivity|].
    assert (F : found (firstn (S (length pre)) (pre ++ b :: map snd l)) = if b then (found pre + 1)%Z else found pre).
    { rewrite firstn_app. rewrite firstn_all2 by lia. replace (S (length pre) - length pre)%nat with 1%nat by lia.
      cbn [firstn]. rewrite found_app, found_cons. destruct b; cbn; lia. }
    f_equal.
    - unfold precision, recall. cbn [snd]. rewrite F. destruct b; f_equal; f_equal; f_equal; lia.
    - specialize (IH (pre ++ [b])). rewrite app_length in IH. cbn [length] in IH.
      replace (Z.of_nat (length pre + 1)) with (Z.of_nat (length pre) + 1)%Z in IH by lia.
      rewrite found_app, found_cons in IH. replace (S (length pre + 1)) with (S (S (length pre))) in IH by lia.
      cbn [snd]. rewrite <- !app_assoc in IH. cbn [app] in IH. rewrite <- IH.
      f_equal. destruct b; cbn; lia. }
  exact (G samples []).
Qed.
Lemma max_list_fst {A} (f : A -> Q * Q) l : max_list (map (fun k => fst (f k)) l) = maxp (map f l).
Proof. induction l as [|a l IH]; cbn [map max_list maxp fold_right]; [reflexivity|]. unfold maxp, max_list in IH. now rewrite IH. Qed.
Lemma max_list_ext {A} (f g : A -> Q) l : (forall a, In a l -> f a = g a) -> max_list (map f l) = max_list (map g l).
Proof. intros H. f_equal. apply map_ext_in. exact H. Qed.
Lemma spec_area_seq n o : forall m k, (1 <= k)%nat -> (k + m = S (length o))%nat ->
  spec_area (recall n o (k - 1)) (map (fun k => (precision o k, recall n o k)) (seq k m)) ==
  sum_list (map (fun k => (recall n o k - recall n o (k - 1)) * best_from o k) (seq k m)).
Proof.
  induction m as [|m IH]; intros k Hk Hm; cbn [seq map spec_area sum_list fold_right]; [reflexivity|].
  cbn [snd]. specialize (IH (S k) ltac:(lia) ltac:(lia)). replace (S k - 1)%nat with k in IH by lia.
  rewrite IH. unfold sum_list. apply Qplus_comp; [|reflexivity].
  apply Qmult_comp; [reflexivity|].
  assert (maxp ((precision o k, recall n o k) :: map (fun k => (precision o k, recall n o k)) (seq (S k) m)) = best_from o k) as ->.
  { unfold best_from. replace (S (length o) - k)%nat with (S m) by lia. cbn [seq map].
    cbn [maxp max_list fold_right fst]. f_equal.
    change (maxp (map (fun k => (precision o k, recall n o k)) (seq (S k) m)) = max_list (map (precision o) (seq (S k) m))).
    symmetry. exact (max_list_fst (fun k => (precision o k, recall n o k)) (seq (S k) m)). }
  reflexivity.
Qed.
Lemma bucket_map_sorted samples n : (0 < n)%Z ->
  bucket_map {| ps_samples := samples; ps_num := n |} == interpolated_area n (map snd (sort_samples samples)).
Proof.
  intros Hn. rewrite bucket_map_area by exact Hn. rewrite pr_curve_outcomes.
  set (o := map snd (sort_samples samples)).
  assert (El : length (sort_samples samples) = length o) by (unfold o; now rewrite map_length).
  rewrite El. pose proof (spec_area_seq n o (length o) 1 ltac:(lia) ltac:(lia)) as H.
  unfold interpolated_area. rewrite <- H.
  replace (recall n o (1 - 1)) with (0 / inject_Z n) by reflexivity.
  assert (G : forall l a b, a == b -> spec_area a l == spec_area b l).
  { intros [|s l] a b E; cbn [spec_area]; [reflexivity|]. now rewrite E. }
  apply G. field. intros C. unfold Qeq in C. cbn in C. lia.
Qed.

(** ** Sorting *)
Definition rrel (a b : Q * bool) : Prop := fst b < fst a \/ (fst a == fst b /\ (snd a = true -> snd b = true)).
Lemma rrel_trans a b c : rrel a b -> rrel b c -> rrel a c.
Proof. unfold rrel. intros [H|[H1 H2]] [K|[K1 K2]]; [left; lra|left; lra|left; lra|right; split; [lra|tauto]]. Qed.
Lemma sample_lt_true a b : sample_lt a b = true -> rrel a b.
Proof.
  unfold sample_lt, rrel. destruct (Qeq_bool (fst a) (fst b)) eqn:E.
  - apply Qeq_bool_iff in E. intros H. right. split; [exact E|]. destruct (snd a), (snd b); cbn in H; congruence.
  - intros H. apply qlt_iff in H. now left.
Qed.
Lemma sample_lt_false a b : sample_lt b a = false -> rrel a b.
Proof.
  unfold sample_lt, rrel. destruct (Qeq_bool (fst b) (fst a)) eqn:E.
  - apply Qeq_bool_iff in E. intros H. right. split; [now symmetry|]. destruct (snd a), (snd b); cbn in H; congruence.
  - intros H. apply qlt_false in H. left. destruct (Qlt_le_dec (fst b) (fst a)) as [K|K]; [exact K|].
    exfalso. assert (fst b == fst a) by lra. apply Qeq_bool_iff in H0. congruence.
Qed.
Lemma insert_sample_perm a l : Permutation (insert_sample a l) (a :: l).
Proof.
  induction l as [|b l IH]; cbn [insert_sample]; [apply Permutation_refl|].
  destruct (sample_lt b a); [|apply Permutation_refl]. rewrite IH. apply perm_swap.
Qed.
Lemma sort_samples_perm l : Permutation l (sort_samples l).
Proof. induction l as [|a l IH]; cbn [sort_samples fold_right]; [constructor|]. rewrite insert_sample_perm. now constructor. Qed.
Lemma insert_sample_sorted a l : StronglySorted rrel l -> StronglySorted rrel (insert_sample a l).
Proof.
  induction 1 as [|b l Hs IH Hf]; cbn [insert_sample]; [repeat constructor|].
  destruct (sample_lt b a) eqn:E.
  - constructor; [exact IH|]. rewrite Forall_forall in *. intros x Hx.
    apply (Permutation_in _ (insert_sample_perm a l)) in Hx. destruct Hx as [<-|Hx]; [now apply sample_lt_true|now apply Hf].
  - apply sample_lt_false in E. constructor; [now constructor|]. constructor; [exact E|].
    rewrite Forall_forall in *. intros x Hx. apply (rrel_trans _ b); [exact E|now apply Hf].
Qed.
Lemma sort_samples_ranked l : ranked l (sort_samples l).
Proof.
  split; [apply sort_samples_perm|]. change (StronglySorted rrel (sort_samples l)).
  induction l as [|a l IH]; cbn [sort_samples fold_right]; [constructor|]. now apply insert_sample_sorted.
Qed.
Lemma ranked_by_confidence s l : ranked s l -> by_confidence s l.
Proof.
  intros [P S]. split; [exact P|]. clear P s. induction S as [|a l S IH F]; constructor; [exact IH|].
  revert F. apply Forall_impl. intros b [H|[H _]]; lra.
Qed.

(** ** Counting in confidence order *)
Definition cnt {A} (p : A -> bool) (l : list A) : nat := length (filter p l).
Lemma cnt_app {A} (p : A -> bool) a b : cnt p (a ++ b) = (cnt p a + cnt p b)%nat.
Proof. unfold cnt. now rewrite filter_app, app_length. Qed.
Lemma cnt_split {A} (p : A -> bool) k l : cnt p l = (cnt p (firstn k l) + cnt p (skipn k l))%nat.
Proof. rewrite <- cnt_app, firstn_skipn. reflexivity. Qed.
Lemma cnt_perm {A} (p : A -> bool) l l' : Permutation l l' -> cnt p l = cnt p l'.
Proof.
  unfold cnt. induction 1 as [|x l l' _ IH|x y l|l l' l'' _ IH1 _ IH2]; cbn [filter]; try reflexivity.
  - destruct (p x); cbn [length]; lia.
  - destruct (p x), (p y); reflexivity.
  - lia.
Qed.
Lemma cnt_mono {A} (p q : A -> bool) l : (forall a, In a l -> p a = true -> q a = true) -> (cnt p l <= cnt q l)%nat.
Proof.
  unfold cnt. induction l as [|a l IH]; intros H; cbn [filter]; [lia|].
  specialize (IH (fun b Hb => H b (or_intror Hb))). pose proof (H a (or_introl eq_refl)) as Ha.
  destruct (p a); [rewrite Ha by reflexivity; cbn [length]; lia|]. destruct (q a); cbn [length]; lia.
Qed.
Lemma cnt_le {A} (p : A -> bool) l : (cnt p l <= length l)%nat.
Proof. unfold cnt. induction l as [|a l IH]; cbn [filter length]; [lia|]. destruct (p a); cbn [length]; lia. Qed.
Lemma cnt_compl (p : Q * bool -> bool) l : (cnt p l + cnt (fun a => negb (p a)) l = length l)%nat.
Proof. unfold cnt. induction l as [|a l IH]; cbn [filter length]; [lia|]. destruct (p a); cbn [negb length]; lia. Qed.
Lemma cnt_zero {A} (p : A -> bool) l : (forall a, In a l -> p a = false) -> cnt p l = O.
Proof. unfold cnt. induction l as [|a l IH]; intros H; cbn [filter]; [reflexivity|]. rewrite (H a (or_introl eq_refl)). apply IH. intros b Hb. apply H. now right. Qed.
Lemma cnt_all {A} (p : A -> bool) l : (forall a, In a l -> p a = true) -> cnt p l = length l.
Proof. unfold cnt. induction l as [|a l IH]; intros H; cbn [filter length]; [reflexivity|]. rewrite (H a (or_introl eq_refl)). cbn [length]. rewrite IH; [reflexivity|]. intros b Hb. apply H. now right. Qed.
(** In a list sorted by falling confidence an upward closed predicate holds on a prefix. *)
Definition desc (l : list (Q * bool)) : Prop := StronglySorted (fun a b => fst b <= fst a) l.
Lemma upper_prefix (p : Q * bool -> bool) l k : desc l -> (forall a b, fst b <= fst a -> p b = true -> p a = true) ->
  cnt p (firstn k l) = Nat.min (Nat.min k (length l)) (cnt p l).
Proof.
  intros S U. revert k. induction S as [|a l S IH F]; intros k; [rewrite firstn_nil; cbn; lia|].
  destruct k; [reflexivity|]. cbn [firstn length]. unfold cnt in *. cbn [filter].
  destruct (p a) eqn:E.
  - cbn [length]. rewrite IH. lia.
  - assert (Z : length (filter p l) = O).
    { apply (cnt_zero p l). intros b Hb. destruct (p b) eqn:Eb; [|reflexivity]. rewrite Forall_forall in F.
      rewrite (U a b (F b Hb) Eb) in E. discriminate. }
    rewrite IH, Z. lia.
Qed.
Lemma desc_ge l k : desc l -> (k < length l)%nat -> forall x, In x (firstn (S k) l) -> fst (nth k l (0, false)) <= fst x.
Proof.
  intros S. revert k. induction S as [|a l S IH F]; intros k Hk x; cbn [length] in Hk; [lia|].
  destruct k; cbn [firstn nth].
  - intros [<-|[]]. lra.
  - intros [<-|Hx]; [|apply IH; [lia|exact Hx]].
    rewrite Forall_forall in F. apply F. apply nth_In. lia.
Qed.
Lemma desc_le l k : desc l -> (k < length l)%nat -> forall x, In x (skipn k l) -> fst x <= fst (nth k l (0, false)).
Proof.
  intros S. revert k. induction S as [|a l S IH F]; intros k Hk x; cbn [length] in Hk; [lia|].
  destruct k; cbn [skipn nth].
  - intros [<-|Hx]; [lra|]. rewrite Forall_forall in F. now apply F.
  - apply IH. lia.
Qed.
Lemma nth_in_firstn {A} (l : list A) k d : (k < length l)%nat -> In (nth k l d) (firstn (S k) l).
Proof.
  revert k. induction l as [|a l IH]; intros k H; cbn [length] in H; [lia|].
  destruct k; cbn [firstn nth]; [now left|]. right. apply IH. lia.
Qed.
Lemma sorted_split (R : Q * bool -> Q * bool -> Prop) l k : StronglySorted R l ->
  forall x y, In x (firstn k l) -> In y (skipn k l) -> R x y.
Proof.
  intros S. revert k. induction S as [|a l S IH F]; intros k x y; [rewrite firstn_nil; intros []|].
  destruct k; cbn [firstn skipn]; [intros []|]. intros [<-|Hx] Hy; [|eapply IH; eauto].
  rewrite Forall_forall in F. apply F. rewrite <- (firstn_skipn k l). apply in_or_app. now right.
Qed.
(** The pessimistic ranking finds at most as many after each rank. *)
Lemma pessimistic_prefix s l m k : by_confidence s l -> ranked s m -> (cnt snd (firstn k m) <= cnt snd (firstn k l))%nat.
Proof.
  intros [Pl Sl] Rm. pose proof (ranked_by_confidence _ _ Rm) as [Pm Sm]. destruct Rm as [_ Rm].
  assert (PP : Permutation m l) by (rewrite <- Pm; exact Pl).
  pose proof (Permutation_length PP) as EL.
  destruct k as [|k]; [cbn; lia|].
  destruct (Nat.lt_ge_cases k (length m)) as [Hk|Hk].
  2:{ rewrite !firstn_all2 by lia. rewrite (cnt_perm snd _ _ PP). lia. }
  set (c := fst (nth k m (0, false))).
  destruct (existsb (fun x => negb (snd x) && Qle_bool c (fst x)) (skipn (S k) m)) eqn:E.
  - apply existsb_exists in E. destruct E as (x & Hx & E). apply andb_prop in E. destruct E as [Ex Ec].
    apply Qle_bool_iff in Ec. apply negb_true_iff in Ex.
    set (up := fun a : Q * bool => Qlt_bool c (fst a)).
    set (upt := fun a : Q * bool => up a && snd a).
    assert (H1 : (cnt snd (firstn (S k) m) <= cnt upt m)%nat).
    { rewrite (cnt_split upt (S k) m). apply Nat.le_trans with (cnt upt (firstn (S k) m)); [|lia].
      apply cnt_mono. intros a Ha Hs. unfold upt, up. rewrite Hs, andb_true_r.
      destruct (sorted_split _ _ (S k) Rm a x Ha Hx) as [H|[H H']].
      - apply qlt_iff. lra.
      - rewrite H' in Ex by exact Hs. discriminate. }
    assert (H2 : (cnt up l <= S k)%nat).
    { rewrite <- (cnt_perm up _ _ PP). rewrite (cnt_split up (S k) m).
      rewrite (cnt_zero up (skipn (S k) m)).
      - pose proof (cnt_le up (firstn (S k) m)). rewrite firstn_length in H. lia.
      - intros a Ha. unfold up. apply qlt_false. apply (desc_le m k Sm Hk).
        assert (G : forall (l : list (Q * bool)) k x, In x (skipn (S k) l) -> In x (skipn k l)).
        { clear. induction l as [|a l IH]; intros k x; [now rewrite !skipn_nil|]. destruct k; cbn [skipn]; [now right|]. apply IH. }
        apply G. exact Ha. }
    assert (H3 : cnt up (skipn (S k) l) = O).
    { pose proof (upper_prefix up l (S k) Sl) as H.
      assert (U : forall a b : Q * bool, fst b <= fst a -> up b = true -> up a = true).
      { intros a b Hab Hb. unfold up in *. apply qlt_iff in Hb. apply qlt_iff. lra. }
      specialize (H U). pose proof (cnt_split up (S k) l). pose proof (cnt_le up l). lia. }
    rewrite (cnt_perm upt _ _ PP) in H1. rewrite (cnt_split upt (S k) l) in H1.
    assert (H4 : cnt upt (skipn (S k) l) = O).
    { assert (cnt upt (skipn (S k) l) <= cnt up (skipn (S k) l))%nat; [|lia].
      apply cnt_mono. intros a _ Ha. unfold upt in Ha. apply andb_prop in Ha. tauto. }
    assert (H5 : (cnt upt (firstn (S k) l) <= cnt snd (firstn (S k) l))%nat).
    { apply cnt_mono. intros a _ Ha. unfold upt in Ha. apply andb_prop in Ha. tauto. }
    lia.
  - set (ge := fun a : Q * bool => Qle_bool c (fst a)).
    set (gef := fun a : Q * bool => ge a && negb (snd a)).
    assert (H1 : cnt gef (skipn (S k) m) = O).
    { apply cnt_zero. intros a Ha. destruct (gef a) eqn:Eg; [|reflexivity]. unfold gef, ge in Eg.
      assert (existsb (fun x => negb (snd x) && Qle_bool c (fst x)) (skipn (S k) m) = true); [|congruence].
      apply existsb_exists. exists a. split; [exact Ha|]. rewrite andb_comm. exact Eg. }
    assert (H2 : (cnt gef m <= cnt (fun a => negb (snd a)) (firstn (S k) m))%nat).
    { rewrite (cnt_split gef (S k) m), H1. rewrite Nat.add_0_r. apply cnt_mono.
      intros a _ Ha. unfold gef in Ha. apply andb_prop in Ha. tauto. }
    assert (U : forall a b : Q * bool, fst b <= fst a -> ge b = true -> ge a = true).
    { intros a b Hab Hb. unfold ge in *. rewrite Qle_bool_iff in *. lra. }
    assert (H3 : cnt ge (firstn (S k) l) = S k).
    { rewrite (upper_prefix ge l (S k) Sl U). rewrite <- (cnt_perm ge _ _ PP).
      assert (cnt ge (firstn (S k) m) = S k).
      { rewrite cnt_all; [rewrite firstn_length; lia|]. intros a Ha. unfold ge. apply Qle_bool_iff.
        apply (desc_ge m k Sm Hk). exact Ha. }
      pose proof (cnt_split ge (S k) m). pose proof (cnt_le ge m). lia. }
    assert (H4 : (cnt (fun a => negb (snd a)) (firstn (S k) l) <= cnt gef l)%nat).
    { rewrite (cnt_split gef (S k) l). apply Nat.le_trans with (cnt gef (firstn (S k) l)); [|lia].
      apply cnt_mono. intros a Ha Hs. unfold gef. cbv beta in Hs. rewrite Hs, andb_true_r.
      destruct (ge a) eqn:Eg; [reflexivity|]. exfalso.
      assert (cnt ge (firstn (S k) l) < length (firstn (S k) l))%nat.
      { pose proof (cnt_compl ge (firstn (S k) l)). assert (cnt (fun a => negb (ge a)) (firstn (S k) l) > 0)%nat; [|lia].
        unfold cnt. assert (In a (filter (fun a => negb (ge a)) (firstn (S k) l))) by (apply filter_In; rewrite Eg; auto).
        destruct (filter (fun a => negb (ge a)) (firstn (S k) l)); [destruct H0|cbn; lia]. }
      rewrite firstn_length in H. lia. }
    rewrite <- (cnt_perm gef _ _ PP) in H4.
    pose proof (cnt_compl snd (firstn (S k) l)) as C1. pose proof (cnt_compl snd (firstn (S k) m)) as C2.
    rewrite firstn_length in C1, C2. lia.
Qed.
Lemma cnt_found (l : list (Q * bool)) : Z.of_nat (cnt snd l) = found (map snd l).
Proof. unfold cnt, found. induction l as [|[c b] l IH]; cbn [filter map snd]; [reflexivity|]. destruct b; cbn [length]; lia. Qed.
Lemma outcomes_ext (o o' : list bool) : length o = length o' ->
  (forall k, found (firstn k o) = found (firstn k o')) -> o = o'.
Proof.
  revert o'. induction o as [|b o IH]; intros [|b' o'] HL H; cbn [length] in HL; try lia; [reflexivity|].
  assert (b = b').
  { specialize (H 1%nat). cbn [firstn] in H. rewrite !found_cons in H. destruct b, b'; cbn in H; congruence || lia. }
  subst b'. f_equal. apply IH; [lia|]. intros k. specialize (H (S k)). cbn [firstn] in H. rewrite !found_cons in H. lia.
Qed.
Lemma ranked_unique s l m : ranked s l -> ranked s m -> map snd l = map snd m.
Proof.
  intros Hl Hm. pose proof (ranked_by_confidence _ _ Hl) as Bl. pose proof (ranked_by_confidence _ _ Hm) as Bm.
  apply outcomes_ext.
  - rewrite !map_length. destruct Hl as [P _], Hm as [P' _]. rewrite <- (Permutation_length P). apply Permutation_length. exact P'.
  - intros k. rewrite !firstn_map, <- !cnt_found.
    pose proof (pessimistic_prefix s l m k Bl Hm). pose proof (pessimistic_prefix s m l k Bm Hl). lia.
Qed.
Theorem bucket_map_value s n l : (0 < n)%Z -> ranked s l ->
  bucket_map {| ps_samples := s; ps_num := n |} == interpolated_area n (map snd l).
Proof. intros Hn Hl. rewrite bucket_map_sorted by exact Hn. now rewrite (ranked_unique s l _ Hl (sort_samples_ranked s)). Qed.
Theorem ranked_exists s : exists l, ranked s l.
Proof. exists (sort_samples s). apply sort_samples_ranked. Qed.
Theorem bucket_map_perm s s' n : (0 < n)%Z -> Permutation s s' ->
  bucket_map {| ps_samples := s; ps_num := n |} == bucket_map {| ps_samples := s'; ps_num := n |}.
Proof.
  intros Hn P. rewrite (bucket_map_value s n _ Hn (sort_samples_ranked s)).
  rewrite (bucket_map_value s' n (sort_samples s) Hn); [reflexivity|].
  destruct (sort_samples_ranked s) as [P1 S1]. split; [rewrite <- P; exact P1|exact S1].
Qed.

(** ** The mean over ground truths *)
Lemma max_list_nonneg l : 0 <= max_list l.
Proof. induction l as [|x l IH]; cbn [max_list fold_right]; [lra|]. eapply Qle_trans; [exact IH|apply Q.le_max_r]. Qed.
Lemma max_list_ub l x : In x l -> x <= max_list l.
Proof.
  induction l as [|y l IH]; cbn [max_list fold_right]; [intros []|]. intros [<-|H]; [apply Q.le_max_l|].
  eapply Qle_trans; [apply IH; exact H|apply Q.le_max_r].
Qed.
Lemma max_list_lub l b : 0 <= b -> (forall x, In x l -> x <= b) -> max_list l <= b.
Proof.
  intros Hb. induction l as [|y l IH]; intros H; cbn [max_list fold_right]; [exact Hb|].
  apply Q.max_lub; [apply H; now left|]. apply IH. intros x Hx. apply H. now right.
Qed.
Lemma sum_list_le {A} (f g : A -> Q) l : (forall a, In a l -> f a <= g a) -> sum_list (map f l) <= sum_list (map g l).
Proof.
  induction l as [|a l IH]; intros H; cbn [map sum_list fold_right]; [lra|].
  pose proof (H a (or_introl eq_refl)). specialize (IH (fun b Hb => H b (or_intror Hb))).
  unfold sum_list in IH. lra.
Qed.
Lemma sum_list_ext {A} (f g : A -> Q) l : (forall a, In a l -> f a == g a) -> sum_list (map f l) == sum_list (map g l).
Proof.
  intros H. apply Qle_antisym; apply sum_list_le; intros a Ha; rewrite (H a Ha); apply Qle_refl.
Qed.
Lemma sum_list_zero {A} (f : A -> Q) l : (forall a, In a l -> f a == 0) -> sum_list (map f l) == 0.
Proof.
  induction l as [|a l IH]; intros H; cbn [map sum_list fold_right]; [lra|].
  rewrite (H a (or_introl eq_refl)). specialize (IH (fun b Hb => H b (or_intror Hb))). unfold sum_list in IH. rewrite IH. lra.
Qed.
Lemma sum_list_app a b : sum_list (a ++ b) == sum_list a + sum_list b.
Proof. unfold sum_list. induction a as [|x a IH]; cbn [app fold_right]; [ring|]. rewrite IH. ring. Qed.
Lemma sum_list_div {A} (f : A -> Q) l c : sum_list (map (fun a => f a / c) l) == sum_list (map f l) / c.
Proof. induction l as [|a l IH]; cbn [map sum_list fold_right]; [unfold Qdiv; ring|]. unfold sum_list in *. rewrite IH. unfold Qdiv. ring. Qed.
Lemma best_from_found o k : (1 <= k <= length o)%nat -> nth (k - 1) o false = true ->
  best_from o k == best_at_recall o (found (firstn k o)).
Proof.
  intros Hk Hb. unfold best_from, best_at_recall.
  apply Qle_antisym; (apply max_list_lub; [apply max_list_nonneg|]); intros x Hx; apply in_map_iff in Hx; destruct Hx as (i & <- & Hi); apply in_seq in Hi.
  - assert (E : (found (firstn k o) <=? found (firstn i o))%Z = true).
    { apply Z.leb_le. apply found_firstn_mono. lia. }
    apply Qle_trans with (if (found (firstn k o) <=? found (firstn i o))%Z then precision o i else 0); [rewrite E; lra|].
    apply max_list_ub. apply (in_map (fun k0 => if (found (firstn k o) <=? found (firstn k0 o))%Z then precision o k0 else 0)).
    apply in_seq. lia.
  - destruct (Z.leb_spec (found (firstn k o)) (found (firstn i o))) as [H|H]; [|apply max_list_nonneg].
    assert (k <= i)%nat.
    { destruct (Nat.le_gt_cases k i) as [|G]; [assumption|]. exfalso.
      pose proof (found_firstn_mono o i (k - 1) ltac:(lia)).
      pose proof (found_firstn_S o (k - 1) ltac:(lia)). rewrite Hb in H1. replace (S (k - 1)) with k in H1 by lia. lia. }
    apply max_list_ub. apply in_map. apply in_seq. lia.
Qed.
Lemma area_by_truths o : forall m, (m <= length o)%nat ->
  sum_list (map (fun k => (inject_Z (found (firstn k o)) - inject_Z (found (firstn (k - 1) o))) * best_from o k) (seq 1 m)) ==
  sum_list (map (fun j => best_at_recall o (Z.of_nat j)) (seq 1 (Z.to_nat (found (firstn m o))))).
Proof.
  induction m as [|m IH]; intros Hm; [reflexivity|].
  rewrite seq_S, map_app, sum_list_app, IH by lia. cbn [map]. replace (1 + m)%nat with (S m) by lia.
  replace (S m - 1)%nat with m by lia.
  pose proof (found_nonneg (firstn m o)) as Hn.
  rewrite (found_firstn_S o m) by lia.
  destruct (nth m o false) eqn:E.
  - replace (Z.to_nat (found (firstn m o) + 1)) with (S (Z.to_nat (found (firstn m o)))) by lia.
    rewrite seq_S, map_app, sum_list_app. cbn [map sum_list fold_right].
    rewrite (best_from_found o (S m)) by (try lia; replace (S m - 1)%nat with m by lia; exact E).
    rewrite (found_firstn_S o m) by lia. rewrite E.
    replace (Z.of_nat (1 + Z.to_nat (found (firstn m o)))) with (found (firstn m o) + 1)%Z by lia.
    rewrite inject_Z_plus. change (inject_Z 1) with 1. ring.
  - rewrite Z.add_0_r. cbn [sum_list fold_right]. ring.
Qed.
Lemma best_at_recall_zero o j : (found o < j)%Z -> best_at_recall o j == 0.
Proof.
  intros H. apply Qle_antisym; [|apply max_list_nonneg]. apply max_list_lub; [lra|].
  intros x Hx. apply in_map_iff in Hx. destruct Hx as (k & <- & Hk). apply in_seq in Hk.
  destruct (Z.leb_spec j (found (firstn k o))) as [G|G]; [|lra]. exfalso.
  pose proof (found_firstn_mono o k (length o) ltac:(lia)) as M. rewrite firstn_all in M. lia.
Qed.
Theorem area_is_mean n o : (0 < n)%Z -> (found o <= n)%Z -> interpolated_area n o == mean_over_truths n o.
Proof.
  intros Hn Hf. unfold interpolated_area, mean_over_truths.
  rewrite (sum_list_ext _ (fun k => (inject_Z (found (firstn k o)) - inject_Z (found (firstn (k - 1) o))) * best_from o k / inject_Z n)).
  2:{ intros k _. unfold recall, Qdiv. ring. }
  rewrite (sum_list_div (fun k => (inject_Z (found (firstn k o)) - inject_Z (found (firstn (k - 1) o))) * best_from o k)).
  unfold Qdiv. apply Qmult_comp; [|reflexivity].
  rewrite (area_by_truths o (length o)) by lia. rewrite firstn_all.
  pose proof (found_nonneg o) as H0.
  replace (Z.to_nat n) with (Z.to_nat (found o) + (Z.to_nat n - Z.to_nat (found o)))%nat by lia.
  rewrite seq_app, map_app, sum_list_app.
  rewrite (sum_list_zero _ (seq (1 + Z.to_nat (found o)) (Z.to_nat n - Z.to_nat (found o)))).
  2:{ intros j Hj. apply in_seq in Hj. apply best_at_recall_zero. lia. }
  lra.
Qed.
Lemma precision_bounds o k : (1 <= k)%nat -> 0 <= precision o k <= 1.
Proof.
  intros Hk. unfold precision. assert (0 < inject_Z (Z.of_nat k)) by (change 0 with (inject_Z 0); rewrite <- Zlt_Qlt; lia).
  split.
  - apply Qle_shift_div_l; [exact H|]. rewrite Qmult_0_l. change 0 with (inject_Z 0). rewrite <- Zle_Qle. apply found_nonneg.
  - apply Qle_shift_div_r; [exact H|]. rewrite Qmult_1_l. rewrite <- Zle_Qle.
    pose proof (found_le (firstn k o)). rewrite firstn_length in H0. lia.
Qed.
Lemma best_bounds o j : 0 <= best_at_recall o j <= 1.
Proof.
  split; [apply max_list_nonneg|]. apply max_list_lub; [lra|]. intros x Hx. apply in_map_iff in Hx.
  destruct Hx as (k & <- & Hk). apply in_seq in Hk. destruct (j <=? found (firstn k o))%Z; [|lra]. apply precision_bounds. lia.
Qed.
Lemma sum_bounds l : (forall x, In x l -> 0 <= x <= 1) -> 0 <= sum_list l <= inject_Z (Z.of_nat (length l)).
Proof.
  induction l as [|x l IH]; intros H; cbn [sum_list fold_right length]; [change (inject_Z (Z.of_nat 0)) with 0; lra|].
  specialize (IH (fun y Hy => H y (or_intror Hy))). pose proof (H x (or_introl eq_refl)). unfold sum_list in IH.
  rewrite Nat2Z.inj_succ. unfold Z.succ. rewrite inject_Z_plus. change (inject_Z 1) with 1. lra.
Qed.
Lemma mean_bounds n o : (0 < n)%Z -> 0 <= mean_over_truths n o <= 1.
Proof.
  intros Hn. unfold mean_over_truths.
  assert (P : 0 < inject_Z n) by (change 0 with (inject_Z 0); rewrite <- Zlt_Qlt; lia).
  destruct (sum_bounds (map (fun j => best_at_recall o (Z.of_nat j)) (seq 1 (Z.to_nat n)))) as [L U].
  { intros x Hx. apply in_map_iff in Hx. destruct Hx as (j & <- & _). apply best_bounds. }
  rewrite map_length, seq_length, Z2Nat.id in U by lia.
  split; [apply Qle_shift_div_l; [exact P|rewrite Qmult_0_l; exact L]|apply Qle_shift_div_r; [exact P|rewrite Qmult_1_l; exact U]].
Qed.
(** Finding more after each rank raises the mean. *)
Lemma mean_mono n o o' : (0 < n)%Z -> length o = length o' -> (forall k, found (firstn k o) <= found (firstn k o'))%Z ->
  mean_over_truths n o <= mean_over_truths n o'.
Proof.
  intros Hn HL H. unfold mean_over_truths, Qdiv. apply Qmult_le_compat_r.
  2:{ apply Qinv_le_0_compat. change 0 with (inject_Z 0). rewrite <- Zle_Qle. lia. }
  apply sum_list_le. intros j _. apply max_list_lub; [apply max_list_nonneg|].
  intros x Hx. apply in_map_iff in Hx. destruct Hx as (k & <- & Hk).
  apply Qle_trans with (if (Z.of_nat j <=? found (firstn k o'))%Z then precision o' k else 0).
  - specialize (H k). destruct (Z.leb_spec (Z.of_nat j) (found (firstn k o))).
    + destruct (Z.leb_spec (Z.of_nat j) (found (firstn k o'))); [|lia].
      unfold precision, Qdiv. apply Qmult_le_compat_r; [rewrite <- Zle_Qle; exact H|].
      apply Qinv_le_0_compat. change 0 with (inject_Z 0). rewrite <- Zle_Qle. lia.
    + destruct (Z.of_nat j <=? found (firstn k o'))%Z; [|lra]. apply in_seq in Hk. apply precision_bounds. lia.
  - apply max_list_ub. apply (in_map (fun k => if (Z.of_nat j <=? found (firstn k o'))%Z then precision o' k else 0)).
    rewrite <- HL. exact Hk.
Qed.
Lemma found_perm (s l : list (Q * bool)) : Permutation s l -> found (map snd s) = found (map snd l).
Proof. intros P. rewrite <- !cnt_found. now rewrite (cnt_perm snd _ _ P). Qed.
Theorem bucket_map_mean s n l : (0 < n)%Z -> ranked s l -> (found (map snd s) <= n)%Z ->
  bucket_map {| ps_samples := s; ps_num := n |} == mean_over_truths n (map snd l).
Proof.
  intros Hn Hl Hf. rewrite (bucket_map_value s n l Hn Hl). apply area_is_mean; [exact Hn|].
  rewrite <- (found_perm s l); [exact Hf|]. now destruct Hl.
Qed.
Theorem bucket_map_unit s n : (0 < n)%Z -> (found (map snd s) <= n)%Z ->
  0 <= bucket_map {| ps_samples := s; ps_num := n |} <= 1.
Proof. intros Hn Hf. rewrite (bucket_map_mean s n _ Hn (sort_samples_ranked s) Hf). apply mean_bounds. exact Hn. Qed.
Theorem bucket_map_pessimistic s n l : (0 < n)%Z -> (found (map snd s) <= n)%Z -> by_confidence s l ->
  bucket_map {| ps_samples := s; ps_num := n |} <= interpolated_area n (map snd l).
Proof.
  intros Hn Hf Hl. rewrite (bucket_map_mean s n _ Hn (sort_samples_ranked s) Hf).
  rewrite area_is_mean; [|exact Hn|rewrite <- (found_perm s l); [exact Hf|now destruct Hl]].
  apply mean_mono; [exact Hn| |].
  - rewrite !map_length. destruct Hl as [P _]. rewrite <- (Permutation_length P). symmetry. apply Permutation_length, sort_samples_perm.
  - intros k. rewrite !firstn_map, <- !cnt_found. pose proof (pessimistic_prefix s l _ k Hl (sort_samples_ranked s)). lia.
Qed.
(** Turning incorrect samples into correct ones never lowers the value. *)
Lemma found_ge o o' : Forall2 (fun b b' => b = true -> b' = true) o o' -> (found o <= found o')%Z.
Proof. induction 1 as [|b b' o o' Hb _ IH]; [reflexivity|]. rewrite !found_cons. destruct b, b'; lia. Qed.
Lemma forall2_firstn {A B} (R : A -> B -> Prop) l l' k : Forall2 R l l' -> Forall2 R (firstn k l) (firstn k l').
Proof. intros H. revert k. induction H; intros [|k]; cbn [firstn]; constructor; auto. Qed.
