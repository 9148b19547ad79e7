(** Association list maps and the loops of MOT over them. *)
From Coq Require Import Permutation.
From Verif Require Import Base ResultLib ListLib MatcherModel MotModel.
Open Scope Z_scope.

Lemma mfind_In k v m : mfind k m = Some v -> In (k, v) m.
Proof.
  induction m as [|[k' v'] m IH]; cbn [mfind]; [discriminate|].
  destruct (Nat.eqb_spec k k') as [->|Hn]; [intros [= ->]; now left|intros H; right; auto].
Qed.
Lemma In_mfind k v m : NoDup (keys m) -> In (k, v) m -> mfind k m = Some v.
Proof.
  induction m as [|[k' v'] m IH]; cbn [mfind keys map fst]; intros Hn Hin; [destruct Hin|].
  inversion Hn as [|a l Ha Hl]; subst. destruct Hin as [[= -> ->]|Hin].
  - now rewrite Nat.eqb_refl.
  - destruct (Nat.eqb_spec k k') as [->|Hk]; [|auto].
    exfalso. apply Ha. change k' with (fst (k', v)). now apply in_map.
Qed.
Lemma mfind_None k m : mfind k m = None <-> ~ In k (keys m).
Proof.
  induction m as [|[k' v'] m IH]; cbn [mfind keys map fst]; [simpl; tauto|].
  destruct (Nat.eqb_spec k k') as [->|Hk].
  - split; [discriminate|]. intros H. exfalso. apply H. now left.
  - rewrite IH. simpl. unfold keys. intuition congruence.
Qed.
Lemma mhas_spec k m : mhas k m = true <-> In k (keys m).
Proof.
  unfold mhas. destruct (mfind k m) as [v|] eqn:E.
  - split; [|reflexivity]. intros _. apply mfind_In in E. change k with (fst (k, v)). now apply in_map.
  - apply mfind_None in E. split; [discriminate|contradiction].
Qed.
Lemma mhas_false k m : mhas k m = false <-> ~ In k (keys m).
Proof. rewrite <- mhas_spec. destruct (mhas k m); split; congruence. Qed.
Lemma memplace_fresh k v m : ~ In k (keys m) -> memplace k v m = m ++ [(k, v)].
Proof. intros H. unfold memplace. apply mfind_None in H. now rewrite H. Qed.
Lemma mset_fresh k v m : ~ In k (keys m) -> mset k v m = m ++ [(k, v)].
Proof.
  induction m as [|[k' v'] m IH]; cbn [mset]; intros H; [reflexivity|].
  destruct (Nat.eqb_spec k k') as [->|Hk]; [exfalso; apply H; now left|].
  cbn [app]. rewrite IH; [reflexivity|]. intros Hin. apply H. now right.
Qed.
Lemma mfind_merase k k' m : mfind k (merase k' m) = if Nat.eqb k k' then None else mfind k m.
Proof.
  induction m as [|[a v] m IH]; cbn [merase filter mfind fst].
  - now destruct (Nat.eqb k k').
  - destruct (Nat.eqb_spec k' a) as [->|Ha]; cbn [negb].
    + fold (merase a m). rewrite IH. destruct (Nat.eqb k a); reflexivity.
    + cbn [mfind]. fold (merase k' m). rewrite IH.
      destruct (Nat.eqb_spec k k') as [->|Hk]; [|reflexivity].
      destruct (Nat.eqb_spec k' a); [contradiction|reflexivity].
Qed.
Lemma merase_In k v k' m : In (k, v) (merase k' m) <-> In (k, v) m /\ k <> k'.
Proof.
  unfold merase. rewrite filter_In. cbn [fst]. destruct (Nat.eqb_spec k' k); simpl; intuition congruence.
Qed.
Lemma keys_filter_nodup (p : nat * nat -> bool) m : NoDup (keys m) -> NoDup (keys (filter p m)).
Proof.
  induction m as [|kv m IH]; cbn [filter keys map]; intros H; [constructor|].
  inversion H as [|a l Ha Hl]; subst. destruct (p kv); [|auto].
  cbn [map]. constructor; [|auto]. intros Hin. apply Ha.
  apply in_map_iff in Hin. destruct Hin as (x & E & Hx). apply filter_In in Hx.
  rewrite <- E. apply in_map. tauto.
Qed.
Lemma vals_filter_nodup (p : nat * nat -> bool) m : NoDup (vals m) -> NoDup (vals (filter p m)).
Proof.
  induction m as [|kv m IH]; cbn [filter vals map]; intros H; [constructor|].
  inversion H as [|a l Ha Hl]; subst. destruct (p kv); [|auto].
  cbn [map]. constructor; [|auto]. intros Hin. apply Ha.
  apply in_map_iff in Hin. destruct Hin as (x & E & Hx). apply filter_In in Hx.
  rewrite <- E. apply in_map. tauto.
Qed.
Lemma mset_keys k v m x : In x (keys (mset k v m)) <-> x = k \/ In x (keys m).
Proof.
  induction m as [|[k' v'] m IH]; cbn [mset keys map fst]; [simpl; intuition|].
  destruct (Nat.eqb_spec k k') as [->|Hk]; cbn [map fst In]; [intuition|].
  fold (keys (mset k v m)). rewrite IH. fold (keys m). intuition.
Qed.
Lemma mset_nodup k v m : NoDup (keys m) -> NoDup (keys (mset k v m)).
Proof.
  induction m as [|[k' v'] m IH]; cbn [mset keys map fst]; intros H.
  - constructor; [intros []|constructor].
  - inversion H as [|a l Ha Hl]; subst. destruct (Nat.eqb_spec k k') as [->|Hk]; cbn [map fst].
    + now constructor.
    + constructor; [|auto]. fold (keys (mset k v m)). rewrite mset_keys. intros [E|E]; [congruence|]. contradiction.
Qed.
Lemma mset_In k v m k1 v1 : NoDup (keys m) ->
  In (k1, v1) (mset k v m) <-> (k1 = k /\ v1 = v) \/ (k1 <> k /\ In (k1, v1) m).
Proof.
  induction m as [|[k' v'] m IH]; cbn [mset keys map fst]; intros H.
  - simpl. split; [intros [[= <- <-]|[]]; auto|intros [[-> ->]|[_ []]]; auto].
  - inversion H as [|a l Ha Hl]; subst. destruct (Nat.eqb_spec k k') as [->|Hk]; cbn [In].
    + split.
      * intros [[= <- <-]|Hin]; [auto|]. right. split; [|auto].
        intros ->. apply Ha. change k' with (fst (k', v1)). now apply in_map.
      * intros [[-> ->]|[Hn [[= <- <-]|Hin]]]; auto. congruence.
    + rewrite IH by exact Hl. split.
      * intros [[= <- <-]|[[-> ->]|[Hn Hin]]]; auto.
      * intros [[-> ->]|[Hn [[= <- <-]|Hin]]]; auto.
Qed.

Lemma Permutation_keys m m' : Permutation m m' -> Permutation (keys m) (keys m').
Proof. apply Permutation_map. Qed.
Lemma Permutation_vals m m' : Permutation m m' -> Permutation (vals m) (vals m').
Proof. apply Permutation_map. Qed.
Lemma mfind_perm m m' k : NoDup (keys m) -> Permutation m m' -> mfind k m = mfind k m'.
Proof.
  intros Hn Hp. assert (Hn' : NoDup (keys m')).
  { eapply Permutation_NoDup; [apply Permutation_keys, Hp|exact Hn]. }
  destruct (mfind k m) as [v|] eqn:E.
  - symmetry. apply In_mfind; [exact Hn'|]. eapply Permutation_in; [exact Hp|]. now apply mfind_In.
  - symmetry. apply mfind_None in E. apply mfind_None. intros Hin. apply E.
    eapply Permutation_in; [apply Permutation_sym, Permutation_keys, Hp|exact Hin].
Qed.
Lemma nodupb_ok l : NoDup l -> nodupb l = true.
Proof.
  induction 1 as [|a l Ha _ IH]; [reflexivity|]. cbn [nodupb]. rewrite IH, andb_true_r.
  apply negb_true_iff. apply not_true_is_false. rewrite existsb_exists.
  intros (x & Hx & E). apply Nat.eqb_eq in E. congruence.
Qed.

(** ** Folds *)
Lemma foldM_app {A S} (f : S -> A -> result S) l l' s :
  foldM f (l ++ l') s = do s' <- foldM f l s; foldM f l' s'.
Proof.
  revert s. induction l as [|a l IH]; intros s; cbn [app foldM]; [reflexivity|].
  destruct (f s a) as [s'|e]; cbn [bind]; [apply IH|reflexivity].
Qed.

Lemma nth_result_ok {A} (l : list A) i e d : (i < length l)%nat -> nth_result l i e = Ok (nth i l d).
Proof.
  intros Hi. unfold nth_result. rewrite (nth_error_nth' l d Hi). reflexivity.
Qed.

(** Positions of first occurrences. *)
Definition firsts (ids : list nat) : list nat :=
  filter (fun i => forallb (fun i' => negb (Nat.eqb (nth i' ids 0%nat) (nth i ids 0%nat))) (seq 0 i))
    (seq 0 (length ids)).
Definition first_map (ids : list nat) : amap := map (fun i => (nth i ids 0%nat, i)) (firsts ids).

Lemma firsts_snoc ids a : firsts (ids ++ [a]) =
  firsts ids ++ (if forallb (fun x => negb (Nat.eqb x a)) ids then [length ids] else []).
Proof.
  unfold firsts. rewrite app_length. cbn [length]. rewrite Nat.add_1_r, seq_S, filter_app. cbn [plus].
  f_equal.
  - apply filter_ext_in. intros i Hi. apply in_seq in Hi.
    assert (E : forall i', In i' (seq 0 i) ->
      negb (Nat.eqb (nth i' (ids ++ [a]) 0%nat) (nth i (ids ++ [a]) 0%nat)) =
      negb (Nat.eqb (nth i' ids 0%nat) (nth i ids 0%nat))).
    { intros i' Hi'. apply in_seq in Hi'. rewrite !(app_nth1 ids) by lia. reflexivity. }
    clear -E. induction (seq 0 i) as [|x l IH]; [reflexivity|]. cbn [forallb].
    rewrite E by now left. rewrite IH; [reflexivity|]. intros y Hy. apply E. now right.
  - cbn [filter]. rewrite (app_nth2 ids [a]) by lia. rewrite Nat.sub_diag. cbn [nth].
    replace (forallb (fun i' => negb (Nat.eqb (nth i' (ids ++ [a]) 0%nat) a)) (seq 0 (length ids)))
      with (forallb (fun x => negb (Nat.eqb x a)) ids); [reflexivity|].
    destruct (forallb (fun x => negb (Nat.eqb x a)) ids) eqn:E.
    + symmetry. apply forallb_forall. intros i Hi. apply in_seq in Hi.
      rewrite (app_nth1 ids) by lia. rewrite forallb_forall in E. apply E. apply nth_In. lia.
    + symmetry. apply not_true_is_false. intros H. rewrite forallb_forall in H.
      apply not_true_iff_false in E. apply E. apply forallb_forall. intros x Hx.
      destruct (In_nth ids x 0%nat Hx) as (i & Hi & Ex). specialize (H i).
      rewrite (app_nth1 ids) in H by lia. rewrite Ex in H. apply H. apply in_seq. lia.
Qed.

Lemma first_map_snoc ids a : first_map (ids ++ [a]) =
  first_map ids ++ (if forallb (fun x => negb (Nat.eqb x a)) ids then [(a, length ids)] else []).
Proof.
  unfold first_map. rewrite firsts_snoc, map_app. f_equal.
  - apply map_ext_in. intros i Hi. unfold firsts in Hi. apply filter_In in Hi. destruct Hi as [Hi _].
    apply in_seq in Hi. rewrite (app_nth1 ids) by lia. reflexivity.
  - destruct (forallb _ ids); [|reflexivity]. cbn [map]. rewrite (app_nth2 ids [a]) by lia.
    rewrite Nat.sub_diag. reflexivity.
Qed.

Lemma first_map_keys ids x : In x (keys (first_map ids)) <-> In x ids.
Proof.
  induction ids as [|a ids IH] using rev_ind; [simpl; tauto|].
  rewrite first_map_snoc. unfold keys in *. rewrite map_app, !in_app_iff, IH.
  destruct (forallb (fun x0 => negb (Nat.eqb x0 a)) ids) eqn:E; simpl; [tauto|].
  assert (Ha : In a ids).
  { apply not_true_iff_false in E. destruct (in_dec Nat.eq_dec a ids) as [H|H]; [exact H|].
    exfalso. apply E. apply forallb_forall. intros y Hy. apply negb_true_iff. apply Nat.eqb_neq. congruence. }
  intuition congruence.
Qed.

Lemma first_map_nodup ids : NoDup (keys (first_map ids)).
Proof.
  induction ids as [|a ids IH] using rev_ind; [constructor|].
  rewrite first_map_snoc. unfold keys in *. rewrite map_app.
  apply nodup_app; [exact IH| |].
  - destruct (forallb _ ids); [|constructor]. simpl. constructor; [intros []|constructor].
  - intros x Hx. apply (proj1 (first_map_keys ids x)) in Hx.
    destruct (forallb (fun x0 => negb (Nat.eqb x0 a)) ids) eqn:E; [|intros []].
    simpl. intros [<-|[]]. rewrite forallb_forall in E. specialize (E a Hx). rewrite Nat.eqb_refl in E. discriminate.
Qed.

Lemma enum_snoc l a : enum (l ++ [a]) = enum l ++ [(length l, a)].
Proof.
  unfold enum. rewrite app_length. cbn [length]. rewrite Nat.add_1_r, seq_S. cbn [plus].
  assert (H : forall (l1 : list nat) (l2 : list nat) x y, length l1 = length l2 ->
    combine (l1 ++ [x]) (l2 ++ [y]) = combine l1 l2 ++ [(x, y)]).
  { induction l1 as [|b l1 IH]; intros [|c l2] x y E; simpl in E; try discriminate; [reflexivity|].
    simpl. rewrite IH by lia. reflexivity. }
  apply H. now rewrite seq_length.
Qed.

Lemma build_fold ids : forall sub, Forall (fun x => x < length ids)%nat sub ->
  foldM (fun m ix => do id <- nth_result ids (snd ix) IndexError; Ok (memplace id (fst ix) m)) (enum sub) []
  = Ok (first_map (map (fun x => nth x ids 0%nat) sub)).
Proof.
  induction sub as [|a sub IH] using rev_ind; intros Hf; [reflexivity|].
  apply Forall_app in Hf. destruct Hf as [Hf Ha]. inversion Ha as [|a' l Ha' _]; subst.
  rewrite enum_snoc, foldM_app, IH by exact Hf. cbn [bind foldM fst snd].
  rewrite (nth_result_ok ids a _ 0%nat) by exact Ha'. cbn [bind].
  rewrite map_app. cbn [map]. rewrite first_map_snoc. f_equal. rewrite map_length.
  set (ids' := map _ sub). set (b := nth a ids 0%nat).
  destruct (forallb (fun x => negb (Nat.eqb x b)) ids') eqn:E.
  - apply memplace_fresh. rewrite first_map_keys. intros Hin. rewrite forallb_forall in E.
    specialize (E b Hin). rewrite Nat.eqb_refl in E. discriminate.
  - rewrite app_nil_r. unfold memplace. destruct (mfind b (first_map ids')) eqn:Eb; [reflexivity|].
    exfalso. apply mfind_None in Eb. rewrite first_map_keys in Eb. apply not_true_iff_false in E. apply E.
    apply forallb_forall. intros y Hy. apply negb_true_iff. apply Nat.eqb_neq. congruence.
Qed.

Lemma build_fold_strict ids : forall sub, Forall (fun x => x < length ids)%nat sub ->
  NoDup (map (fun x => nth x ids 0%nat) sub) ->
  foldM (fun m ix => do id <- nth_result ids (snd ix) IndexError;
           if mhas id m then Err CheckFailed else Ok (memplace id (fst ix) m)) (enum sub) []
  = Ok (first_map (map (fun x => nth x ids 0%nat) sub)).
Proof.
  induction sub as [|a sub IH] using rev_ind; intros Hf Hn; [reflexivity|].
  apply Forall_app in Hf. destruct Hf as [Hf Ha]. inversion Ha as [|a' l Ha' _]; subst.
  rewrite map_app in Hn. apply nodup_app_inv in Hn. destruct Hn as (Hn & _ & Hd).
  rewrite enum_snoc, foldM_app, IH by assumption. cbn [bind foldM fst snd].
  rewrite (nth_result_ok ids a _ 0%nat) by exact Ha'. cbn [bind].
  rewrite map_app. cbn [map]. rewrite first_map_snoc. rewrite map_length.
  set (ids' := map _ sub) in *. set (b := nth a ids 0%nat) in *.
  assert (Hb : ~ In b ids'). { intros Hin. apply (Hd b Hin). now left. }
  assert (Hh : mhas b (first_map ids') = false). { apply mhas_false. now rewrite first_map_keys. }
  rewrite Hh. cbn [bind]. f_equal.
  rewrite memplace_fresh by (now rewrite first_map_keys).
  destruct (forallb (fun x => negb (Nat.eqb x b)) ids') eqn:E; [reflexivity|].
  exfalso. apply not_true_iff_false in E. apply E.
  apply forallb_forall. intros y Hy. apply negb_true_iff. apply Nat.eqb_neq. congruence.
Qed.

(** First element with a property, seen through positions. *)
Lemma first_map_find ids sub h i :
  In (h, i) (first_map (map (fun x => nth x ids 0%nat) sub)) ->
  (i < length sub)%nat /\ nth (nth i sub 0%nat) ids 0%nat = h /\
  find (fun x => Nat.eqb (nth x ids 0%nat) h) sub = Some (nth i sub 0%nat).
Proof.
  unfold first_map. intros H. apply in_map_iff in H. destruct H as (i0 & [= Eh ->] & Hi).
  unfold firsts in Hi. apply filter_In in Hi. destruct Hi as [Hi Hall].
  apply in_seq in Hi. rewrite map_length in Hi. rewrite (nth_map _ sub i 0%nat) in Eh by lia.
  split; [lia|]. split; [exact Eh|].
  assert (Hb : forall i', (i' < i)%nat -> nth (nth i' sub 0%nat) ids 0%nat <> h).
  { intros i' Hi'. rewrite forallb_forall in Hall. specialize (Hall i'). cbv beta in Hall.
    rewrite !(nth_map _ sub _ 0%nat) in Hall by lia. rewrite Eh in Hall.
    specialize (Hall ltac:(apply in_seq; lia)). apply negb_true_iff, Nat.eqb_neq in Hall. exact Hall. }
  assert (Hlt : (i < length sub)%nat) by lia. clear Hall Hi.
  revert i Eh Hb Hlt. induction sub as [|a sub IH]; intros i Eh Hb Hlt; [simpl in Hlt; lia|].
  cbn [find]. destruct i as [|i].
  - cbn [nth] in *. rewrite Eh, Nat.eqb_refl. reflexivity.
  - destruct (Nat.eqb_spec (nth a ids 0%nat) h) as [E|E].
    + exfalso. apply (Hb 0%nat); [lia|exact E].
    + cbn [nth] in *. apply IH; auto; [|simpl in Hlt; lia].
      intros i' Hi'. apply (Hb (S i')). lia.
Qed.
Lemma first_map_find_none ids sub h :
  ~ In h (keys (first_map (map (fun x => nth x ids 0%nat) sub))) <->
  find (fun x => Nat.eqb (nth x ids 0%nat) h) sub = None.
Proof.
  rewrite first_map_keys. split.
  - intros H. destruct (find _ sub) as [x|] eqn:E; [|reflexivity]. exfalso.
    apply find_some in E. destruct E as [Hx Ex]. apply Nat.eqb_eq in Ex. apply H. apply in_map_iff. eauto.
  - intros H Hin. apply in_map_iff in Hin. destruct Hin as (x & Ex & Hx).
    pose proof (find_none _ _ H x Hx) as Hf. cbv beta in Hf. rewrite Ex, Nat.eqb_refl in Hf. discriminate.
Qed.
Lemma first_map_full ids : NoDup ids -> keys (first_map ids) = ids.
Proof.
  induction ids as [|a ids IH] using rev_ind; intros H; [reflexivity|].
  apply nodup_app_inv in H. destruct H as (H & _ & Hd).
  rewrite first_map_snoc. unfold keys in *. rewrite map_app, IH by exact H. f_equal.
  destruct (forallb (fun x => negb (Nat.eqb x a)) ids) eqn:E; [reflexivity|].
  exfalso. apply not_true_iff_false in E. apply E. apply forallb_forall. intros y Hy.
  apply negb_true_iff, Nat.eqb_neq. intros ->. apply (Hd a Hy). now left.
Qed.
