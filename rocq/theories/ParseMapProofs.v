(** Hash map updates, grouping, and sorted key sets. *)
From Coq Require Import String OrderedTypeEx Sorting.Sorted Sorting.Permutation.
From Verif Require Import Base ResultLib MonadLib ListLib ParseModel.
Open Scope list_scope.
Open Scope Z_scope.

Definition eq_test {K} (eqb : K -> K -> bool) : Prop := forall a b, eqb a b = true <-> a = b.

Lemma eq_test_refl {K} (eqb : K -> K -> bool) : eq_test eqb -> forall a, eqb a a = true.
Proof. intros H a. apply H. reflexivity. Qed.
Lemma eq_test_false {K} (eqb : K -> K -> bool) : eq_test eqb -> forall a b, a <> b -> eqb a b = false.
Proof. intros H a b N. destruct (eqb a b) eqn:E; [|reflexivity]. apply H in E. contradiction. Qed.
Lemma eq_test_Z : eq_test Z.eqb.
Proof. exact Z.eqb_eq. Qed.
Lemma eq_test_string : eq_test String.eqb.
Proof. exact String.eqb_eq. Qed.

Lemma get_update {K V} (eqb : K -> K -> bool) (d : V) k f m : eq_test eqb -> forall k',
  get eqb d k' (update eqb d k f m) = if eqb k k' then f (get eqb d k' m) else get eqb d k' m.
Proof.
  intros H k'. induction m as [|[k0 v] m IH]; cbn [update get].
  - destruct (eqb k' k) eqn:E; [apply H in E; subst; rewrite (eq_test_refl _ H); reflexivity|].
    destruct (eqb k k') eqn:E'; [|reflexivity]. apply H in E'. subst.
    rewrite (eq_test_refl _ H) in E. discriminate.
  - destruct (eqb k k0) eqn:E; cbn [get].
    + apply H in E. subst k0. destruct (eqb k' k) eqn:E'.
      * apply H in E'. subst. rewrite (eq_test_refl _ H). reflexivity.
      * destruct (eqb k k') eqn:E''; [|reflexivity]. apply H in E''. subst.
        rewrite (eq_test_refl _ H) in E'. discriminate.
    + destruct (eqb k' k0) eqn:E'.
      * apply H in E'. subst. rewrite E. reflexivity.
      * exact IH.
Qed.

Lemma keys_update {K V} (eqb : K -> K -> bool) (d : V) k f m : eq_test eqb -> forall k',
  In k' (map fst (update eqb d k f m)) <-> In k' (map fst m) \/ k' = k.
Proof.
  intros H k'. induction m as [|[k0 v] m IH]; cbn [update].
  - cbn. intuition.
  - destruct (eqb k k0) eqn:E; cbn.
    + apply H in E. subst. intuition.
    + rewrite IH. intuition.
Qed.

Lemma nodup_update {K V} (eqb : K -> K -> bool) (d : V) k f m : eq_test eqb ->
  NoDup (map fst m) -> NoDup (map fst (update eqb d k f m)).
Proof.
  intros H. induction m as [|[k0 v] m IH]; cbn [update]; intros N.
  - constructor; [intros []|constructor].
  - cbn in N. inversion N as [|? ? N1 N2]; subst. destruct (eqb k k0) eqn:E; cbn.
    + constructor; assumption.
    + constructor; [|exact (IH N2)]. rewrite (keys_update _ _ _ _ _ H). intros [I| ->]; [exact (N1 I)|].
      rewrite (eq_test_refl _ H) in E. discriminate.
Qed.

Lemma get_missing {K V} (eqb : K -> K -> bool) (d : V) m : eq_test eqb -> forall k,
  ~ In k (map fst m) -> get eqb d k m = d.
Proof.
  intros H k. induction m as [|[k0 v] m IH]; intros N; cbn [get]; [reflexivity|].
  cbn in N. rewrite (eq_test_false _ H); [apply IH|]; intuition congruence.
Qed.
Lemma get_member {K V} (eqb : K -> K -> bool) (d : V) m : eq_test eqb -> forall k,
  In k (map fst m) -> In (k, get eqb d k m) m.
Proof.
  intros H k. induction m as [|[k0 v] m IH]; intros I; cbn [get]; [destruct I|].
  destruct (eqb k k0) eqn:E; [apply H in E; subst; left; reflexivity|]. right. apply IH.
  destruct I as [I|I]; [cbn in I; subst; rewrite (eq_test_refl _ H) in E; discriminate|exact I].
Qed.
Lemma get_unique {K V} (eqb : K -> K -> bool) (d : V) m : eq_test eqb -> forall k v,
  NoDup (map fst m) -> In (k, v) m -> get eqb d k m = v.
Proof.
  intros H k v. induction m as [|[k0 v0] m IH]; intros N I; [destruct I|]. cbn [get].
  cbn in N. inversion N as [|? ? N1 N2]; subst. destruct I as [I|I].
  - apply pair_equal_spec in I. destruct I as [-> ->]. rewrite (eq_test_refl _ H). reflexivity.
  - rewrite (eq_test_false _ H); [exact (IH N2 I)|]. intros ->. apply N1.
    apply in_map_iff. exists (k0, v). split; [reflexivity|exact I].
Qed.

(** Grouping by a key. *)
Definition grouped {I K V} (eqb : K -> K -> bool) (d : V) (key : I -> K) (h : I -> V -> V)
    (l : list I) (m : list (K * V)) : list (K * V) :=
  fold_left (fun m i => update eqb d (key i) (h i) m) l m.

Lemma grouped_get {I K V} (eqb : K -> K -> bool) (d : V) (key : I -> K) h l : eq_test eqb -> forall m k,
  get eqb d k (grouped eqb d key h l m)
  = fold_left (fun v i => h i v) (filter (fun i => eqb (key i) k) l) (get eqb d k m).
Proof.
  intros H. induction l as [|i l IH]; intros m k; [reflexivity|]. unfold grouped in *. cbn [fold_left filter].
  rewrite IH, (get_update _ _ _ _ _ H). destruct (eqb (key i) k); reflexivity.
Qed.
Lemma grouped_keys {I K V} (eqb : K -> K -> bool) (d : V) (key : I -> K) h l : eq_test eqb -> forall m k,
  In k (map fst (grouped eqb d key h l m)) <-> In k (map fst m) \/ exists i, In i l /\ key i = k.
Proof.
  intros H. induction l as [|i l IH]; intros m k; unfold grouped in *; cbn [fold_left].
  - split; [auto|intros [?|(? & [] & _)]; assumption].
  - rewrite IH, (keys_update _ _ _ _ _ H). split.
    + intros [[?| ->]|(j & J & E)]; [left; assumption|right; exists i; split; [left|]; reflexivity|].
      right. exists j. split; [right; exact J|exact E].
    + intros [?|(j & [<-|J] & E)]; [left; left; assumption|left; right; symmetry; exact E|].
      right. exists j. split; assumption.
Qed.
Lemma grouped_nodup {I K V} (eqb : K -> K -> bool) (d : V) (key : I -> K) h l : eq_test eqb -> forall m,
  NoDup (map fst m) -> NoDup (map fst (grouped eqb d key h l m)).
Proof.
  intros H. induction l as [|i l IH]; intros m N; unfold grouped in *; cbn [fold_left]; [exact N|].
  apply IH, nodup_update; assumption.
Qed.

Lemma fold_push {I V} (o : I -> V) l : forall v, fold_left (fun v i => push (o i) v) l v = v ++ map o l.
Proof.
  induction l as [|i l IH]; intros v; cbn [fold_left map]; [symmetry; apply app_nil_r|].
  rewrite IH. unfold push. rewrite <- app_assoc. reflexivity.
Qed.

(** The entries of grouped lists. *)
Lemma grouped_push_in {I K V} (eqb : K -> K -> bool) (key : I -> K) (o : I -> V) l : eq_test eqb ->
  forall k (v : list V), In (k, v) (grouped eqb [] key (fun i => push (o i)) l [])
  <-> v <> [] /\ v = map o (filter (fun i => eqb (key i) k) l).
Proof.
  intros H k v. set (m := grouped _ _ _ _ _ _).
  assert (G : get eqb [] k m = map o (filter (fun i => eqb (key i) k) l)).
  { unfold m. rewrite (grouped_get _ _ _ _ _ H). cbn [get]. exact (fold_push o _ []). }
  assert (N : NoDup (map fst m)) by (apply grouped_nodup; [exact H|constructor]).
  assert (Kk : In k (map fst m) <-> exists i, In i l /\ key i = k).
  { unfold m. rewrite (grouped_keys _ _ _ _ _ H). split; [intros [[]|E]; exact E|auto]. }
  split.
  - intros E. pose proof (get_unique _ [] _ H _ _ N E) as E'. rewrite <- E', G. split; [|reflexivity].
    assert (K1 : In k (map fst m)) by (apply in_map_iff; exists (k, v); auto).
    apply Kk in K1. destruct K1 as (i & J & F). intros X. apply map_eq_nil in X.
    assert (In i (filter (fun i => eqb (key i) k) l)) as Y.
    { apply filter_In. split; [exact J|]. apply H. exact F. }
    rewrite X in Y. destruct Y.
  - intros [E ->]. rewrite <- G. apply (get_member _ _ _ H). apply Kk.
    destruct (filter (fun i => eqb (key i) k) l) as [|i t] eqn:F; [exfalso; apply E; reflexivity|].
    assert (In i (filter (fun i => eqb (key i) k) l)) as Y by (rewrite F; left; reflexivity).
    apply filter_In in Y. destruct Y as [Y1 Y2]. exists i. split; [exact Y1|]. apply H. exact Y2.
Qed.

Lemma concat_update {K V} (eqb : K -> K -> bool) k (x : V) m :
  Permutation (List.concat (map snd (update eqb [] k (push x) m))) (x :: List.concat (map snd m)).
Proof.
  induction m as [|[k0 v] m IH]; cbn [update]; [apply Permutation_refl|].
  destruct (eqb k k0); cbn [map snd List.concat].
  - unfold push. rewrite <- app_assoc. symmetry. apply Permutation_middle.
  - rewrite IH. symmetry. apply Permutation_middle.
Qed.
Lemma concat_update2 {K J V} (eqb : K -> K -> bool) (eqj : J -> J -> bool) k j (x : V) m :
  Permutation (List.concat (map snd (List.concat (map snd (update eqb [] k (update eqj [] j (push x)) m)))))
              (x :: List.concat (map snd (List.concat (map snd m)))).
Proof.
  induction m as [|[k0 v] m IH]; cbn [update]; [apply Permutation_refl|].
  destruct (eqb k k0); cbn [map snd List.concat]; rewrite !map_app, !concat_app.
  - rewrite concat_update. apply Permutation_refl.
  - rewrite IH. symmetry. apply Permutation_middle.
Qed.
Lemma grouped_concat {I K V} (eqb : K -> K -> bool) (key : I -> K) (o : I -> V) l : forall m,
  Permutation (List.concat (map snd (grouped eqb [] key (fun i => push (o i)) l m)))
              (map o l ++ List.concat (map snd m)).
Proof.
  induction l as [|i l IH]; intros m; unfold grouped in *; cbn [fold_left map]; [apply Permutation_refl|].
  rewrite IH, concat_update. symmetry. apply Permutation_middle.
Qed.
Lemma grouped_concat2 {I K J V} (eqb : K -> K -> bool) (eqj : J -> J -> bool) (key : I -> K) (sub : I -> J)
    (o : I -> V) l : forall m,
  Permutation (List.concat (map snd (List.concat (map snd
                 (grouped eqb [] key (fun i => update eqj [] (sub i) (push (o i))) l m)))))
              (map o l ++ List.concat (map snd (List.concat (map snd m)))).
Proof.
  induction l as [|i l IH]; intros m; unfold grouped in *; cbn [fold_left map]; [apply Permutation_refl|].
  rewrite IH, concat_update2. symmetry. apply Permutation_middle.
Qed.

(** Sorted sets. *)
Definition order {K} (cmp : K -> K -> comparison) : Prop :=
  (forall a b, cmp a b = Eq <-> a = b)
  /\ (forall a b, cmp b a = CompOpp (cmp a b))
  /\ (forall a b c, cmp a b = Lt -> cmp b c = Lt -> cmp a c = Lt).

Lemma order_Z : order Z.compare.
Proof.
  split; [exact Z.compare_eq_iff|split; [intros; apply Z.compare_antisym|]].
  intros a b c H1 H2. exact (Z.lt_trans _ _ _ H1 H2).
Qed.
Lemma order_string : order String.compare.
Proof.
  split; [exact String_as_OT.cmp_eq|split; [intros; apply String_as_OT.cmp_antisym|]].
  intros a b c H1 H2. apply String_as_OT.cmp_lt in H1. apply String_as_OT.cmp_lt in H2.
  apply String_as_OT.cmp_lt. exact (String_as_OT.lt_trans _ _ _ H1 H2).
Qed.

Lemma set_insert_in {K} (cmp : K -> K -> comparison) x : order cmp -> forall l y,
  In y (set_insert cmp x l) <-> y = x \/ In y l.
Proof.
  intros (H & _ & _) l y. induction l as [|z l IH]; cbn [set_insert].
  - cbn. intuition.
  - destruct (cmp x z) eqn:E; cbn.
    + apply H in E. subst. intuition.
    + intuition.
    + rewrite IH. intuition.
Qed.
Lemma set_insert_sorted {K} (cmp : K -> K -> comparison) x : order cmp -> forall l,
  StronglySorted (fun a b => cmp a b = Lt) l -> StronglySorted (fun a b => cmp a b = Lt) (set_insert cmp x l).
Proof.
  intros O l. pose proof O as (H & A & T). induction l as [|z l IH]; cbn [set_insert]; intros S.
  - constructor; constructor.
  - inversion S as [|? ? S1 S2]; subst. destruct (cmp x z) eqn:E.
    + exact S.
    + constructor; [exact S|]. constructor; [exact E|]. eapply Forall_impl; [|exact S2].
      intros w W. exact (T _ _ _ E W).
    + constructor; [exact (IH S1)|]. apply Forall_forall. intros w W.
      apply (set_insert_in _ _ O) in W. destruct W as [->|W].
      * rewrite A, E. reflexivity.
      * rewrite Forall_forall in S2. exact (S2 _ W).
Qed.
Lemma fold_insert {K} (cmp : K -> K -> comparison) (l : list K) : order cmp -> forall s,
  StronglySorted (fun a b => cmp a b = Lt) s ->
  StronglySorted (fun a b => cmp a b = Lt) (fold_left (fun s k => set_insert cmp k s) l s)
  /\ forall y, In y (fold_left (fun s k => set_insert cmp k s) l s) <-> In y l \/ In y s.
Proof.
  intros O. induction l as [|x l IH]; intros s S; cbn [fold_left].
  - split; [exact S|]. intros y. cbn. intuition.
  - destruct (IH (set_insert cmp x s)) as [A B]; [apply set_insert_sorted; assumption|]. split; [exact A|].
    intros y. rewrite B, (set_insert_in _ _ O). cbn. intuition.
Qed.
Lemma key_set_spec {K V} (cmp : K -> K -> comparison) (a b : list (K * V)) : order cmp ->
  StronglySorted (fun x y => cmp x y = Lt) (key_set cmp a b)
  /\ forall k, In k (key_set cmp a b) <-> In k (map fst a) \/ In k (map fst b).
Proof.
  intros O. unfold key_set.
  destruct (fold_insert cmp (map fst a ++ map fst b) O []) as [A B]; [constructor|].
  split; [exact A|]. intros k. rewrite B, in_app_iff. cbn. intuition.
Qed.
