(** Proofs about the evaluation of one frame. *)
From Coq Require Import Permutation.
From Verif Require Import Base ResultLib ListLib MatcherModel MatcherSpec HungarianSpec MotModel MotSpec MotMapProofs.
Open Scope Z_scope.

(** ** Counting *)
Lemma countb_app {A} (p : A -> bool) l l' : countb p (l ++ l') = countb p l + countb p l'.
Proof. unfold countb. rewrite filter_app, app_length. lia. Qed.
Lemma countb_one {A} (p : A -> bool) a : countb p [a] = if p a then 1 else 0.
Proof. unfold countb. cbn [filter]. destruct (p a); reflexivity. Qed.
Lemma countb_perm {A} (p : A -> bool) l l' : Permutation l l' -> countb p l = countb p l'.
Proof.
  unfold countb. induction 1 as [|x l l' H IH|x y l|l l' l'' H IH H' IH']; cbn [filter]; [reflexivity| | |lia].
  - destruct (p x); cbn [length]; lia.
  - destruct (p x), (p y); cbn [length]; lia.
Qed.
Lemma countb_map {A B} (g : A -> B) (p : B -> bool) l : countb p (map g l) = countb (fun a => p (g a)) l.
Proof.
  unfold countb. induction l as [|a l IH]; cbn [map filter]; [reflexivity|].
  destruct (p (g a)); cbn [length]; lia.
Qed.
Lemma countb_ext {A} (p q : A -> bool) l : (forall a, In a l -> p a = q a) -> countb p l = countb q l.
Proof. intros H. unfold countb. now rewrite (filter_ext_in _ _ _ H). Qed.
Lemma countb_filter {A} (p r : A -> bool) l : (forall a, In a l -> p a = true -> r a = true) ->
  countb p (filter r l) = countb p l.
Proof.
  unfold countb. induction l as [|a l IH]; intros H; cbn [filter]; [reflexivity|].
  assert (IH' := IH ltac:(intros b Hb; apply H; now right)).
  destruct (r a) eqn:Er; cbn [filter]; destruct (p a) eqn:Ep; cbn [length]; try lia.
  rewrite (H a (or_introl eq_refl) Ep) in Er. discriminate.
Qed.
Lemma countb_compl {A} (p : A -> bool) l : countb p l + countb (fun a => negb (p a)) l = Z.of_nat (length l).
Proof.
  unfold countb. induction l as [|a l IH]; cbn [filter]; [reflexivity|].
  destruct (p a); cbn [length negb]; lia.
Qed.
Lemma countb_split {A} (p q : A -> bool) l :
  countb p l = countb (fun a => p a && q a) l + countb (fun a => p a && negb (q a)) l.
Proof.
  unfold countb. induction l as [|a l IH]; cbn [filter]; [reflexivity|].
  destruct (p a), (q a); cbn [andb negb length]; lia.
Qed.
Lemma map_nth_seq {A} (l : list A) d : map (fun i => nth i l d) (seq 0 (length l)) = l.
Proof.
  induction l as [|a l IH]; [reflexivity|]. cbn [length seq map nth]. f_equal.
  rewrite <- seq_shift, map_map. exact IH.
Qed.
Lemma countb_positions {A} (q : A -> bool) l d :
  countb (fun i => q (nth i l d)) (seq 0 (length l)) = countb q l.
Proof. rewrite <- (countb_map (fun i => nth i l d)), map_nth_seq. reflexivity. Qed.

Lemma matched_gt_spec nw g : matched_gt nw g = true <-> In g (keys nw).
Proof.
  unfold matched_gt, keys. rewrite existsb_exists, in_map_iff. split; intros (x & H1 & H2); exists x.
  - apply Nat.eqb_eq in H2. auto.
  - rewrite H1, Nat.eqb_refl. auto.
Qed.
Lemma matched_pd_spec nw h : matched_pd nw h = true <-> In h (vals nw).
Proof.
  unfold matched_pd, vals. rewrite existsb_exists, in_map_iff. split; intros (x & H1 & H2); exists x.
  - apply Nat.eqb_eq in H2. auto.
  - rewrite H1, Nat.eqb_refl. auto.
Qed.
Lemma iff_bool (b c : bool) : (b = true <-> c = true) -> b = c.
Proof. destruct b, c; intuition congruence. Qed.

Lemma Qsum_cons a l : Qsum (a :: l) = (a + Qsum l)%Q.
Proof. reflexivity. Qed.
Lemma Qsum_app l l' : (Qsum (l ++ l') == Qsum l + Qsum l')%Q.
Proof.
  induction l as [|a l IH].
  - change (Qsum ([] ++ l')) with (Qsum l'). change (Qsum []) with 0%Q. ring.
  - rewrite <- app_comm_cons, !Qsum_cons, IH. ring.
Qed.
Lemma Qsum_perm l l' : Permutation l l' -> (Qsum l == Qsum l')%Q.
Proof.
  induction 1 as [|x l l' H IH|x y l|l l' l'' H IH H' IH']; rewrite ?Qsum_cons.
  - reflexivity.
  - now rewrite IH.
  - ring.
  - now rewrite IH, IH'.
Qed.

(** ** Maps with some keys removed *)
Definition drop (ks : list nat) (m : amap) : amap :=
  filter (fun kv => negb (existsb (Nat.eqb (fst kv)) ks)) m.
Lemma existsb_eqb k l : existsb (Nat.eqb k) l = true <-> In k l.
Proof.
  rewrite existsb_exists. split.
  - intros (x & Hx & E). apply Nat.eqb_eq in E. congruence.
  - intros H. exists k. now rewrite Nat.eqb_refl.
Qed.
Lemma drop_In ks m k v : In (k, v) (drop ks m) <-> In (k, v) m /\ ~ In k ks.
Proof.
  unfold drop. rewrite filter_In. cbn [fst]. rewrite negb_true_iff, <- not_true_iff_false, existsb_eqb. tauto.
Qed.
Lemma drop_keys ks m k : In k (keys (drop ks m)) <-> In k (keys m) /\ ~ In k ks.
Proof.
  unfold keys. rewrite !in_map_iff. split.
  - intros ([k' v] & <- & H). apply drop_In in H. cbn [fst]. destruct H. split; [exists (k', v)|]; auto.
  - intros [([k' v] & <- & H) Hn]. exists (k', v). split; [reflexivity|]. apply drop_In. auto.
Qed.
Lemma drop_nil m : drop [] m = m.
Proof. unfold drop. induction m as [|a m IH]; [reflexivity|]. simpl. f_equal. exact IH. Qed.
Lemma drop_cons k ks m : drop ks (merase k m) = drop (k :: ks) m.
Proof.
  unfold drop, merase. induction m as [|a m IH]; cbn [filter]; [reflexivity|].
  cbn [existsb]. rewrite (Nat.eqb_sym (fst a) k). destruct (Nat.eqb k (fst a)); cbn [negb orb filter].
  - exact IH.
  - rewrite IH. reflexivity.
Qed.

Lemma fold_memplace l : forall acc, NoDup (keys l) -> (forall k, In k (keys l) -> ~ In k (keys acc)) ->
  fold_left (fun a gh => memplace (fst gh) (snd gh) a) l acc = acc ++ l.
Proof.
  induction l as [|[k v] l IH]; intros acc Hn Hd; cbn [fold_left]; [now rewrite app_nil_r|].
  cbn [keys map fst] in Hn. inversion Hn as [|a l' Ha Hl]; subst. cbn [fst snd].
  rewrite memplace_fresh by (apply Hd; now left). rewrite IH; [now rewrite <- app_assoc|exact Hl|].
  intros k' Hk'. unfold keys. rewrite map_app, in_app_iff. cbn [map fst In].
  intros [H|[E|[]]]; [apply (Hd k'); [now right|exact H]|]. subst k'. contradiction.
Qed.

Lemma nodup_vals_of_inj m : NoDup (keys m) ->
  (forall g g' h, In (g, h) m -> In (g', h) m -> g = g') -> NoDup (vals m).
Proof.
  induction m as [|[k v] m IH]; cbn [keys vals map fst snd]; intros Hn Hi; [constructor|].
  inversion Hn as [|a l Ha Hl]; subst. constructor.
  - intros Hin. apply in_map_iff in Hin. destruct Hin as ([k' v'] & E & Hin). cbn [snd] in E. subst v'.
    assert (k = k') by (apply (Hi k k' v); [now left|now right]). subst k'.
    apply Ha. change k with (fst (k, v)). now apply in_map.
  - apply IH; [exact Hl|]. intros g g' h H1 H2. apply (Hi g g' h); now right.
Qed.
Lemma inj_of_nodup_vals m g g' h : NoDup (vals m) -> In (g, h) m -> In (g', h) m -> g = g'.
Proof.
  induction m as [|[k v] m IH]; cbn [vals map snd]; intros Hn H1 H2; [destruct H1|].
  inversion Hn as [|a l Ha Hl]; subst.
  assert (Hv : forall x, In (x, v) m -> False).
  { intros x Hx. apply Ha. change v with (snd (x, v)). now apply in_map. }
  destruct H1 as [E1|H1], H2 as [E2|H2]; [congruence| | |exact (IH Hl H1 H2)]; exfalso.
  - injection E1 as <- <-. exact (Hv _ H2).
  - injection E2 as <- <-. exact (Hv _ H1).
Qed.
Lemma fun_of_nodup_keys m g h h' : NoDup (keys m) -> In (g, h) m -> In (g, h') m -> h = h'.
Proof. intros Hn H1 H2. apply In_mfind in H1; auto. apply In_mfind in H2; auto. congruence. Qed.
Lemma in_keys k v m : In (k, v) m -> In k (keys m).
Proof. intros H. change k with (fst (k, v)). now apply in_map. Qed.
Lemma in_vals k v m : In (k, v) m -> In v (vals m).
Proof. intros H. change v with (snd (k, v)). now apply in_map. Qed.
Lemma keys_in k m : In k (keys m) -> exists v, In (k, v) m.
Proof. unfold keys. intros H. apply in_map_iff in H. destruct H as ([k' v] & <- & H). exists v. exact H. Qed.
Lemma vals_in v m : In v (vals m) -> exists k, In (k, v) m.
Proof. unfold vals. intros H. apply in_map_iff in H. destruct H as ([k v'] & <- & H). exists k. exact H. Qed.

Section Frame.
Variable f : mframe.
Hypothesis Hf : mframe_ok f.

Definition gt_ids : list nat := map (fun y => nth y (gids f) 0%nat) (gsub f).
Definition pd_ids : list nat := map (fun x => nth x (pids f) 0%nat) (psub f).
Definition pdm0 := first_map pd_ids.
Definition gtm0 := first_map gt_ids.

Lemma build_pd : build_pd_map f = Ok pdm0.
Proof. apply build_fold. apply (fo_psub _ Hf). Qed.
Lemma build_gt : build_gt_map f = Ok gtm0.
Proof. apply build_fold_strict; [apply (fo_gsub _ Hf)|apply (fo_gt_ids _ Hf)]. Qed.

Lemma sub_lt (l : list nat) n i : Forall (fun x => x < n)%nat l -> (i < length l)%nat -> (nth i l 0 < n)%nat.
Proof. intros H Hi. rewrite Forall_forall in H. apply H. now apply nth_In. Qed.

Lemma pdm0_entry h i : In (h, i) pdm0 ->
  (i < length (psub f))%nat /\ (nth i (psub f) 0 < length (pids f))%nat /\
  nth (nth i (psub f) 0%nat) (pids f) 0%nat = h /\ pred_of f h = Some (nth i (psub f) 0%nat).
Proof.
  intros H. apply first_map_find in H. destruct H as (H1 & H2 & H3).
  split; [exact H1|]. split; [apply sub_lt; [apply (fo_psub _ Hf)|exact H1]|]. split; assumption.
Qed.
Lemma gtm0_entry g i : In (g, i) gtm0 ->
  (i < length (gsub f))%nat /\ (nth i (gsub f) 0 < length (gids f))%nat /\
  nth (nth i (gsub f) 0%nat) (gids f) 0%nat = g /\ gt_of f g = Some (nth i (gsub f) 0%nat).
Proof.
  intros H. apply first_map_find in H. destruct H as (H1 & H2 & H3).
  split; [exact H1|]. split; [apply sub_lt; [apply (fo_gsub _ Hf)|exact H1]|]. split; assumption.
Qed.

Definition compatb (gh : nat * nat) : bool :=
  match pred_of f (snd gh), gt_of f (fst gh) with
  | Some x, Some y => match canm f x y with Ok b => b | Err _ => false end
  | _, _ => false
  end.
Lemma compatb_spec g h : compatb (g, h) = true <-> compatible f g h.
Proof.
  unfold compatb, compatible. cbn [fst snd]. split.
  - destruct (pred_of f h) as [x|]; [|discriminate]. destruct (gt_of f g) as [y|]; [|discriminate].
    destruct (canm f x y) as [b|e] eqn:E; [|discriminate]. intros ->. exists x, y. auto.
  - intros (x & y & -> & -> & ->). reflexivity.
Qed.

(** Entries of the remaining maps come from the initial ones. *)
Lemma keep_loop l : forall pdm gtm nw c,
  NoDup (keys l) -> NoDup (vals l) -> (forall k, In k (keys l) -> ~ In k (keys nw)) ->
  (forall g h, In (g, h) l -> mfind h pdm = mfind h pdm0 /\ mfind g gtm = mfind g gtm0) ->
  exists c', foldM (keep_step f) l (pdm, gtm, nw, c) =
      Ok (drop (vals (filter compatb l)) pdm, drop (keys (filter compatb l)) gtm, nw ++ filter compatb l, c') /\
    (c' == c + Qsum (map (pair_cost f) (filter compatb l)))%Q.
Proof.
  induction l as [|[g h] l IH]; intros pdm gtm nw c Hk Hv Hd Hm.
  - cbn [foldM filter vals keys map]. exists c. rewrite !drop_nil, app_nil_r. split; [reflexivity|]. change (Qsum []) with 0%Q. ring.
  - cbn [keys vals map fst snd] in Hk, Hv. inversion Hk as [|a l1 Hgl Hk']; inversion Hv as [|b l2 Hhl Hv']; subst.
    destruct (Hm g h (or_introl eq_refl)) as [Ep Eg].
    cbn [foldM filter].
    assert (Hstep :
      (compatb (g, h) = false /\ keep_step f (pdm, gtm, nw, c) (g, h) = Ok (pdm, gtm, nw, c)) \/
      exists v, compatb (g, h) = true /\ pair_cost f (g, h) = (1 - v)%Q /\
        keep_step f (pdm, gtm, nw, c) (g, h) = Ok (merase h pdm, merase g gtm, nw ++ [(g, h)], (c + 1 - v)%Q)).
    { unfold keep_step, compatb, pair_cost. cbn [fst snd]. rewrite Ep, Eg.
      destruct (mfind h pdm0) as [pi|] eqn:Ehp.
      2:{ left. apply mfind_None in Ehp. apply first_map_find_none in Ehp. unfold pred_of. rewrite Ehp. split; reflexivity. }
      apply mfind_In in Ehp. apply pdm0_entry in Ehp. destruct Ehp as (Hpi & Hpl & _ & ->).
      destruct (mfind g gtm0) as [gi|] eqn:Egg.
      2:{ left. apply mfind_None in Egg. apply first_map_find_none in Egg. unfold gt_of. rewrite Egg. split; reflexivity. }
      apply mfind_In in Egg. apply gtm0_entry in Egg. destruct Egg as (Hgi & Hgl' & _ & ->).
      rewrite (nth_result_ok _ _ _ 0%nat Hpi), (nth_result_ok _ _ _ 0%nat Hgi). cbn [bind].
      destruct (mo_can _ (fo_matcher _ Hf) _ _ Hpl Hgl') as (bb & Eb). rewrite Eb. cbn [bind].
      destruct bb; [|left; split; reflexivity].
      destruct (mo_iou _ (fo_matcher _ Hf) _ _ Hpl Hgl') as (v & Ev). rewrite Ev. cbn [bind].
      right. exists v. split; [reflexivity|]. split; [reflexivity|].
      rewrite memplace_fresh; [reflexivity|]. apply Hd. now left. }
    destruct Hstep as [[Ec Hstep]|(v & Ec & Ev & Hstep)]; rewrite Hstep, Ec; cbn [bind].
    + apply IH; auto.
      * intros k Hkl. apply Hd. now right.
      * intros g' h' Hin. apply Hm. now right.
    + destruct (IH (merase h pdm) (merase g gtm) (nw ++ [(g, h)]) (c + 1 - v)%Q) as (c' & E & Ec'); auto.
      * intros k Hkl. unfold keys. rewrite map_app, in_app_iff. cbn [map fst In].
        intros [H|[H|[]]]; [apply (Hd k); [now right|exact H]|subst k; exact (Hgl Hkl)].
      * intros g' h' Hin. rewrite !mfind_merase. destruct (Hm g' h' (or_intror Hin)) as [E1 E2].
        apply in_keys in Hin as Hgk. apply in_vals in Hin as Hhv.
        destruct (Nat.eqb_spec h' h); [subst; destruct (Hhl Hhv)|]. destruct (Nat.eqb_spec g' g); [subst; destruct (Hgl Hgk)|]. auto.
      * exists c'. split; [refine (eq_trans E _); rewrite !drop_cons, <- app_assoc; reflexivity|].
        cbn [map]. rewrite Qsum_cons, Ev, Ec'. ring.
Qed.

(** ** MOT::Match on the remaining objects *)
Section Match.
Variables (P G : amap).
Hypothesis HPk : NoDup (keys P).
Hypothesis HGk : NoDup (keys G).
Hypothesis HP0 : incl P pdm0.
Hypothesis HG0 : incl G gtm0.
Definition ps := map (fun kv => nth (snd kv) (psub f) 0%nat) P.
Definition gs := map (fun kv => nth (snd kv) (gsub f) 0%nat) G.
Variables pm gm : list (option nat).
Hypothesis Hinv : mutually_inverse (length ps) (length gs) pm gm.

Lemma ps_at i : (i < length P)%nat ->
  (nth i ps 0 < length (pids f))%nat /\ nth (nth i ps 0%nat) (pids f) 0%nat = nth i (keys P) 0%nat /\
  pred_of f (nth i (keys P) 0%nat) = Some (nth i ps 0%nat).
Proof.
  intros Hi. unfold ps, keys. rewrite !(nth_map _ P i (0,0)%nat) by exact Hi.
  assert (Hin : In (nth i P (0,0)%nat) pdm0) by (apply HP0, nth_In, Hi).
  destruct (nth i P (0,0)%nat) as [h k]. apply pdm0_entry in Hin. cbn [fst snd]. tauto.
Qed.
Lemma gs_at i : (i < length G)%nat ->
  (nth i gs 0 < length (gids f))%nat /\ nth (nth i gs 0%nat) (gids f) 0%nat = nth i (keys G) 0%nat /\
  gt_of f (nth i (keys G) 0%nat) = Some (nth i gs 0%nat).
Proof.
  intros Hi. unfold gs, keys. rewrite !(nth_map _ G i (0,0)%nat) by exact Hi.
  assert (Hin : In (nth i G (0,0)%nat) gtm0) by (apply HG0, nth_In, Hi).
  destruct (nth i G (0,0)%nat) as [h k]. apply gtm0_entry in Hin. cbn [fst snd]. tauto.
Qed.
Lemma ps_len : length ps = length P. Proof. unfold ps. apply map_length. Qed.
Lemma gs_len : length gs = length G. Proof. unfold gs. apply map_length. Qed.
Lemma ps_nodup : NoDup ps.
Proof.
  apply (NoDup_map_inv (fun x => nth x (pids f) 0%nat)).
  replace (map _ ps) with (keys P); [exact HPk|].
  unfold ps, keys. rewrite map_map. apply map_ext_in. intros [h i] Hin. cbn [fst snd].
  apply HP0, pdm0_entry in Hin. symmetry. tauto.
Qed.
Lemma gs_nodup : NoDup gs.
Proof.
  apply (NoDup_map_inv (fun x => nth x (gids f) 0%nat)).
  replace (map _ gs) with (keys G); [exact HGk|].
  unfold gs, keys. rewrite map_map. apply map_ext_in. intros [h i] Hin. cbn [fst snd].
  apply HG0, gtm0_entry in Hin. symmetry. tauto.
Qed.
Lemma ps_valid : Forall (fun x => x < length (pids f))%nat ps.
Proof.
  apply Forall_forall. intros x Hx. unfold ps in Hx. apply in_map_iff in Hx. destruct Hx as ([h i] & <- & Hin).
  apply HP0, pdm0_entry in Hin. cbn [snd]. tauto.
Qed.
Lemma gs_valid : Forall (fun x => x < length (gids f))%nat gs.
Proof.
  apply Forall_forall. intros x Hx. unfold gs in Hx. apply in_map_iff in Hx. destruct Hx as ([h i] & <- & Hin).
  apply HG0, gtm0_entry in Hin. cbn [snd]. tauto.
Qed.
Lemma ps_mapM : mapM (fun kv => nth_result (psub f) (snd kv) IndexError) P = Ok ps.
Proof.
  apply (mapM_ok _ (fun kv => nth (snd kv) (psub f) 0%nat)). intros [h i] Hin. cbn [snd].
  apply nth_result_ok. apply HP0, pdm0_entry in Hin. tauto.
Qed.
Lemma gs_mapM : mapM (fun kv => nth_result (gsub f) (snd kv) IndexError) G = Ok gs.
Proof.
  apply (mapM_ok _ (fun kv => nth (snd kv) (gsub f) 0%nat)). intros [h i] Hin. cbn [snd].
  apply nth_result_ok. apply HG0, gtm0_entry in Hin. tauto.
Qed.

Lemma pm_len : length pm = length P. Proof. destruct Hinv as (H & _). now rewrite H, ps_len. Qed.
Lemma gm_len : length gm = length G. Proof. destruct Hinv as (_ & H & _). now rewrite H, gs_len. Qed.
Lemma pm_gm i j : nth i pm None = Some j <-> nth j gm None = Some i.
Proof. apply Hinv. Qed.
Lemma pm_lt i j : nth i pm None = Some j -> (i < length P)%nat /\ (j < length G)%nat.
Proof.
  intros H. pose proof H as H'. apply pm_gm in H'.
  assert (HH : forall (l : list (option nat)) k v, nth k l None = Some v -> (k < length l)%nat).
  { intros l k v Hv. destruct (Nat.lt_ge_cases k (length l)) as [Hl|Hl]; [exact Hl|].
    rewrite nth_overflow in Hv by exact Hl. discriminate. }
  apply HH in H. apply HH in H'. rewrite pm_len in H. rewrite gm_len in H'. auto.
Qed.

Definition pr (i : nat) : amap :=
  match nth i pm None with
  | Some j => [(nth j (keys G) 0%nat, nth i (keys P) 0%nat)]
  | None => []
  end.
Definition pairs (k : nat) : amap := flat_map pr (seq 0 k).
Lemma pairs_In k g h : In (g, h) (pairs k) <->
  exists i j, (i < k)%nat /\ nth i pm None = Some j /\ g = nth j (keys G) 0%nat /\ h = nth i (keys P) 0%nat.
Proof.
  unfold pairs. rewrite in_flat_map. split.
  - intros (i & Hi & Hin). apply in_seq in Hi. unfold pr in Hin. destruct (nth i pm None) as [j|] eqn:E; [|destruct Hin].
    destruct Hin as [[= <- <-]|[]]. exists i, j. repeat split; auto; lia.
  - intros (i & j & Hi & E & -> & ->). exists i. split; [apply in_seq; lia|]. unfold pr. rewrite E. now left.
Qed.
Lemma keysG_inj j j' : (j < length G)%nat -> (j' < length G)%nat -> nth j (keys G) 0%nat = nth j' (keys G) 0%nat -> j = j'.
Proof. intros H1 H2. apply (proj1 (NoDup_nth (keys G) 0%nat) HGk); unfold keys; now rewrite map_length. Qed.
Lemma keysP_inj j j' : (j < length P)%nat -> (j' < length P)%nat -> nth j (keys P) 0%nat = nth j' (keys P) 0%nat -> j = j'.
Proof. intros H1 H2. apply (proj1 (NoDup_nth (keys P) 0%nat) HPk); unfold keys; now rewrite map_length. Qed.

Lemma pair_fresh k j : nth k pm None = Some j -> ~ In (nth j (keys G) 0%nat) (keys (pairs k)).
Proof.
  intros E Hin. apply keys_in in Hin. destruct Hin as (h & Hin). apply pairs_In in Hin.
  destruct Hin as (i & j' & Hi & E' & Eg & _).
  pose proof (pm_lt _ _ E) as [_ L1]. pose proof (pm_lt _ _ E') as [_ L2].
  apply keysG_inj in Eg; auto. subst j'. apply pm_gm in E. apply pm_gm in E'. rewrite E in E'. injection E'. lia.
Qed.

Definition is_fp (i : nat) : bool :=
  match nth i pm None with Some _ => false | None => negb (nth (nth i ps 0%nat) (pnlz f) false) end.

Lemma pd_loop c : forall k, (k <= length P)%nat ->
  exists c', foldM (pd_step f ps gs pm) (seq 0 k) (0, [], c) = Ok (countb is_fp (seq 0 k), pairs k, c') /\
    (c' == c + Qsum (map (pair_cost f) (pairs k)))%Q.
Proof.
  induction k as [|k IH]; intros Hk.
  - exists c. split; [reflexivity|]. change (map (pair_cost f) (pairs 0)) with (@nil Q). change (Qsum []) with 0%Q. ring.
  - destruct (IH ltac:(lia)) as (c' & E & Ec). rewrite seq_S, foldM_app, E. cbn [plus bind foldM].
    destruct (ps_at k ltac:(lia)) as (Hp1 & Hp2 & Hp3).
    unfold pd_step. rewrite (nth_result_ok ps k _ 0%nat) by (rewrite ps_len; lia). cbn [bind].
    rewrite countb_app. unfold pairs. rewrite seq_S, flat_map_app. cbn [plus flat_map]. rewrite app_nil_r. fold (pairs k).
    rewrite countb_one. unfold pr. assert (Efp : is_fp k = match nth k pm None with Some _ => false | None => negb (nth (nth k ps 0%nat) (pnlz f) false) end) by reflexivity.
    rewrite Efp. clear Efp. destruct (nth k pm None) as [j|] eqn:Ek.
    + destruct (pm_lt _ _ Ek) as [_ Hj]. destruct (gs_at j Hj) as (Hg1 & Hg2 & Hg3).
      rewrite (nth_result_ok gs j _ 0%nat) by (rewrite gs_len; exact Hj). cbn [bind].
      rewrite (nth_result_ok (gids f) _ _ 0%nat Hg1), (nth_result_ok (pids f) _ _ 0%nat Hp1). cbn [bind].
      destruct (mo_iou _ (fo_matcher _ Hf) _ _ Hp1 Hg1) as (v & Ev). rewrite Ev. cbn [bind foldM].
      rewrite Hg2, Hp2. rewrite mset_fresh by (now apply pair_fresh).
      exists (c' + 1 - v)%Q. split; [rewrite Z.add_0_r; reflexivity|].
      rewrite map_app, Qsum_app. cbn [map]. rewrite Qsum_cons. change (Qsum []) with 0%Q. unfold pair_cost at 2. cbn [fst snd].
      rewrite Hp3, Hg3, Ev, Ec. ring.
    + rewrite (nth_result_ok (pnlz f) _ _ false) by (rewrite (fo_nlz _ Hf); exact Hp1). cbn [bind foldM].
      exists c'. rewrite app_nil_r. split; [|exact Ec].
      destruct (nth (nth k ps 0%nat) (pnlz f) false); cbn [negb]; rewrite ?Z.add_0_r; reflexivity.
Qed.

Definition is_fn (i : nat) : bool :=
  match nth i gm None with Some _ => false | None => Nat.leb (nth (nth i gs 0%nat) (gdiff f) 0%nat) (level f) end.
Definition is_above (i : nat) : bool :=
  match nth i gm None with Some _ => false | None => negb (Nat.leb (nth (nth i gs 0%nat) (gdiff f) 0%nat) (level f)) end.

Lemma gt_loop : forall k, (k <= length G)%nat ->
  foldM (gt_step f gs gm) (seq 0 k) (0, 0) = Ok (countb is_fn (seq 0 k), countb is_above (seq 0 k)).
Proof.
  induction k as [|k IH]; intros Hk; [reflexivity|].
  rewrite seq_S, foldM_app, IH by lia. cbn [plus bind foldM].
  destruct (gs_at k ltac:(lia)) as (Hg1 & _ & _).
  unfold gt_step. rewrite !countb_app, !countb_one.
  assert (E1 : is_fn k = match nth k gm None with Some _ => false | None => Nat.leb (nth (nth k gs 0%nat) (gdiff f) 0%nat) (level f) end) by reflexivity.
  assert (E2 : is_above k = match nth k gm None with Some _ => false | None => negb (Nat.leb (nth (nth k gs 0%nat) (gdiff f) 0%nat) (level f)) end) by reflexivity.
  rewrite E1, E2. clear E1 E2.
  destruct (nth k gm None) as [j|].
  - cbn [bind]. rewrite !Z.add_0_r. reflexivity.
  - rewrite (nth_result_ok gs k _ 0%nat) by (rewrite gs_len; lia). cbn [bind].
    rewrite (nth_result_ok (gdiff f) _ _ 0%nat) by (rewrite (fo_diff _ Hf); exact Hg1). cbn [bind fst snd].
    destruct (Nat.leb _ (level f)); cbn [negb bind]; rewrite ?Z.add_0_r; reflexivity.
Qed.

Lemma pairs_keys_nodup k : NoDup (keys (pairs k)).
Proof.
  induction k as [|k IH]; [constructor|]. unfold pairs. rewrite seq_S, flat_map_app. cbn [plus flat_map].
  rewrite app_nil_r. fold (pairs k). unfold keys in *. rewrite map_app. unfold pr.
  destruct (nth k pm None) as [j|] eqn:E; [|rewrite app_nil_r; exact IH].
  cbn [map fst]. apply nodup_app; [exact IH|constructor; [intros []|constructor]|].
  intros x Hx [<-|[]]. exact (pair_fresh k j E Hx).
Qed.
Lemma pairs_vals_nodup : NoDup (vals (pairs (length P))).
Proof.
  apply nodup_vals_of_inj; [apply pairs_keys_nodup|]. intros g g' h H1 H2.
  apply pairs_In in H1, H2. destruct H1 as (i & j & Hi & E & -> & ->). destruct H2 as (i' & j' & Hi' & E' & -> & Eh).
  apply keysP_inj in Eh; auto. subst i'. congruence.
Qed.
End Match.
End Frame.
