(** Evaluation of one frame and of a sequence. *)
From Coq Require Import Permutation.
From Verif Require Import Base ResultLib ListLib MatcherModel MatcherSpec HungarianSpec MotModel MotSpec MotMapProofs MotProofs.
Open Scope Z_scope.

Definition state_ok (st : mot) : Prop :=
  one_to_one (gt_pd st) /\ one_to_one (pd_gt st) /\ inverse_of (gt_pd st) (pd_gt st).

Lemma perm_keys_nodup m m' : Permutation m m' -> NoDup (keys m') -> NoDup (keys m).
Proof. intros Hp Hn. eapply Permutation_NoDup; [apply Permutation_keys, Permutation_sym, Hp|exact Hn]. Qed.
Lemma perm_vals_nodup m m' : Permutation m m' -> NoDup (vals m') -> NoDup (vals m).
Proof. intros Hp Hn. eapply Permutation_NoDup; [apply Permutation_vals, Permutation_sym, Hp|exact Hn]. Qed.

(** ** Updating the memory *)
Lemma fold_mset l : forall m, NoDup (keys l) -> NoDup (keys m) ->
  NoDup (keys (fold_left (fun m gh => mset (fst gh) (snd gh) m) l m)) /\
  forall g h, In (g, h) (fold_left (fun m gh => mset (fst gh) (snd gh) m) l m) <->
    In (g, h) l \/ (In (g, h) m /\ ~ In g (keys l)).
Proof.
  induction l as [|[k v] l IH]; intros m Hl Hm; cbn [fold_left fst snd].
  - split; [exact Hm|]. intros g h. simpl. tauto.
  - cbn [keys map fst] in Hl. inversion Hl as [|a l' Ha Hl']; subst.
    destruct (IH (mset k v m) Hl' (mset_nodup k v m Hm)) as [H1 H2]. split; [exact H1|].
    intros g h. rewrite H2, mset_In by exact Hm. cbn [In keys map fst]. fold (keys l). split.
    + intros [H|[[[-> ->]|[Hn H]] Hk]]; [auto|auto|]. right. split; [exact H|]. intuition congruence.
    + intros [[[= <- <-]|H]|[H Hk]]; [|auto|].
      * right. split; [auto|exact Ha].
      * right. split; [right; split; [|exact H]|]; intuition congruence.
Qed.
Lemma fold_merase l : forall m, NoDup (keys m) ->
  NoDup (keys (fold_left (fun m g => merase g m) l m)) /\
  forall g h, In (g, h) (fold_left (fun m g => merase g m) l m) <-> In (g, h) m /\ ~ In g l.
Proof.
  induction l as [|k l IH]; intros m Hm; cbn [fold_left].
  - split; [exact Hm|]. intros g h. simpl. tauto.
  - destruct (IH (merase k m)) as [H1 H2]; [apply keys_filter_nodup, Hm|]. split; [exact H1|].
    intros g h. rewrite H2, merase_In. simpl. intuition congruence.
Qed.
Definition swap (kv : nat * nat) : nat * nat := (snd kv, fst kv).
Lemma fold_inverse l : forall acc, NoDup (vals l) -> (forall h, In h (vals l) -> ~ In h (keys acc)) ->
  foldM (fun m gh => if mhas (snd gh) m then Err CheckFailed else Ok (memplace (snd gh) (fst gh) m)) l acc
  = Ok (acc ++ map swap l).
Proof.
  induction l as [|[k v] l IH]; intros acc Hn Hd; cbn [foldM map fst snd]; [now rewrite app_nil_r|].
  cbn [vals map snd] in Hn. inversion Hn as [|a l' Ha Hl]; subst.
  assert (Hv : ~ In v (keys acc)) by (apply Hd; now left).
  rewrite (proj2 (mhas_false v acc) Hv). cbn [bind]. rewrite memplace_fresh by exact Hv.
  rewrite IH; [unfold swap at 2; cbn [fst snd]; now rewrite <- app_assoc|exact Hl|].
  intros h Hh. unfold keys. rewrite map_app, in_app_iff. cbn [map fst In].
  intros [H|[<-|[]]]; [apply (Hd h); [now right|exact H]|exact (Ha Hh)].
Qed.

Lemma update_ok f st nw : mframe_ok f -> state_ok st -> one_to_one nw ->
  exists m inv, update_maps f st nw = Ok (m, inv) /\ one_to_one m /\ one_to_one inv /\ inverse_of m inv /\
    forall g h, maps_to m g h <->
      maps_to nw g h \/ (maps_to (gt_pd st) g h /\ ~ In g (keys nw) /\ ~ In h (vals nw)).
Proof.
  intros Hf ([Hk Hv] & [Hk' Hv'] & Hi) [Hnk Hnv]. unfold update_maps.
  pose proof (fo_iter _ Hf nw) as Hp. set (l := iter f nw) in *.
  assert (Hlk : NoDup (keys l)) by (eapply perm_keys_nodup; eauto).
  assert (Hlin : forall kv, In kv l <-> In kv nw).
  { intros kv. split; apply Permutation_in; [exact Hp|now apply Permutation_sym]. }
  assert (Hkl : forall g, In g (keys l) <-> In g (keys nw)).
  { intros g. split; apply Permutation_in; [|apply Permutation_sym]; apply Permutation_keys, Hp. }
  destruct (fold_mset l (gt_pd st) Hlk Hk) as [H1 H2]. set (m1 := fold_left _ l (gt_pd st)) in *.
  set (ev := flat_map _ l).
  assert (Hev : forall g, In g ev <-> exists h, In (g, h) (gt_pd st) /\ In h (vals nw) /\ ~ In g (keys nw)).
  { intros g. unfold ev. rewrite in_flat_map. split.
    - intros ([g0 h0] & Hin & Hg). cbn [snd] in Hg. destruct (mfind h0 (pd_gt st)) as [g1|] eqn:E; [|destruct Hg].
      destruct (mhas g1 nw) eqn:Eh; [destruct Hg|]. destruct Hg as [<-|[]]. apply mhas_false in Eh.
      exists h0. apply mfind_In in E. apply Hi in E. apply Hlin in Hin. split; [exact E|]. split; [|exact Eh].
      eapply in_vals; eauto.
    - intros (h & Hin & Hh & Hn). apply vals_in in Hh. destruct Hh as (g0 & Hh).
      exists (g0, h). split; [now apply Hlin|]. cbn [snd]. apply Hi in Hin. unfold maps_to in Hin.
      rewrite (In_mfind _ _ _ Hk' Hin). apply mhas_false in Hn. rewrite Hn. now left. }
  destruct (fold_merase ev m1 H1) as [H3 H4]. set (m2 := fold_left _ ev m1) in *.
  assert (Hm2 : forall g h, In (g, h) m2 <->
    In (g, h) nw \/ (In (g, h) (gt_pd st) /\ ~ In g (keys nw) /\ ~ In h (vals nw))).
  { intros g h. rewrite H4, H2, Hlin, Hkl, Hev. split.
    - intros [[H|[H Hn]] He]; [auto|]. right. split; [exact H|]. split; [exact Hn|].
      intros Hh. apply He. eauto.
    - intros [H|(H & Hn & Hh)].
      + split; [auto|]. intros (h' & _ & _ & Hn). apply Hn. eapply in_keys; eauto.
      + split; [auto|]. intros (h' & Hin & Hh' & _).
        assert (h' = h) by (eapply fun_of_nodup_keys; [exact Hk|exact Hin|exact H]). subst. contradiction. }
  assert (Hv2 : NoDup (vals m2)).
  { apply nodup_vals_of_inj; [exact H3|]. intros g g' h Ha Hb. rewrite Hm2 in Ha, Hb.
    destruct Ha as [Ha|(Ha & Ha1 & Ha2)], Hb as [Hb|(Hb & Hb1 & Hb2)].
    - eapply inj_of_nodup_vals; [exact Hnv| |]; eauto.
    - exfalso. apply Hb2. eapply in_vals; eauto.
    - exfalso. apply Ha2. eapply in_vals; eauto.
    - eapply inj_of_nodup_vals; [exact Hv| |]; eauto. }
  pose proof (fo_iter _ Hf m2) as Hp2.
  rewrite fold_inverse; [|eapply perm_vals_nodup; eauto|intros h _ []].
  cbn [bind app]. exists m2, (map swap (iter f m2)). split; [reflexivity|].
  split; [split; assumption|]. split; [|split].
  - split; unfold keys, vals; rewrite map_map; cbn [swap fst snd].
    + change (NoDup (vals (iter f m2))). eapply perm_vals_nodup; eauto.
    + change (NoDup (keys (iter f m2))). eapply perm_keys_nodup; eauto.
  - intros g h. unfold maps_to. rewrite in_map_iff. split.
    + intros H. exists (g, h). split; [reflexivity|]. eapply Permutation_in; [apply Permutation_sym, Hp2|exact H].
    + intros ([g' h'] & [= -> ->] & H). eapply Permutation_in; [exact Hp2|exact H].
  - exact Hm2.
Qed.

(** ** Identity switches *)
Lemma fold_count {A} (s1 s2 : A -> bool) (F : Z -> A -> Z) l : forall acc,
  (forall acc a, In a l -> F acc a = acc + (if s1 a then 1 else 0) + (if s2 a then 1 else 0)) ->
  fold_left F l acc = acc + countb s1 l + countb s2 l.
Proof.
  induction l as [|a l IH]; intros acc H; cbn [fold_left]; [unfold countb; simpl; lia|].
  rewrite IH by (intros; apply H; now right). rewrite (H acc a (or_introl eq_refl)).
  change (a :: l) with ([a] ++ l). rewrite !countb_app, !countb_one. lia.
Qed.

Lemma mismatches_ok f st nw gtm : mframe_ok f -> state_ok st -> NoDup (keys nw) ->
  (forall g, gt_of f g = None <-> ~ In g (keys gtm) /\ ~ In g (keys nw)) ->
  num_mismatches f st nw gtm = countb (switched (gt_pd st)) nw + countb (stolen f (gt_pd st)) nw.
Proof.
  intros Hf ([Hk Hv] & [Hk' Hv'] & Hi) Hn Hg. unfold num_mismatches.
  rewrite (fold_count (switched (gt_pd st)) (stolen f (gt_pd st))).
  - rewrite !(countb_perm _ _ _ (fo_iter _ Hf nw)). lia.
  - intros acc [g h] _. cbn [fst snd]. f_equal; [f_equal|].
    + unfold switched. cbn [fst snd]. destruct (mfind g (gt_pd st)) as [h'|] eqn:E.
      * apply mfind_In in E. destruct (Nat.eqb_spec h' h) as [->|Hh].
        -- replace (existsb _ (gt_pd st)) with false; [reflexivity|]. symmetry. apply not_true_is_false.
           rewrite existsb_exists. intros ([g1 h1] & Hin & Hb). cbn [fst snd] in Hb.
           apply andb_true_iff in Hb. destruct Hb as [Hb1 Hb2]. apply Nat.eqb_eq in Hb1. subst g1.
           assert (h1 = h) by exact (fun_of_nodup_keys (gt_pd st) g h1 h Hk Hin E). subst. rewrite Nat.eqb_refl in Hb2. discriminate.
        -- replace (existsb _ (gt_pd st)) with true; [reflexivity|]. symmetry. rewrite existsb_exists.
           exists (g, h'). split; [exact E|]. cbn [fst snd]. rewrite Nat.eqb_refl.
           apply negb_true_iff, Nat.eqb_neq, Hh.
      * apply mfind_None in E. replace (existsb _ (gt_pd st)) with false; [reflexivity|]. symmetry. apply not_true_is_false.
        rewrite existsb_exists. intros ([g1 h1] & Hin & Hb). cbn [fst snd] in Hb.
        apply andb_true_iff in Hb. destruct Hb as [Hb1 Hb2]. apply Nat.eqb_eq in Hb1. subst g1.
        apply E. eapply in_keys; eauto.
    + assert (Hst : stolen f (gt_pd st) (g, h) = true <->
        exists g', mfind h (pd_gt st) = Some g' /\ gt_of f g' = None).
      { unfold stolen. rewrite existsb_exists. cbn [fst snd]. split.
        - intros ([g1 h1] & Hin & Hb). cbn [fst snd] in Hb. apply andb_true_iff in Hb. destruct Hb as [Hb1 Hb2].
          apply Nat.eqb_eq in Hb1. subst h1. exists g1. split.
          + apply In_mfind; [exact Hk'|]. now apply Hi.
          + destruct (gt_of f g1); [discriminate|reflexivity].
        - intros (g' & E & Eg). apply mfind_In in E. apply Hi in E. exists (g', h). split; [exact E|].
          cbn [fst snd]. rewrite Nat.eqb_refl, Eg. reflexivity. }
      destruct (mfind h (pd_gt st)) as [g'|] eqn:E.
      * destruct (mhas g' gtm) eqn:E1.
        -- replace (stolen f (gt_pd st) (g, h)) with false; [reflexivity|]. symmetry. apply not_true_is_false.
           rewrite Hst. intros (g2 & [= <-] & H). apply Hg in H. apply mhas_spec in E1. tauto.
        -- destruct (mhas g' nw) eqn:E2.
           ++ replace (stolen f (gt_pd st) (g, h)) with false; [reflexivity|]. symmetry. apply not_true_is_false.
              rewrite Hst. intros (g2 & [= <-] & H). apply Hg in H. apply mhas_spec in E2. tauto.
           ++ replace (stolen f (gt_pd st) (g, h)) with true; [reflexivity|]. symmetry. apply Hst.
              exists g'. split; [reflexivity|]. apply Hg. apply mhas_false in E1. apply mhas_false in E2. auto.
      * replace (stolen f (gt_pd st) (g, h)) with false; [reflexivity|]. symmetry. apply not_true_is_false.
        rewrite Hst. intros (g2 & H & _). discriminate.
Qed.

Lemma filter_all {A} (p : A -> bool) l : (forall a, In a l -> p a = true) -> filter p l = l.
Proof.
  induction l as [|a l IH]; intros H; cbn [filter]; [reflexivity|].
  rewrite (H a (or_introl eq_refl)), IH; [reflexivity|]. intros b Hb. apply H. now right.
Qed.
Lemma firsts_full ids : NoDup ids -> firsts ids = seq 0 (length ids).
Proof.
  intros Hn. unfold firsts. apply filter_all. intros i Hi. apply in_seq in Hi.
  apply forallb_forall. intros i' Hi'. apply in_seq in Hi'. apply negb_true_iff, Nat.eqb_neq. intros E.
  apply (proj1 (NoDup_nth ids 0%nat) Hn) in E; lia.
Qed.

Theorem eval_correct st f : mframe_ok f -> state_ok st ->
  exists st' nw, eval st f = Ok (st', nw) /\ state_ok st' /\
    correspondences st f st' nw /\ accounting st f st' nw.
Proof.
  intros Hf Hs. pose proof Hs as ([Hk Hv] & Hs').
  unfold eval. rewrite (build_pd f Hf), (build_gt f Hf). cbn [bind].
  pose proof (fo_iter _ Hf (gt_pd st)) as Hp. set (L := iter f (gt_pd st)) in *.
  assert (HLk : NoDup (keys L)) by (eapply perm_keys_nodup; eauto).
  assert (HLv : NoDup (vals L)) by (eapply perm_vals_nodup; eauto).
  destruct (keep_loop f Hf L (pdm0 f) (gtm0 f) [] (cost (meas st)) HLk HLv) as (c1 & E1 & Ec1);
    [intros k _ []|auto|].
  cbn [app] in E1.
  match goal with |- context [foldM (keep_step f) L ?s] =>
    let H := fresh in assert (H : foldM (keep_step f) L s = _) by exact E1; rewrite H; clear H end.
  cbn [bind]. clear E1.
  set (K := filter (compatb f) L) in *.
  set (pdm := drop (vals K) (pdm0 f)). set (gtm := drop (keys K) (gtm0 f)).
  pose proof (fo_iter _ Hf pdm) as HPp. pose proof (fo_iter _ Hf gtm) as HGp.
  unfold mot_match. set (P := iter f pdm) in *. set (G := iter f gtm) in *.
  assert (HPk : NoDup (keys P)).
  { eapply perm_keys_nodup; [exact HPp|]. apply keys_filter_nodup, first_map_nodup. }
  assert (HGk : NoDup (keys G)).
  { eapply perm_keys_nodup; [exact HGp|]. apply keys_filter_nodup, first_map_nodup. }
  assert (HPin : forall kv, In kv P <-> In kv (pdm0 f) /\ ~ In (fst kv) (vals K)).
  { intros [h i]. cbn [fst]. rewrite <- drop_In. split; apply Permutation_in; [exact HPp|now apply Permutation_sym]. }
  assert (HGin : forall kv, In kv G <-> In kv (gtm0 f) /\ ~ In (fst kv) (keys K)).
  { intros [h i]. cbn [fst]. rewrite <- drop_In. split; apply Permutation_in; [exact HGp|now apply Permutation_sym]. }
  assert (HP0 : incl P (pdm0 f)) by (intros kv Hkv; now apply HPin).
  assert (HG0 : incl G (gtm0 f)) by (intros kv Hkv; now apply HGin).
  rewrite (ps_mapM f Hf P HP0), (gs_mapM f Hf G HG0). cbn [bind].
  destruct (mo_match _ (fo_matcher _ Hf) (ps f P) (gs f G)
    (ps_nodup f Hf P HPk HP0) (gs_nodup f Hf G HGk HG0) (ps_valid f Hf P HP0) (gs_valid f Hf G HG0))
    as (pm & gm & Em & Hinv & Hcan).
  rewrite Em. cbn [bind fst snd].
  rewrite (pm_len f P G pm gm Hinv), (gm_len f P G pm gm Hinv).
  destruct (pd_loop f Hf P G HGk HP0 HG0 pm gm Hinv c1 (length P) (le_n _)) as (c2 & E2 & Ec2).
  rewrite E2. cbn [bind]. clear E2.
  rewrite (gt_loop f Hf G HG0 gm (length G) (le_n _)). cbn [bind fst snd].
  set (M := pairs P G pm (length P)) in *.
  assert (HMk : NoDup (keys M)) by (eapply pairs_keys_nodup; eauto).
  assert (HMv : NoDup (vals M)) by (eapply pairs_vals_nodup; eauto).
  rewrite (nodupb_ok _ HMv). cbn [bind].
  pose proof (fo_iter _ Hf M) as HMp.
  assert (HMkeys : forall g, In g (keys M) -> In g (keys G)).
  { intros g Hg. apply keys_in in Hg. destruct Hg as (h & Hg). apply pairs_In in Hg.
    destruct Hg as (i & j & Hi & Ej & -> & _). apply nth_In. unfold keys. rewrite map_length.
    apply (pm_lt f P G pm gm Hinv i j Ej). }
  assert (HMvals : forall h, In h (vals M) -> In h (keys P)).
  { intros h Hh. apply vals_in in Hh. destruct Hh as (g & Hh). apply pairs_In in Hh.
    destruct Hh as (i & j & Hi & Ej & _ & ->). apply nth_In. unfold keys. rewrite map_length. exact Hi. }
  assert (HGk' : forall g, In g (keys G) -> In g (keys (gtm0 f)) /\ ~ In g (keys K)).
  { intros g Hg. apply keys_in in Hg. destruct Hg as (i & Hg). apply HGin in Hg. cbn [fst] in Hg.
    destruct Hg as [Hg Hn]. split; [eapply in_keys; eauto|exact Hn]. }
  assert (HPk' : forall h, In h (keys P) -> In h (keys (pdm0 f)) /\ ~ In h (vals K)).
  { intros g Hg. apply keys_in in Hg. destruct Hg as (i & Hg). apply HPin in Hg. cbn [fst] in Hg.
    destruct Hg as [Hg Hn]. split; [eapply in_keys; eauto|exact Hn]. }
  assert (HKk : NoDup (keys K)) by (apply keys_filter_nodup; exact HLk).
  assert (HKv : NoDup (vals K)) by (apply vals_filter_nodup; exact HLv).
  rewrite fold_memplace.
  2:{ eapply perm_keys_nodup; [exact HMp|exact HMk]. }
  2:{ intros g Hg. apply (Permutation_in _ (Permutation_keys _ _ HMp)) in Hg.
      apply HMkeys, HGk' in Hg. tauto. }
  set (nw := K ++ iter f M).
  assert (Hnwp : Permutation nw (K ++ M)) by (apply Permutation_app_head; exact HMp).
  assert (Hnwin : forall g h, In (g, h) nw <-> In (g, h) K \/ In (g, h) M).
  { intros g h. rewrite <- in_app_iff. split; apply Permutation_in; [exact Hnwp|now apply Permutation_sym]. }
  assert (Hnwk : forall g, In g (keys nw) <-> In g (keys K) \/ In g (keys M)).
  { intros g. rewrite <- in_app_iff. unfold keys. rewrite <- map_app. split; apply Permutation_in;
      [|apply Permutation_sym]; apply Permutation_keys, Hnwp. }
  assert (Hnwv : forall g, In g (vals nw) <-> In g (vals K) \/ In g (vals M)).
  { intros g. rewrite <- in_app_iff. unfold vals. rewrite <- map_app. split; apply Permutation_in;
      [|apply Permutation_sym]; apply Permutation_vals, Hnwp. }
  assert (H1k : NoDup (keys nw)).
  { eapply perm_keys_nodup; [exact Hnwp|]. unfold keys. rewrite map_app. apply nodup_app; auto.
    intros g Hg Hg'. apply HMkeys, HGk' in Hg'. tauto. }
  assert (H1v : NoDup (vals nw)).
  { eapply perm_vals_nodup; [exact Hnwp|]. unfold vals. rewrite map_app. apply nodup_app; auto.
    intros h Hh Hh'. apply HMvals, HPk' in Hh'. tauto. }
  rewrite (nodupb_ok _ H1v). cbn [negb].
  destruct (update_ok f st nw Hf Hs (conj H1k H1v)) as (m & inv & Eu & Hm1 & Hm2 & Hm3 & Hmem).
  rewrite Eu. cbn [bind fst snd].
  assert (HKc : forall g h, In (g, h) K <-> In (g, h) (gt_pd st) /\ compatible f g h).
  { intros g h. unfold K. rewrite filter_In, compatb_spec. split; intros [Hin Hc]; split; auto.
    - eapply Permutation_in; [exact Hp|exact Hin].
    - eapply Permutation_in; [apply Permutation_sym, Hp|exact Hin]. }
  assert (HMc : forall g h, In (g, h) M -> compatible f g h).
  { intros g h Hin. apply pairs_In in Hin. destruct Hin as (i & j & Hi & Ej & -> & ->).
    destruct (pm_lt f P G pm gm Hinv i j Ej) as [_ Hj].
    destruct (ps_at f Hf P HP0 i Hi) as (_ & _ & A). destruct (gs_at f Hf G HG0 j Hj) as (_ & _ & B).
    exists (nth i (ps f P) 0%nat), (nth j (gs f G) 0%nat). split; [exact A|]. split; [exact B|]. now apply Hcan. }
  eexists _, nw. split; [reflexivity|]. split; [|split].
  - cbv [state_ok gt_pd pd_gt]. split; [exact Hm1|]. split; assumption.
  - constructor.
    + split; assumption.
    + intros g h Hin. apply Hnwin in Hin. destruct Hin as [Hin|Hin]; [apply HKc in Hin; tauto|auto].
    + intros g h Hin Hc. apply Hnwin. left. apply HKc. auto.
    + cbn [gt_pd]. exact Hmem.
  - assert (Hgm : forall j, (j < length G)%nat ->
      matched_gt nw (nth j (keys G) 0%nat) = match nth j gm None with Some _ => true | None => false end).
    { intros j Hj. apply iff_bool. rewrite matched_gt_spec, Hnwk.
      assert (HjG : In (nth j (keys G) 0%nat) (keys G)) by (apply nth_In; unfold keys; now rewrite map_length).
      split.
      - intros [H|H]; [apply HGk' in HjG; tauto|]. apply keys_in in H. destruct H as (h & H). apply pairs_In in H.
        destruct H as (i & j' & Hi & Ej & Eg & _). destruct (pm_lt f P G pm gm Hinv i j' Ej) as [_ Hj'].
        apply (keysG_inj G HGk) in Eg; auto. subst j'. apply (pm_gm f P G pm gm Hinv) in Ej. rewrite Ej. reflexivity.
      - destruct (nth j gm None) as [i|] eqn:E; [|discriminate]. intros _. right.
        apply (pm_gm f P G pm gm Hinv) in E. destruct (pm_lt f P G pm gm Hinv i j E) as [Hi _].
        apply (in_keys _ (nth i (keys P) 0%nat)). apply pairs_In. exists i, j. auto. }
    assert (Hpm : forall i, (i < length P)%nat ->
      matched_pd nw (nth i (keys P) 0%nat) = match nth i pm None with Some _ => true | None => false end).
    { intros i Hi. apply iff_bool. rewrite matched_pd_spec, Hnwv.
      assert (HiP : In (nth i (keys P) 0%nat) (keys P)) by (apply nth_In; unfold keys; now rewrite map_length).
      split.
      - intros [H|H]; [apply HPk' in HiP; tauto|]. apply vals_in in H. destruct H as (g & H). apply pairs_In in H.
        destruct H as (i' & j & Hi' & Ej & _ & Eh). apply (keysP_inj P HPk) in Eh; auto. subst i'. rewrite Ej. reflexivity.
      - destruct (nth i pm None) as [j|] eqn:E; [|discriminate]. intros _. right.
        apply (in_vals (nth j (keys G) 0%nat)). apply pairs_In. exists i, j. auto. }
    (* counts over the unmatched ground truths, as counts over all ground truths *)
    assert (Hgcount : forall (q : nat -> bool) (r : nat -> bool),
      (forall j, (j < length G)%nat -> r j = match nth j gm None with Some _ => false | None => q (nth j (gs f G) 0%nat) end) ->
      countb r (seq 0 (length G)) =
      countb (fun y => negb (matched_gt nw (nth y (gids f) 0%nat)) && q y) (gsub f)).
    { intros q r Hr.
      set (e := fun kv : nat * nat => negb (matched_gt nw (fst kv)) && q (nth (snd kv) (gsub f) 0%nat)).
      transitivity (countb e G).
      { rewrite <- (countb_positions e G (0,0)%nat). apply countb_ext. intros j Hj. apply in_seq in Hj.
        rewrite Hr by lia. unfold e.
        assert (Ef : fst (nth j G (0,0)%nat) = nth j (keys G) 0%nat) by (unfold keys; rewrite (nth_map _ G j (0,0)%nat) by lia; reflexivity).
        rewrite Ef, Hgm by lia.
        unfold gs. rewrite (nth_map _ G j (0,0)%nat) by lia. destruct (nth j gm None); reflexivity. }
      rewrite (countb_perm e G gtm HGp). unfold gtm, drop. rewrite countb_filter.
      2:{ intros [g i] _ He. unfold e in He. cbn [fst snd] in *. apply andb_true_iff in He. destruct He as [He _].
          apply negb_true_iff in He. apply negb_true_iff. apply not_true_iff_false. rewrite existsb_eqb. intros HK.
          apply not_true_iff_false in He. apply He. apply matched_gt_spec, Hnwk. auto. }
      unfold gtm0, first_map. rewrite countb_map, firsts_full by (apply (fo_gt_ids _ Hf)).
      unfold gt_ids. rewrite map_length.
      rewrite <- (countb_positions _ (gsub f) 0%nat). apply countb_ext. intros i Hi. apply in_seq in Hi.
      unfold e. cbn [fst snd]. rewrite (nth_map _ (gsub f) i 0%nat) by lia. reflexivity. }
    constructor; cbn [meas misses fps mismatches matches objects_gt cost].
    + f_equal. rewrite (Hgcount (fun y => Nat.leb (nth y (gdiff f) 0%nat) (level f))); [reflexivity|].
      intros j Hj. reflexivity.
    + rewrite (Hgcount (fun y => negb (Nat.leb (nth y (gdiff f) 0%nat) (level f)))); [|intros j Hj; reflexivity].
      rewrite <- (countb_compl (counted_gt f nw) (gsub f)).
      rewrite (countb_ext (fun a => negb (counted_gt f nw a))
        (fun y => negb (matched_gt nw (nth y (gids f) 0%nat)) && negb (Nat.leb (nth y (gdiff f) 0%nat) (level f)))); [lia|].
      intros y _. unfold counted_gt. now rewrite negb_orb.
    + reflexivity.
    + f_equal.
      set (e := fun kv : nat * nat => negb (matched_pd nw (fst kv)) && negb (nth (nth (snd kv) (psub f) 0%nat) (pnlz f) false)).
      transitivity (countb e P).
      { rewrite <- (countb_positions e P (0,0)%nat). apply countb_ext. intros i Hi. apply in_seq in Hi.
        unfold e, is_fp.
        assert (Ef : fst (nth i P (0,0)%nat) = nth i (keys P) 0%nat) by (unfold keys; rewrite (nth_map _ P i (0,0)%nat) by lia; reflexivity).
        rewrite Ef, Hpm by lia.
        unfold ps. rewrite (nth_map _ P i (0,0)%nat) by lia. destruct (nth i pm None); reflexivity. }
      rewrite (countb_perm e P pdm HPp). unfold pdm, drop. rewrite countb_filter.
      2:{ intros [h i] _ He. unfold e in He. cbn [fst snd] in *. apply andb_true_iff in He. destruct He as [He _].
          apply negb_true_iff in He. apply negb_true_iff. apply not_true_iff_false. rewrite existsb_eqb. intros HK.
          apply not_true_iff_false in He. apply He. apply matched_pd_spec, Hnwv. auto. }
      transitivity (countb (false_pd f nw) (keys (pdm0 f))).
      { unfold keys. rewrite countb_map. apply countb_ext. intros [h i] Hin. unfold e, false_pd. cbn [fst snd].
        apply (pdm0_entry f Hf) in Hin. destruct Hin as (_ & _ & _ & Hin). rewrite Hin. reflexivity. }
      apply countb_perm. apply NoDup_Permutation; [apply first_map_nodup|apply NoDup_nodup|].
      intros x. unfold pdm0. rewrite first_map_keys, nodup_In. reflexivity.
    + rewrite <- Z.add_assoc. f_equal. apply mismatches_ok; [exact Hf|exact Hs|exact H1k|].
      intros g. unfold gt_of. rewrite <- first_map_find_none. fold (gt_ids f). fold (gtm0 f).
      rewrite Hnwk. unfold gtm. rewrite drop_keys. split.
      * intros Hn. split; [tauto|]. intros [HK|HM].
        -- apply keys_in in HK. destruct HK as (h & HK). apply HKc in HK. destruct HK as [_ (x & y & _ & Hy & _)].
           apply Hn. unfold gt_of in Hy. apply find_some in Hy. destruct Hy as [Hy1 Hy2]. apply Nat.eqb_eq in Hy2.
           unfold gtm0. rewrite first_map_keys. unfold gt_ids. apply in_map_iff. eauto.
        -- apply HMkeys, HGk' in HM. tauto.
      * intros [Hn Hn'] Hin. apply Hn. split; [exact Hin|]. tauto.
    + rewrite Ec2, Ec1. rewrite (Qsum_perm _ _ (Permutation_map (pair_cost f) Hnwp)), map_app, Qsum_app. ring.
Qed.
