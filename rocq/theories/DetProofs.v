(** Classification of predictions and ground truths. *)
From Verif Require Import Base ListLib MotSpec MotProofs MergeModel MergeSpec DetModel DetSpec.
Open Scope Z_scope.

Lemma enum_nth {A} (l : list A) i x : In (i, x) (enum l) <-> nth_error l i = Some x.
Proof.
  unfold enum. enough (H : forall k, In (i, x) (combine (seq k (length l)) l) <-> (k <= i)%nat /\ nth_error l (i - k) = Some x).
  { rewrite (H 0%nat). rewrite Nat.sub_0_r. split; [tauto|]. intros E. split; [lia|exact E]. }
  induction l as [|y l IH]; intros k; cbn [length seq combine].
  - split; [intros []|]. intros [_ E]. destruct (i - k)%nat; discriminate.
  - cbn [In]. rewrite IH. split.
    + intros [[= -> ->]|[H1 H2]]; [rewrite Nat.sub_diag; split; [lia|reflexivity]|].
      split; [lia|]. replace (i - k)%nat with (S (i - S k)) by lia. exact H2.
    + intros [H1 H2]. destruct (Nat.eq_dec i k) as [->|Hn].
      * left. rewrite Nat.sub_diag in H2. cbn in H2. congruence.
      * right. split; [lia|]. replace (i - k)%nat with (S (i - S k)) in H2 by lia. exact H2.
Qed.
Lemma enum_nodup {A} (l : list A) : NoDup (map fst (enum l)).
Proof.
  unfold enum. assert (H : forall k, map fst (combine (seq k (length l)) l) = seq k (length l)).
  { induction l as [|y l IH]; intros k; cbn [length seq combine map fst]; [reflexivity|]. now rewrite IH. }
  rewrite H. apply seq_NoDup.
Qed.

(** FindGTWithLargestIoU finds the closest ground truth. *)
Lemma find_gt_inv fr p t k : 
  let acc := fold_left (find_gt_step fr p) (seq 0 k) (None, t) in
  (t <= snd acc)%Q /\ (forall g, (g < k)%nat -> (iou fr p g < snd acc)%Q \/ (exists b, fst acc = Some b /\ (iou fr p g <= iou fr p b)%Q)) /\
  match fst acc with
  | None => snd acc = t
  | Some b => (b < k)%nat /\ snd acc = iou fr p b /\ (forall g, (b < g < k)%nat -> (iou fr p g < iou fr p b)%Q)
  end.
Proof.
  cbv zeta. induction k as [|k IH].
  - cbn [seq fold_left fst snd]. split; [apply Qle_refl|]. split; [intros g Hg; lia|reflexivity].
  - rewrite seq_S, fold_left_app. cbn [fold_left plus]. set (acc := fold_left _ (seq 0 k) _) in *.
    destruct IH as (I1 & I2 & I3). unfold find_gt_step. destruct (Qle_bool (snd acc) (iou fr p k)) eqn:E; cbn [fst snd].
    + apply Qle_bool_iff in E. split; [eapply Qle_trans; eassumption|]. split.
      * intros g Hg. right. exists k. split; [reflexivity|]. destruct (Nat.eq_dec g k) as [->|Hn]; [apply Qle_refl|].
        destruct (I2 g ltac:(lia)) as [H|(b & Hb & H)].
        -- eapply Qle_trans; [apply Qlt_le_weak, H|exact E].
        -- rewrite Hb in I3. destruct I3 as (_ & I3 & _). rewrite I3 in E. eapply Qle_trans; [exact H|exact E].
      * split; [lia|]. split; [reflexivity|]. intros g Hg. lia.
    + assert (Hlt : (iou fr p k < snd acc)%Q).
      { apply Qnot_le_lt. intros Hc. apply Qle_bool_iff in Hc. congruence. }
      split; [exact I1|]. split.
      * intros g Hg. destruct (Nat.eq_dec g k) as [->|Hn]; [now left|]. apply I2. lia.
      * destruct (fst acc) as [b|]; [|exact I3]. destruct I3 as (B1 & B2 & B3). split; [lia|]. split; [exact B2|].
        intros g Hg. destruct (Nat.eq_dec g k) as [->|Hn]; [now rewrite <- B2|]. apply B3. lia.
Qed.
Lemma find_gt_spec fr p t : match find_gt fr p t with
  | Some g => closest fr p t g
  | None => forall g, ~ closest fr p t g end.
Proof.
  unfold find_gt. destruct (find_gt_inv fr p t (n_gt fr)) as (I1 & I2 & I3).
  destruct (fst _) as [b|].
  - destruct I3 as (B1 & B2 & B3). split; [exact B1|]. split; [now rewrite <- B2|]. split; [|exact B3].
    intros g' Hg. destruct (I2 g' Hg) as [H|(b' & [= <-] & H)]; [rewrite B2 in H; now apply Qlt_le_weak|exact H].
  - intros g (G1 & G2 & _). destruct (I2 g G1) as [H|(b' & Hb & _)]; [|discriminate].
    rewrite I3 in H. apply (Qlt_not_le _ _ H G2).
Qed.
Lemma closest_unique fr p t g g' : closest fr p t g -> closest fr p t g' -> g = g'.
Proof.
  intros (A1 & A2 & A3 & A4) (B1 & B2 & B3 & B4).
  destruct (Nat.lt_total g g') as [H|[H|H]]; [|exact H|].
  - exfalso. apply (Qlt_not_le _ _ (A4 g' ltac:(lia))). apply B3. exact A1.
  - exfalso. apply (Qlt_not_le _ _ (B4 g ltac:(lia))). apply A3. exact B1.
Qed.

Lemma ok_iff c fr g : (negb (gt_only c) || in_bd fr g) = true <-> counts_gt c fr g.
Proof. unfold counts_gt. destruct (gt_only c), (in_bd fr g); cbn; split; auto; intros H; try discriminate; exfalso; specialize (H eq_refl); discriminate. Qed.

Definition tp_b c fr (p g : nat) : bool := (negb (gt_only c) || in_bd fr g) && negb (Qle_bool (ha fr p g) (min_ha c)).
Definition fp_b c fr (p : nat) : bool :=
  negb (nlz fr p) && (if gt_only c then match find_gt fr p (1 # 100) with Some g => in_bd fr g | None => true end else true).

(** The accumulated outcome as filters of the enumerated matches. *)
Definition tp_list c fr (l : list (nat * Z)) : list (nat * nat) :=
  map (fun im => (fst im, Z.to_nat (snd im)))
    (filter (fun im => (0 <=? snd im) && tp_b c fr (fst im) (Z.to_nat (snd im))) l).
Definition fp_list c fr (l : list (nat * Z)) : list nat :=
  map fst (filter (fun im => (snd im <? 0) && fp_b c fr (fst im)) l).
Definition fn_list c fr (l : list (nat * Z)) : list nat :=
  map fst (filter (fun im => ((snd im <? 0) && (diff fr (fst im) <=? level c)) && (negb (gt_only c) || in_bd fr (fst im))) l).

Ltac fin := repeat split; try reflexivity; try ring.
Lemma pd_fold c fr l : forall acc,
  let o := fold_left (pd_step c fr) l acc in
  tps o = tps acc ++ tp_list c fr l /\ fps o = fps acc ++ fp_list c fr l /\ fns o = fns acc /\
  (sum_ha o == sum_ha acc + Qsum (map (fun pg => ha fr (fst pg) (snd pg)) (tp_list c fr l)))%Q /\
  (sum_la o == sum_la acc + Qsum (map (fun pg => if let_enabled c then la fr (fst pg) (snd pg) else 1%Q) (tp_list c fr l)))%Q.
Proof.
  cbv zeta. induction l as [|[i m] l IH]; intros acc.
  - cbn [fold_left tp_list fp_list filter map]. unfold tp_list, fp_list. cbn [filter map]. rewrite !app_nil_r. change (Qsum []) with 0%Q.
    fin.
  - cbn [fold_left]. destruct (IH (pd_step c fr acc (i, m))) as (I1 & I2 & I3 & I4 & I5).
    rewrite I1, I2, I3, I4, I5. unfold pd_step, tp_list, fp_list. cbn [filter fst snd].
    destruct (0 <=? m) eqn:E0; cbn [andb].
    + assert (E1 : (m <? 0) = false) by (apply Z.ltb_ge; apply Z.leb_le in E0; lia). rewrite E1. cbn [andb].
      unfold tp_b. destruct (negb (gt_only c) || in_bd fr (Z.to_nat m)) eqn:Eo; cbn [andb].
      * destruct (Qle_bool (ha fr i (Z.to_nat m)) (min_ha c)) eqn:Eh; cbn [negb]; [fin|].
        cbn [tps fps fns sum_ha sum_la map fst snd]. rewrite <- app_assoc. cbn [app]. rewrite !Qsum_cons.
        cbn [fst snd]; fin.
      * fin.
    + assert (E1 : (m <? 0) = true) by (apply Z.ltb_lt; apply Z.leb_gt in E0; lia). rewrite E1. cbn [andb].
      unfold fp_b. destruct (nlz fr i); cbn [negb andb]; [fin|].
      destruct (gt_only c); [|cbn [tps fps fns sum_ha sum_la map fst]; rewrite <- app_assoc; fin].
      destruct (match find_gt fr i (1 # 100) with Some g => in_bd fr g | None => true end);
        cbn [tps fps fns sum_ha sum_la map fst]; rewrite <- ?app_assoc; fin.
Qed.
Lemma gt_fold c fr l : forall acc,
  let o := fold_left (gt_step c fr) l acc in
  tps o = tps acc /\ fps o = fps acc /\ fns o = fns acc ++ fn_list c fr l /\ sum_ha o = sum_ha acc /\ sum_la o = sum_la acc.
Proof.
  cbv zeta. induction l as [|[i m] l IH]; intros acc.
  - cbn [fold_left]. unfold fn_list. cbn [filter map]. rewrite !app_nil_r. auto.
  - cbn [fold_left]. destruct (IH (gt_step c fr acc (i, m))) as (I1 & I2 & I3 & I4 & I5).
    rewrite I1, I2, I3, I4, I5. unfold gt_step, fn_list. cbn [filter fst snd].
    destruct (_ && _); cbn [tps fps fns sum_ha sum_la map fst]; rewrite <- ?app_assoc; auto.
Qed.
Theorem classify_lists c fr pm gm :
  let o := classify c fr pm gm in
  tps o = tp_list c fr (enum pm) /\ fps o = fp_list c fr (enum pm) /\ fns o = fn_list c fr (enum gm) /\
  (sum_ha o == Qsum (map (fun pg => ha fr (fst pg) (snd pg)) (tps o)))%Q /\
  (sum_la o == Qsum (map (fun pg => if let_enabled c then la fr (fst pg) (snd pg) else 1%Q) (tps o)))%Q.
Proof.
  cbv zeta. unfold classify.
  set (o0 := fold_left (pd_step c fr) (enum pm) _).
  destruct (pd_fold c fr (enum pm) {| tps := []; fps := []; fns := []; sum_ha := 0; sum_la := 0 |}) as (P1 & P2 & P3 & P4 & P5).
  fold o0 in P1, P2, P3, P4, P5. cbn [tps fps fns sum_ha sum_la app] in *.
  destruct (gt_fold c fr (enum gm) o0) as (G1 & G2 & G3 & G4 & G5).
  rewrite G1, G2, G3, G4, G5, P1, P2, P3, P4, P5. cbn [app]. fin.
Qed.

Lemma nodup_map_filter {A B} (f : A -> B) g l : NoDup (map f l) -> NoDup (map f (filter g l)).
Proof.
  induction l as [|a l IH]; cbn [map filter]; intros H; [constructor|]. inversion H as [|x y Hx Hy]; subst.
  destruct (g a); [|now apply IH]. cbn [map]. constructor; [|now apply IH].
  intros Hin. apply Hx. apply in_map_iff in Hin. destruct Hin as (b & <- & Hb). apply filter_In in Hb. apply in_map. tauto.
Qed.
Lemma Qsum_unit {A} (f : A -> Q) l : (forall a, In a l -> (0 <= f a <= 1)%Q) ->
  (0 <= Qsum (map f l) <= inject_Z (Z.of_nat (length l)))%Q.
Proof.
  induction l as [|a l IH]; intros H; cbn [map length].
  - change (Qsum []) with 0%Q. split; apply Qle_refl.
  - rewrite Qsum_cons. destruct (H a (or_introl eq_refl)) as [H1 H2]. destruct IH as [I1 I2]; [intros b Hb; apply H; now right|].
    rewrite Nat2Z.inj_succ, <- Z.add_1_l, inject_Z_plus. split.
    + setoid_replace 0%Q with (0 + 0)%Q by ring. now apply Qplus_le_compat.
    + now apply Qplus_le_compat.
Qed.

Section Ok.
Variables (c : dconfig) (fr : dframe) (pm gm : list Z).
Hypothesis Hm : match_ok pm gm.
Let o := classify c fr pm gm.

Lemma tp_iff p g : In (p, g) (tps o) <-> is_tp c fr pm p g.
Proof.
  destruct (classify_lists c fr pm gm) as (E & _). fold o in E. rewrite E. unfold tp_list, is_tp.
  rewrite in_map_iff. split.
  - intros ([i m] & [= <- <-] & Hin). apply filter_In in Hin. destruct Hin as [Hin Hb].
    apply enum_nth in Hin. cbn [fst snd] in *. apply andb_true_iff in Hb. destruct Hb as [H0 Hb].
    apply Z.leb_le in H0. rewrite Z2Nat.id by exact H0. split; [exact Hin|].
    unfold tp_b in Hb. apply andb_true_iff in Hb. destruct Hb as [H1 H2]. split; [now apply ok_iff|].
    apply negb_true_iff in H2. apply Qnot_le_lt. intros Hc. apply Qle_bool_iff in Hc. congruence.
  - intros (H1 & H2 & H3). exists (p, Z.of_nat g). cbn [fst snd]. rewrite Nat2Z.id. split; [reflexivity|].
    apply filter_In. split; [now apply enum_nth|]. cbn [fst snd]. apply andb_true_iff. split; [apply Z.leb_le; lia|].
    rewrite Nat2Z.id. unfold tp_b. apply andb_true_iff. split; [now apply ok_iff|].
    apply negb_true_iff. apply not_true_iff_false. intros Hc. apply Qle_bool_iff in Hc. apply (Qlt_not_le _ _ H3 Hc).
Qed.
Lemma neg_match l i m l' : match_ok l l' -> nth_error l i = Some m -> m < 0 -> m = -1.
Proof. intros [H _] E Hn. destruct (H i m E) as [->|[[H0 _] _]]; [reflexivity|lia]. Qed.
Lemma neg_match' l i m l' : match_ok l' l -> nth_error l i = Some m -> m < 0 -> m = -1.
Proof. intros [_ H] E Hn. destruct (H i m E) as [->|[[H0 _] _]]; [reflexivity|lia]. Qed.
Lemma fp_iff p : In p (fps o) <-> is_fp c fr pm p.
Proof.
  destruct (classify_lists c fr pm gm) as (_ & E & _). fold o in E. rewrite E. unfold fp_list, is_fp.
  rewrite in_map_iff.
  assert (Hfp : fp_b c fr p = true <-> nlz fr p = false /\ (gt_only c = true -> forall g, closest fr p (1 # 100) g -> in_bd fr g = true)).
  { unfold fp_b. rewrite andb_true_iff, negb_true_iff. pose proof (find_gt_spec fr p (1 # 100)) as Hs.
    destruct (gt_only c).
    - destruct (find_gt fr p (1 # 100)) as [g|].
      + split; intros [A B]; (split; [exact A|]).
        * intros _ g' Hg'. now rewrite (closest_unique _ _ _ _ _ Hg' Hs).
        * now apply B.
      + split; intros [A B]; (split; [exact A|]); [|reflexivity]. intros _ g' Hg'. exfalso. exact (Hs _ Hg').
    - split; intros [A B]; (split; [exact A|]); [discriminate|reflexivity]. }
  split.
  - intros ([i m] & <- & Hin). cbn [fst] in *. apply filter_In in Hin. destruct Hin as [Hin Hb].
    apply enum_nth in Hin. cbn [fst snd] in *. apply andb_true_iff in Hb. destruct Hb as [H0 Hb].
    apply Z.ltb_lt in H0. pose proof (neg_match pm i m gm Hm Hin H0) as ->. split; [exact Hin|now apply Hfp].
  - intros [H1 H2]. exists (p, -1). split; [reflexivity|]. apply filter_In. split; [now apply enum_nth|].
    cbn [fst snd]. apply Hfp in H2. rewrite H2. reflexivity.
Qed.
Lemma fn_iff g : In g (fns o) <-> is_fn c fr gm g.
Proof.
  destruct (classify_lists c fr pm gm) as (_ & _ & E & _). fold o in E. rewrite E. unfold fn_list, is_fn.
  rewrite in_map_iff. split.
  - intros ([i m] & <- & Hin). cbn [fst] in *. apply filter_In in Hin. destruct Hin as [Hin Hb].
    apply enum_nth in Hin. cbn [fst snd] in *. apply andb_true_iff in Hb. destruct Hb as [Hb H2].
    apply andb_true_iff in Hb. destruct Hb as [H0 H1].
    apply Z.ltb_lt in H0. pose proof (neg_match' gm i m pm Hm Hin H0) as ->. split; [exact Hin|].
    split; [now apply Z.leb_le|now apply ok_iff].
  - intros (H1 & H2 & H3). exists (g, -1). split; [reflexivity|]. apply filter_In. split; [now apply enum_nth|].
    cbn [fst snd]. apply ok_iff in H3. rewrite H3, (proj2 (Z.leb_le _ _) H2). reflexivity.
Qed.
Lemma tp_nodup : NoDup (map fst (tps o)) /\ NoDup (map snd (tps o)).
Proof.
  assert (N1 : NoDup (map fst (tps o))).
  { destruct (classify_lists c fr pm gm) as (E & _). fold o in E. rewrite E. unfold tp_list. rewrite map_map. cbn [fst].
    apply nodup_map_filter, enum_nodup. }
  split; [exact N1|].
  assert (Hinj : forall p p' g, In (p, g) (tps o) -> In (p', g) (tps o) -> p = p').
  { intros p p' g H1 H2. apply tp_iff in H1, H2. destruct H1 as [H1 _], H2 as [H2 _]. destruct Hm as [Hp _].
    destruct (Hp p _ H1) as [E|[_ A]]; [lia|]. destruct (Hp p' _ H2) as [E|[_ B]]; [lia|].
    rewrite A in B. injection B as B. lia. }
  revert N1 Hinj. generalize (tps o). induction l as [|[p g] l IH]; cbn [map fst snd]; intros N Hi; [constructor|].
  inversion N as [|x y Hx Hy]; subst. constructor.
  - intros Hin. apply in_map_iff in Hin. destruct Hin as ([p' g'] & E & Hin). cbn [snd] in E. subst g'.
    assert (p = p') by (apply (Hi p p' g); [now left|now right]). subst p'.
    apply Hx. now apply (in_map fst) in Hin.
  - apply IH; [assumption|]. intros q q' h H1 H2. apply (Hi q q' h); now right.
Qed.
Lemma fp_nodup : NoDup (fps o) /\ NoDup (fns o).
Proof.
  destruct (classify_lists c fr pm gm) as (_ & E & F & _). fold o in E, F. rewrite E, F.
  split; apply nodup_map_filter, enum_nodup.
Qed.
Lemma incl_count (l : list nat) n : NoDup l -> (forall x, In x l -> (x < n)%nat) -> (length l <= n)%nat.
Proof.
  intros N H. replace n with (length (seq 0 n)) by apply seq_length. apply NoDup_incl_length; [exact N|].
  intros x Hx. apply in_seq. specialize (H x Hx). lia.
Qed.
Lemma tp_fp_count : (length (tps o) + length (fps o) <= length pm)%nat.
Proof.
  destruct tp_nodup as [N1 _], fp_nodup as [N2 _].
  assert (L : (length (map fst (tps o) ++ fps o) <= length pm)%nat).
  { apply incl_count.
    - apply nodup_app; [exact N1|exact N2|]. intros x Hx Hx'. apply in_map_iff in Hx. destruct Hx as ([p g] & <- & Hx). cbn [fst] in Hx'.
      apply tp_iff in Hx. apply fp_iff in Hx'. destruct Hx as [A _], Hx' as [B _]. rewrite A in B. injection B as B. lia.
    - intros x Hx. apply in_app_or in Hx. destruct Hx as [Hx|Hx].
      + apply in_map_iff in Hx. destruct Hx as ([p g] & <- & Hx). apply tp_iff in Hx. destruct Hx as [A _].
        apply nth_error_Some. cbn [fst]. rewrite A. discriminate.
      + apply fp_iff in Hx. destruct Hx as [A _]. apply nth_error_Some. rewrite A. discriminate. }
  rewrite app_length, map_length in L. exact L.
Qed.
Lemma tp_fn_count : (length (tps o) + length (fns o) <= length gm)%nat.
Proof.
  destruct tp_nodup as [_ N1], fp_nodup as [_ N2].
  assert (Hg : forall p g, In (p, g) (tps o) -> nth_error gm g = Some (Z.of_nat p)).
  { intros p g H. apply tp_iff in H. destruct H as [A _]. destruct Hm as [Hp _]. destruct (Hp p _ A) as [E|[_ B]]; [lia|].
    now rewrite Nat2Z.id in B. }
  assert (L : (length (map snd (tps o) ++ fns o) <= length gm)%nat).
  { apply incl_count.
    - apply nodup_app; [exact N1|exact N2|]. intros x Hx Hx'. apply in_map_iff in Hx. destruct Hx as ([p g] & <- & Hx). cbn [snd] in Hx'.
      apply Hg in Hx. apply fn_iff in Hx'. destruct Hx' as [B _]. rewrite Hx in B. injection B as B. lia.
    - intros x Hx. apply in_app_or in Hx. destruct Hx as [Hx|Hx].
      + apply in_map_iff in Hx. destruct Hx as ([p g] & <- & Hx). apply Hg in Hx. apply nth_error_Some. cbn [snd]. rewrite Hx. discriminate.
      + apply fn_iff in Hx. destruct Hx as [A _]. apply nth_error_Some. rewrite A. discriminate. }
  rewrite app_length, map_length in L. exact L.
Qed.
(** With the default configuration every prediction outside no-label zones is TP or FP. *)
Lemma tp_fp_total : gt_only c = false -> (forall p, nlz fr p = false) -> (forall p g, (min_ha c < ha fr p g)%Q) ->
  (length (tps o) + length (fps o) = length pm)%nat.
Proof.
  intros Hg Hn Hh. apply Nat.le_antisymm; [apply tp_fp_count|].
  assert (L : (length (seq 0 (length pm)) <= length (map fst (tps o) ++ fps o))%nat).
  { apply NoDup_incl_length; [apply seq_NoDup|]. intros x Hx. apply in_seq in Hx.
    destruct (nth_error pm x) as [m|] eqn:E; [|apply nth_error_None in E; lia]. apply in_or_app.
    destruct Hm as [Hp _]. destruct (Hp x m E) as [->|[[H0 _] _]].
    - right. apply fp_iff. split; [exact E|]. split; [apply Hn|]. intros Hc. congruence.
    - left. apply in_map_iff. exists (x, Z.to_nat m). split; [reflexivity|]. apply tp_iff.
      unfold is_tp. rewrite Z2Nat.id by exact H0. split; [exact E|]. split; [|apply Hh]. intros Hc. congruence. }
  rewrite seq_length, app_length, map_length in L. exact L.
Qed.
Lemma tp_fn_total : gt_only c = false -> (forall g, diff fr g <= level c) -> (forall p g, (min_ha c < ha fr p g)%Q) ->
  (length (tps o) + length (fns o) = length gm)%nat.
Proof.
  intros Hg Hn Hh. apply Nat.le_antisymm; [apply tp_fn_count|].
  assert (L : (length (seq 0 (length gm)) <= length (map snd (tps o) ++ fns o))%nat).
  { apply NoDup_incl_length; [apply seq_NoDup|]. intros x Hx. apply in_seq in Hx.
    destruct (nth_error gm x) as [m|] eqn:E; [|apply nth_error_None in E; lia]. apply in_or_app.
    destruct Hm as [_ Hp]. destruct (Hp x m E) as [->|[[H0 _] H1]].
    - right. apply fn_iff. split; [exact E|]. split; [apply Hn|]. intros Hc. congruence.
    - left. apply in_map_iff. exists (Z.to_nat m, x). split; [reflexivity|]. apply tp_iff.
      split; [exact H1|]. split; [|apply Hh]. intros Hc. congruence. }
  rewrite seq_length, app_length, map_length in L. exact L.
Qed.
(** A match below the heading accuracy threshold is counted nowhere. *)
Lemma bad_heading p g : nth_error pm p = Some (Z.of_nat g) -> (ha fr p g <= min_ha c)%Q ->
  ~ In p (map fst (tps o)) /\ ~ In p (fps o) /\ ~ In g (map snd (tps o)) /\ ~ In g (fns o).
Proof.
  intros E Hh. assert (Eg : nth_error gm g = Some (Z.of_nat p)).
  { destruct Hm as [Hp _]. destruct (Hp p _ E) as [H|[_ B]]; [lia|]. now rewrite Nat2Z.id in B. }
  repeat split; intros Hin.
  - apply in_map_iff in Hin. destruct Hin as ([p' g'] & <- & Hin). apply tp_iff in Hin. cbn [fst] in *.
    destruct Hin as (A & _ & B). rewrite E in A. injection A as A. assert (g = g') by lia. subst g'. apply (Qlt_not_le _ _ B Hh).
  - apply fp_iff in Hin. destruct Hin as [A _]. rewrite E in A. injection A as A. lia.
  - apply in_map_iff in Hin. destruct Hin as ([p' g'] & <- & Hin). apply tp_iff in Hin. cbn [snd] in *.
    destruct Hin as (A & _ & B).
    assert (Eg' : nth_error gm g' = Some (Z.of_nat p')).
    { destruct Hm as [Hp _]. destruct (Hp p' _ A) as [H|[_ C]]; [lia|]. now rewrite Nat2Z.id in C. }
    rewrite Eg in Eg'. injection Eg' as Eg'. assert (p = p') by lia. subst p'. apply (Qlt_not_le _ _ B Hh).
  - apply fn_iff in Hin. destruct Hin as [A _]. rewrite Eg in A. injection A as A. lia.
Qed.
Lemma measure_plausible cutoff :
  (forall p g, (0 <= ha fr p g <= 1)%Q) -> (forall p g, (0 <= la fr p g <= 1)%Q) -> plausible (measure cutoff o).
Proof.
  intros Hh Hl. unfold plausible, measure. cbn [d_tps d_fps d_fns d_ha d_la].
  destruct (classify_lists c fr pm gm) as (_ & _ & _ & S1 & S2). fold o in S1, S2. rewrite S1, S2.
  repeat split; try lia; try (apply Qsum_unit; intros [p g] _; auto; fail).
  - apply Qsum_unit. intros a _. destruct (let_enabled c); [apply Hl|split; discriminate].
  - apply Qsum_unit. intros a _. destruct (let_enabled c); [apply Hl|split; discriminate].
Qed.
End Ok.

(** The difficulty level affects only false negatives, and raising it adds some. *)
Lemma level_mono c c' fr pm gm : gt_only c' = gt_only c -> min_ha c' = min_ha c -> let_enabled c' = let_enabled c ->
  level c <= level c' -> match_ok pm gm ->
  tps (classify c' fr pm gm) = tps (classify c fr pm gm) /\ fps (classify c' fr pm gm) = fps (classify c fr pm gm) /\
  incl (fns (classify c fr pm gm)) (fns (classify c' fr pm gm)).
Proof.
  intros E1 E2 E3 Hl Hm. destruct (classify_lists c fr pm gm) as (A1 & A2 & _), (classify_lists c' fr pm gm) as (B1 & B2 & _).
  rewrite A1, A2, B1, B2. unfold tp_list, fp_list, tp_b, fp_b. rewrite E1, E2. repeat split.
  intros g Hg. apply (fn_iff c' fr pm gm Hm). apply (fn_iff c fr pm gm Hm) in Hg. destruct Hg as (G1 & G2 & G3).
  split; [exact G1|]. split; [lia|]. unfold counts_gt in *. now rewrite E1.
Qed.

Lemma same_members_length {A} (l l' : list A) : NoDup l -> NoDup l' -> (forall a, In a l <-> In a l') -> length l = length l'.
Proof. intros H H' E. apply Permutation.Permutation_length, Permutation.NoDup_Permutation; assumption. Qed.
Lemma nodup_of_map {A B} (f : A -> B) l : NoDup (map f l) -> NoDup l.
Proof. apply NoDup_map_inv. Qed.

Theorem reported_counts c fr pm gm cutoff T F N : match_ok pm gm ->
  NoDup T -> (forall p g, In (p, g) T <-> is_tp c fr pm p g) ->
  NoDup F -> (forall p, In p F <-> is_fp c fr pm p) ->
  NoDup N -> (forall g, In g N <-> is_fn c fr gm g) ->
  let m := measure cutoff (classify c fr pm gm) in
  d_tps m = Z.of_nat (length T) /\ d_fps m = Z.of_nat (length F) /\ d_fns m = Z.of_nat (length N) /\
  d_cutoff m = Some cutoff /\ d_ha m = sum_ha (classify c fr pm gm) /\ d_la m = sum_la (classify c fr pm gm).
Proof.
  intros H HT IT HF IF HN IN. cbv zeta. unfold measure. cbn [d_tps d_fps d_fns d_cutoff d_ha d_la].
  destruct (tp_nodup c fr pm gm H) as [NT _]. destruct (fp_nodup c fr pm gm) as [NF NN].
  split; [|split; [|split; [|auto]]]; f_equal; apply same_members_length; try assumption.
  - exact (nodup_of_map fst _ NT).
  - intros [p g]. rewrite IT. apply tp_iff.
  - intros p. rewrite IF. apply (fp_iff c fr pm gm H).
  - intros g. rewrite IN. apply (fn_iff c fr pm gm H).
Qed.
