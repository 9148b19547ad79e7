(** The combined metric: acceptance, keys and values. *)
From Coq Require Import Reals QArith Qreals Ascii String.
From Verif Require Import Base ResultLib ListLib MonadLib KpModel KpSpec KpProofs GeomModel PoseModel OksModel CombModel CombSpec CombNames.
Open Scope list_scope.

(** * Dictionaries *)
Lemma in_set {A} k (v : A) d kv : In kv (dict_set name_eqb k v d) -> kv = (k, v) \/ In kv d.
Proof.
  induction d as [|[c w] d IH]; cbn [dict_set In].
  - intros [H|[]]. left. now symmetry.
  - destruct (name_eqb k c) eqn:E; cbn [In]; intros [H|H]; [apply name_eqb_eq in E; left; congruence|right; now right|right; now left|]. apply IH in H. destruct H as [H|H]; [now left|right; now right].
Qed.
Lemma set_new {A} k (v : A) d : ~ In k (map fst d) -> dict_set name_eqb k v d = d ++ [(k, v)].
Proof.
  induction d as [|[c w] d IH]; cbn [dict_set map fst In app]; intros H; [reflexivity|]. destruct (name_eqb k c) eqn:E.
  - apply name_eqb_eq in E. exfalso. apply H. left. now symmetry.
  - rewrite IH by tauto. reflexivity.
Qed.
Section Fill.
Context {X A : Type} (f : X -> name) (g : X -> A).
Lemma fill_in l : forall d kv, In kv (fill name_eqb f g l d) -> In kv d \/ exists x, In x l /\ kv = (f x, g x).
Proof.
  induction l as [|x l IH]; intros d kv H; cbn in H; [now left|]. apply IH in H. destruct H as [H|(y & Hy & E)].
  - apply in_set in H. destruct H as [->|H]; [right; exists x; split; [now left|reflexivity]|now left].
  - right. exists y. split; [now right|exact E].
Qed.
Lemma fill_keys l : forall d k, In k (map fst (fill name_eqb f g l d)) <-> In k (map fst d) \/ In k (map f l).
Proof.
  induction l as [|x l IH]; intros d k; cbn [map In]; [cbn; tauto|]. change (fill name_eqb f g (x :: l) d) with (fill name_eqb f g l (dict_set name_eqb (f x) (g x) d)).
  rewrite IH, (set_keys name_eqb name_eqb_eq). intuition.
Qed.
Lemma fill_new l : forall d, NoDup (map fst d ++ map f l) -> fill name_eqb f g l d = d ++ map (fun x => (f x, g x)) l.
Proof.
  induction l as [|x l IH]; intros d H; cbn [map]; [cbn; now rewrite app_nil_r|].
  change (fill name_eqb f g (x :: l) d) with (fill name_eqb f g l (dict_set name_eqb (f x) (g x) d)).
  rewrite set_new.
  - rewrite IH; [rewrite <- app_assoc; reflexivity|]. rewrite map_app. cbn [map fst]. rewrite <- app_assoc. exact H.
  - cbn [map] in H. apply NoDup_remove_2 in H. intros Q. apply H. apply in_app_iff. now left.
Qed.
End Fill.
Lemma update_fill {A} (d e : list (name * A)) : dict_update d e = fill name_eqb fst snd e d.
Proof. reflexivity. Qed.
Lemma merge_in {A} (ds : list (list (name * A))) : forall d kv, In kv (fold_left dict_update ds d) -> In kv d \/ exists e, In e ds /\ In kv e.
Proof.
  induction ds as [|e ds IH]; intros d kv H; cbn [fold_left] in H; [now left|]. apply IH in H. destruct H as [H|(e' & He & H)].
  - rewrite update_fill in H. apply fill_in in H. destruct H as [H|([k v] & Hx & ->)]; [now left|]. right. exists e. split; [now left|exact Hx].
  - right. exists e'. split; [now right|exact H].
Qed.
Lemma merge_keys {A} (ds : list (list (name * A))) : forall d k, In k (map fst (fold_left dict_update ds d)) <-> In k (map fst d) \/ exists e, In e ds /\ In k (map fst e).
Proof.
  induction ds as [|e ds IH]; intros d k; cbn [fold_left].
  - split; [now left|]. intros [H|(e & [] & _)]. exact H.
  - rewrite IH, update_fill, fill_keys. split.
    + intros [[H|H]|(e' & He & H)]; [now left|right; exists e; split; [now left|exact H]|right; exists e'; split; [now right|exact H]].
    + intros [H|(e' & [<-|He] & H)]; [now left; left|now left; right|right; eauto].
Qed.
Lemma merge_nodup {A} (ds : list (list (name * A))) : forall d, NoDup (map fst d) -> NoDup (map fst (fold_left dict_update ds d)).
Proof.
  induction ds as [|e ds IH]; intros d H; cbn [fold_left]; [exact H|]. apply IH. rewrite update_fill. now apply (fill_nodup name_eqb name_eqb_eq).
Qed.
Lemma nodup_prefix {A} (l m : list A) : NoDup (l ++ m) -> NoDup l.
Proof. intros H. now apply nodup_app_inv in H. Qed.
Lemma merge_new {A} (ds : list (list (name * A))) : forall d, NoDup (map fst (d ++ concat ds)) -> fold_left dict_update ds d = d ++ concat ds.
Proof.
  induction ds as [|e ds IH]; intros d H; cbn [fold_left concat] in *; [now rewrite app_nil_r|].
  assert (dict_update d e = d ++ e) as E.
  { rewrite update_fill, fill_new.
    - f_equal. rewrite <- (map_id e) at 2. apply map_ext. now intros [k v].
    - rewrite <- map_app. rewrite app_assoc, map_app in H. now apply nodup_prefix in H. }
  rewrite E, IH; [now rewrite app_assoc|]. now rewrite <- app_assoc.
Qed.

(** * Folds *)
Lemma fold_each {A B} (f : B -> A -> result A) bs : forall l l', foldM (fun l b => mapM (f b) l) bs l = Ok l' ->
  Forall2 (fun x y => foldM (fun x b => f b x) bs x = Ok y) l l'.
Proof.
  induction bs as [|b bs IH]; intros l l' H; cbn [foldM] in *.
  - injection H as <-. induction l; constructor; auto.
  - apply bind_inv in H. destruct H as (m & Em & H). apply IH in H. apply mapM_inv in Em. clear IH.
    revert l' H. induction Em as [|x y l m Hxy Em IHm]; intros l' H; inversion H; subst; constructor; [|now apply IHm].
    rewrite Hxy. cbn [bind]. assumption.
Qed.
Lemma fold_total {A B} (P : A -> Prop) (f : A -> B -> result A) bs : (forall a b, In b bs -> P a -> exists a', f a b = Ok a' /\ P a') ->
  forall a, P a -> exists a', foldM f bs a = Ok a' /\ P a'.
Proof.
  induction bs as [|b bs IH]; intros H a Pa; cbn [foldM]; [eauto|]. destruct (H a b (or_introl eq_refl) Pa) as (a' & E & Pa'). rewrite E. cbn [bind].
  apply IH; [intros; apply H; [now right|assumption]|exact Pa'].
Qed.
Lemma Forall2_in_r {A B} (P : A -> B -> Prop) l m : Forall2 P l m -> forall b, In b m -> exists a, In a l /\ P a b.
Proof. induction 1 as [|a b l m Hab H IH]; intros x []; subst; [exists a; split; [now left|assumption]|]. destruct (IH x H0) as (a' & Ha & Hp). exists a'. split; [now right|exact Hp]. Qed.
Lemma Forall2_in_l {A B} (P : A -> B -> Prop) l m : Forall2 P l m -> forall a, In a l -> exists b, In b m /\ P a b.
Proof. induction 1 as [|a b l m Hab H IH]; intros x []; subst; [exists b; split; [now left|assumption]|]. destruct (IH x H0) as (a' & Ha & Hp). exists a'. split; [now right|exact Hp]. Qed.
Lemma Forall2_len {A B} (P : A -> B -> Prop) l m : Forall2 P l m -> length l = length m.
Proof. induction 1; cbn; congruence. Qed.

(** * Acceptance *)
Lemma scale_given c t : mappings c -> has_scale c t = true <-> has_a_scale c t.
Proof.
  intros (_ & N). unfold has_scale, has_a_scale. split.
  - destruct (dict_get Z.eqb t (per_type_scales c)) as [s|] eqn:E; [|discriminate]. intros _. exists s. now apply (in_get Z.eqb Z.eqb_eq).
  - intros (s & H). apply (in_get Z.eqb Z.eqb_eq) in H; [|exact N]. now rewrite H.
Qed.
Theorem config_accepted c : mappings c ->
  (acceptable c -> make_config c = Ok c) /\ (~ acceptable c -> make_config c = Err ValueError).
Proof.
  intros M. unfold make_config, acceptable.
  assert (forallb (has_scale c) (src_order c) = true <-> forall t, In t (src_order c) -> has_a_scale c t) as E1.
  { rewrite forallb_forall. split; intros H t Ht; apply (scale_given c t M); auto. }
  assert (forallb (fun st => forallb (has_scale c) (snd st)) (subsets c) = true <-> forall s types t, In (s, types) (subsets c) -> In t types -> has_a_scale c t) as E2.
  { rewrite forallb_forall. split.
    - intros H s types t Hs Ht. apply (scale_given c t M). specialize (H _ Hs). cbn [snd] in H. rewrite forallb_forall in H. auto.
    - intros H [s types] Hs. cbn [snd]. apply forallb_forall. intros t Ht. apply (scale_given c t M). eauto. }
  rewrite <- E1, <- E2. destruct (forallb (has_scale c) (src_order c)); cbn [negb]; [|split; [intros (H & _); discriminate|reflexivity]].
  destruct (forallb _ (subsets c)); cbn [negb]; (split; [|try reflexivity]); intros H; try reflexivity; exfalso; try (destruct H; discriminate). apply H. auto.
Qed.
Lemma config_inv c c' : mappings c -> make_config c = Ok c' -> c' = c /\ acceptable c.
Proof.
  intros M H. destruct (config_accepted c M) as (A & B). unfold make_config in *.
  assert (forall a b : bool, a = true \/ a = false) as D by (intros []; auto).
  unfold acceptable in *. destruct (forallb (has_scale c) (src_order c)) eqn:E1; cbn [negb] in *; [|discriminate].
  destruct (forallb _ (subsets c)) eqn:E2; cbn [negb] in *; [|discriminate]. injection H as <-. split; [reflexivity|]. clear A B D.
  rewrite forallb_forall in E1, E2. split; [intros t Ht; now apply (scale_given c t M), E1|].
  intros s types t Hs Ht. apply (scale_given c t M). specialize (E2 _ Hs). cbn [snd] in E2. rewrite forallb_forall in E2. auto.
Qed.
Lemma scales_ok c types : mappings c -> (forall t, In t types -> has_a_scale c t) ->
  exists scales, select_scales c types = Ok scales /\ Forall2 (fun t x => In (t, x) (per_type_scales c)) types scales.
Proof.
  intros M. induction types as [|t types IH]; intros H; [exists []; split; [reflexivity|constructor]|].
  destruct IH as (xs & E & F); [intros; apply H; now right|]. destruct (H t (or_introl eq_refl)) as (x & Hx).
  exists (x :: xs). split; [|now constructor]. unfold select_scales in *. cbn [mapM]. apply (in_get Z.eqb Z.eqb_eq) in Hx; [|apply M]. rewrite Hx. cbn [bind]. rewrite E. reflexivity.
Qed.
Lemma scales_inv c types scales : mappings c -> select_scales c types = Ok scales -> Forall2 (fun t x => In (t, x) (per_type_scales c)) types scales.
Proof.
  intros M H. apply mapM_inv in H. revert H. apply Forall2_weaken. intros t x H. destruct (dict_get _ _ _) eqn:E; [|discriminate]. injection H as <-.
  apply (in_get Z.eqb Z.eqb_eq); [apply M|exact E].
Qed.

(** * The groups *)
Definition entry_update (c : config) (two_d : bool) (kind : weighting) (batch : list sample) (dl : list Z * leaf) : result (list Z * leaf) :=
  do b <- mapM (subset (src_order c) (fst dl)) batch;
  do l <- update_leaf c two_d kind b (snd dl);
  Ok (fst dl, l).
Definition entry_run c two_d kind batches (dl dl' : list Z * leaf) : Prop :=
  foldM (fun dl b => entry_update c two_d kind b dl) batches dl = Ok dl'.
Lemma combined_each c two_d kind batches m m' : foldM (update_combined c two_d kind) batches m = Ok m' ->
  Forall2 (Forall2 (entry_run c two_d kind batches)) m m'.
Proof.
  intros H. apply (fold_each (update_group c two_d kind)) in H. revert H. apply Forall2_weaken. intros g g' H. exact (fold_each (entry_update c two_d kind) batches g g' H).
Qed.
Lemma fold_join {A B} (f : A -> B -> result A) (g : A -> B -> result A) l : (forall a b, f a b = g a b) -> forall a, foldM f l a = foldM g l a.
Proof. intros E. induction l as [|b l IH]; intros a; cbn [foldM]; [reflexivity|]. rewrite E. destruct (g a b); cbn [bind]; auto. Qed.
Lemma combined_total c two_d kind batches m : (forall g dl, In g m -> In dl g -> exists dl', entry_run c two_d kind batches dl dl') ->
  exists m', foldM (update_combined c two_d kind) batches m = Ok m'.
Proof.
  assert (forall {A} (f : list sample -> A -> result A) bs l, (forall x, In x l -> exists y, foldM (fun x b => f b x) bs x = Ok y) -> exists l', foldM (fun l b => mapM (f b) l) bs l = Ok l') as W.
  { clear. intros A f bs. induction bs as [|b bs IH]; intros l H; cbn [foldM] in *; [eauto|].
    assert (exists m, Forall2 (fun x y => f b x = Ok y) l m /\ forall y, In y m -> exists z, foldM (fun x b => f b x) bs y = Ok z) as (m & F & Hm).
    { clear IH. induction l as [|x l IH]; [exists []; split; [constructor|intros y []]|].
      destruct IH as (m & F & Hm); [intros; apply H; now right|]. destruct (H x (or_introl eq_refl)) as (z & Hz). apply bind_inv in Hz. destruct Hz as (y & Hy & Hz).
      exists (y :: m). split; [now constructor|]. intros y' [<-|Hy']; eauto. }
    rewrite (mapM_Forall2 _ _ _ F). cbn [bind]. now apply IH. }
  intros H. apply (W _ (update_group c two_d kind)). intros g Hg. apply (W _ (entry_update c two_d kind)). intros dl Hd. now apply (H g).
Qed.
Lemma entry_inv c two_d kind batches : forall dst l dl', entry_run c two_d kind batches (dst, l) dl' ->
  fst dl' = dst /\ exists seen, Forall2 (fun b b' => mapM (subset (src_order c) dst) b = Ok b') batches seen /\
    foldM (fun l b => update_leaf c two_d kind b l) seen l = Ok (snd dl').
Proof.
  unfold entry_run. induction batches as [|b bs IH]; intros dst l dl' H; cbn [foldM] in H.
  - injection H as <-. split; [reflexivity|]. exists []. split; [constructor|reflexivity].
  - apply bind_inv in H. destruct H as (dl1 & E & H). unfold entry_update in E. cbn [fst snd] in E. apply bind_inv in E. destruct E as (b' & Eb & E). apply bind_inv in E. destruct E as (l1 & El & E).
    injection E as <-. apply IH in H. destruct H as (H1 & seen & H2 & H3). split; [exact H1|]. exists (b' :: seen). split; [now constructor|]. cbn [foldM]. rewrite El. exact H3.
Qed.
Lemma entry_make c two_d kind batches : forall seen dst l l', Forall2 (fun b b' => mapM (subset (src_order c) dst) b = Ok b') batches seen ->
  foldM (fun l b => update_leaf c two_d kind b l) seen l = Ok l' -> entry_run c two_d kind batches (dst, l) (dst, l').
Proof.
  unfold entry_run. induction batches as [|b bs IH]; intros seen dst l l' F H; inversion F as [|b0 b' bs0 seen' Eb F']; subst; cbn [foldM] in *.
  - injection H as <-. reflexivity.
  - apply bind_inv in H. destruct H as (l1 & E & H). unfold entry_update at 1. cbn [fst snd]. rewrite Eb. cbn [bind]. rewrite E. cbn [bind]. now apply (IH seen').
Qed.
Lemma subset_inv src dst s s' : subset src dst s = Ok s' -> restricted src dst s s'.
Proof.
  intros H. unfold subset in H. apply bind_inv in H. destruct H as (g & Eg & H). apply bind_inv in H. destruct H as (p & Ep & H). injection H as <-.
  assert (forall (v : list keypoint) o, select_subset v src dst = Ok o -> picked src dst v o) as W.
  { intros v o E. assert (usable (length v) src dst) as U.
    { pose proof E as E0. unfold select_subset in E0. destruct (Nat.eqb (length v) (length src)) eqn:L; [|discriminate]. cbn [negb] in E0.
      destruct (forallb (fun t => existsb (Z.eqb t) src) dst) eqn:I; [|discriminate]. cbn [negb] in E0. apply Nat.eqb_eq in L. rewrite forallb_forall in I.
      split; [exact L|]. split; [|destruct dst; discriminate]. intros t Ht. specialize (I t Ht). apply existsb_exists in I. destruct I as (t' & Ht' & Et). apply Z.eqb_eq in Et. now subst. }
    destruct (subset_eq v src dst U) as (o' & E' & F). rewrite E in E'. injection E' as <-. exact F. }
  split; [apply W, Eg|]. split; [apply W, Ep|]. auto.
Qed.
Lemma seen_restricted src dst batches seen : Forall2 (fun b b' => mapM (subset src dst) b = Ok b') batches seen -> Forall2 (Forall2 (restricted src dst)) batches seen.
Proof. apply Forall2_weaken. intros b b' H. apply mapM_inv in H. revert H. apply Forall2_weaken. intros s s' H. now apply subset_inv. Qed.

(** * The leaves *)
Lemma mpjpe_run c two_d kind seen : forall nm st l', foldM (fun l b => update_leaf c two_d kind b l) seen (Mpjpe nm st) = Ok l' ->
  exists st', l' = Mpjpe nm st' /\ foldM (mpjpe_update kind) seen st = Ok st'.
Proof.
  induction seen as [|b seen IH]; intros nm st l' H; cbn [foldM] in *; [injection H as <-; eauto|]. apply bind_inv in H. destruct H as (l1 & E & H).
  cbn [update_leaf] in E. apply bind_inv in E. destruct E as (st1 & Es & E). injection E as <-. rewrite Es. cbn [bind]. now apply IH.
Qed.
Definition pck_one two_d scales kind (t : Q) := pck_update two_d {| per_type := Some scales; use_object_scale := true |} true kind (Q2R t).
Lemma pck_all_nth two_d scales kind b ts : forall sts sts', pck_all two_d scales kind ts sts b = Ok sts' -> length sts = length ts ->
  length sts' = length ts /\ forall i t, nth_error ts i = Some t -> pck_one two_d scales kind t (nth i sts mean_zero) b = Ok (nth i sts' mean_zero).
Proof.
  induction ts as [|t ts IH]; intros [|st sts] sts' H L; try discriminate; cbn [pck_all] in H.
  - injection H as <-. split; [reflexivity|]. intros [|i] t; discriminate.
  - apply bind_inv in H. destruct H as (st' & E & H). apply bind_inv in H. destruct H as (r & Er & H). injection H as <-. apply IH in Er; [|now injection L]. destruct Er as (L' & N).
    split; [cbn; congruence|]. intros [|i] t' Hi; cbn [nth_error nth] in *; [injection Hi as <-; exact E|now apply N].
Qed.
Lemma pck_run c two_d kind seen : forall nm scales sts l', length sts = length (pck_thresholds c) ->
  foldM (fun l b => update_leaf c two_d kind b l) seen (Pck nm scales sts) = Ok l' ->
  exists sts', l' = Pck nm scales sts' /\ forall i t, nth_error (pck_thresholds c) i = Some t ->
    foldM (pck_one two_d scales kind t) seen (nth i sts mean_zero) = Ok (nth i sts' mean_zero).
Proof.
  induction seen as [|b seen IH]; intros nm scales sts l' L H; cbn [foldM] in *; [injection H as <-; eauto|]. apply bind_inv in H. destruct H as (l1 & E & H).
  cbn [update_leaf] in E. apply bind_inv in E. destruct E as (st1 & Es & E). injection E as <-. apply pck_all_nth in Es; [|exact L]. destruct Es as (L1 & N).
  apply IH in H; [|exact L1]. destruct H as (sts' & -> & H). exists sts'. split; [reflexivity|]. intros i t Hi. rewrite (N i t Hi). cbn [bind]. now apply H.
Qed.
Lemma oks_run c two_d kind seen : forall nm scales st l', foldM (fun l b => update_leaf c two_d kind b l) seen (OksAp nm scales st) = Ok l' ->
  exists st', l' = OksAp nm scales st' /\ foldM (ap_update two_d scales (map Q2R (oks_thresholds c)) kind) seen st = Ok st'.
Proof.
  induction seen as [|b seen IH]; intros nm scales st l' H; cbn [foldM] in *; [injection H as <-; eauto|]. apply bind_inv in H. destruct H as (l1 & E & H).
  cbn [update_leaf] in E. apply bind_inv in E. destruct E as (st1 & Es & E). injection E as <-. rewrite Es. cbn [bind]. now apply IH.
Qed.
(** One threshold of several. *)
Lemma nth_combine_map {A B C} (f : A * B -> C) (l : list A) (m : list B) i a b d : nth_error l i = Some a -> nth_error m i = Some b -> nth i (map f (combine l m)) d = f (a, b).
Proof.
  revert m i. induction l as [|x l IH]; intros [|y m] [|i] Ha Hb; cbn in *; try discriminate; [congruence|]. now apply IH.
Qed.
Lemma ap_single two_d scales kind ts seen : forall st st' i t a, foldM (ap_update two_d scales ts kind) seen st = Ok st' -> length (precisions st) = length ts ->
  nth_error ts i = Some t -> exists a', foldM (ap_update two_d scales [t] kind) seen {| precisions := [nth i (precisions st) mean_zero]; average := a |} =
    Ok {| precisions := [nth i (precisions st') mean_zero]; average := a' |}.
Proof.
  induction seen as [|b seen IH]; intros st st' i t a H L Hi; cbn [foldM] in *; [injection H as <-; eauto|]. apply bind_inv in H. destruct H as (st1 & E & H).
  unfold ap_update in E. apply bind_inv in E. destruct E as (oks & Eo & E). apply bind_inv in E. destruct E as (w & Ew & E).
  unfold ap_update at 1. rewrite Eo. cbn [bind]. rewrite Ew. cbn [bind map combine fst snd precisions average].
  set (ov := map (fun vo : bool * R => if fst vo then snd vo else 0%R) _) in *.
  assert (mean_update (nth i (precisions st) mean_zero) (matches t ov) w = nth i (precisions st1) mean_zero) as E1.
  { injection E as <-. cbn [precisions]. destruct (nth_error (precisions st) i) as [p|] eqn:Ep; [|apply nth_error_None in Ep; assert (nth_error ts i <> None) as Hn by congruence; apply nth_error_Some in Hn; lia].
    rewrite (nth_combine_map _ _ _ _ p (matches t ov)); [|exact Ep|]; [|rewrite nth_error_map', Hi; reflexivity]. cbn [fst snd]. now rewrite (nth_error_nth _ _ _ Ep). }
  rewrite E1. apply (IH st1); [exact H| |exact Hi]. injection E as <-. cbn [precisions]. rewrite map_length, combine_length, map_length. lia.
Qed.
