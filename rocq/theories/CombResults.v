(** The combined metric: the reported keys and values, and when there are any. *)
From Coq Require Import Reals QArith Qreals Ascii String.
From Verif Require Import Base ResultLib ListLib MonadLib KpModel KpSpec KpProofs GeomModel PoseModel OksModel CombModel CombSpec CombNames CombProofs.
Open Scope list_scope.

Definition fed (c : config) (batches : list (list sample)) (dst : list Z) (seen : list (list sample)) : Prop :=
  Forall2 (fun b b' => mapM (subset (src_order c) dst) b = Ok b') batches seen.
Definition mpjpe_end c (kind : weighting) batches (st : name * list Z) (dl : list Z * leaf) : Prop :=
  exists seen x, fed c batches (snd st) seen /\ snd dl = Mpjpe (chars "MPJPE/" ++ fst st) x /\ foldM (mpjpe_update kind) seen mean_zero = Ok x.
Definition pck_end c two_d kind batches (st : name * list Z) (dl : list Z * leaf) : Prop :=
  exists seen scales xs, fed c batches (snd st) seen /\ select_scales c (snd st) = Ok scales /\ snd dl = Pck (chars "PCK/" ++ fst st) scales xs /\
    forall i t, nth_error (pck_thresholds c) i = Some t -> foldM (pck_one two_d scales kind t) seen mean_zero = Ok (nth i xs mean_zero).
Definition oks_end c two_d kind batches (st : name * list Z) (dl : list Z * leaf) : Prop :=
  exists seen scales x, fed c batches (snd st) seen /\ select_scales c (snd st) = Ok scales /\ snd dl = OksAp (chars "OKS/" ++ fst st) scales x /\
    foldM (ap_update two_d scales (map Q2R (oks_thresholds c)) kind) seen (ap_zero (map Q2R (oks_thresholds c))) = Ok x.

Lemma Forall2_compose {A B C} (P : A -> B -> Prop) (Q : B -> C -> Prop) l m : Forall2 P l m -> forall n, Forall2 Q m n -> Forall2 (fun a c => exists b, P a b /\ Q b c) l n.
Proof. induction 1 as [|a b l m Hab H IH]; intros n F; inversion F; subst; constructor; eauto. Qed.
Lemma nth_zeros {A} (l : list A) i : nth i (map (fun _ => mean_zero) l) mean_zero = mean_zero.
Proof. revert i. induction l as [|a l IH]; intros [|i]; cbn; auto. Qed.
Lemma evaluate_inv c two_d kind batches d : mappings c -> evaluate c two_d kind batches = Ok d ->
  acceptable c /\ exists g1 g2 g3, d = combined_result c [g1; g2; g3] /\
    Forall2 (mpjpe_end c kind batches) (subsets c) g1 /\ Forall2 (pck_end c two_d kind batches) (subsets c) g2 /\ Forall2 (oks_end c two_d kind batches) (subsets c) g3.
Proof.
  intros M H. unfold evaluate in H. apply bind_inv in H. destruct H as (c' & Ec & H). apply (config_inv c c' M) in Ec. destruct Ec as (-> & A). split; [exact A|].
  apply bind_inv in H. destruct H as (m & Em & H). apply bind_inv in H. destruct H as (m' & Eu & H). injection H as <-.
  unfold create_combined_metric in Em. apply bind_inv in Em. destruct Em as (h1 & E1 & Em). apply bind_inv in Em. destruct Em as (h3 & E3 & Em). apply bind_inv in Em. destruct Em as (h2 & E2 & Em). injection Em as <-.
  apply combined_each in Eu. inversion Eu as [|x1 g1 y1 r1 F1 Eu1]; subst. inversion Eu1 as [|x2 g2 y2 r2 F2 Eu2]; subst. inversion Eu2 as [|x3 g3 y3 r3 F3 Eu3]; subst. inversion Eu3; subst.
  exists g1, g2, g3. split; [reflexivity|]. apply mapM_inv in E1, E2, E3.
  split; [|split].
  - apply (Forall2_compose _ _ _ _ E1) in F1. revert F1. apply Forall2_weaken. intros [s types] dl (b & Hb & R). cbn [fst snd create_mpjpe bind] in *. injection Hb as <-.
    apply entry_inv in R. destruct R as (_ & seen & Fs & R). apply mpjpe_run in R. destruct R as (x & Ex & R). exists seen, x. auto.
  - apply (Forall2_compose _ _ _ _ E2) in F2. revert F2. apply Forall2_weaken. intros [s types] dl (b & Hb & R). unfold create_pck in Hb. cbn [fst snd] in *. apply bind_inv in Hb. destruct Hb as (l & Hl & Hb). apply bind_inv in Hl. destruct Hl as (scales & Hs & Hl).
    injection Hl as <-. injection Hb as <-. apply entry_inv in R. destruct R as (_ & seen & Fs & R). apply pck_run in R; [|apply map_length]. destruct R as (x & Ex & R). exists seen, scales, x.
    split; [exact Fs|]. split; [exact Hs|]. split; [exact Ex|]. intros i t Hi. rewrite <- (R i t Hi). now rewrite nth_zeros.
  - apply (Forall2_compose _ _ _ _ E3) in F3. revert F3. apply Forall2_weaken. intros [s types] dl (b & Hb & R). unfold create_oks in Hb. cbn [fst snd] in *. apply bind_inv in Hb. destruct Hb as (l & Hl & Hb). apply bind_inv in Hl. destruct Hl as (scales & Hs & Hl).
    injection Hl as <-. injection Hb as <-. apply entry_inv in R. destruct R as (_ & seen & Fs & R). apply oks_run in R. destruct R as (x & Ex & R). exists seen, scales, x. auto.
Qed.

(** * The reports *)
Lemma numbered {A} (l : list A) i x : In (i, x) (combine (seq 0 (length l)) l) -> nth_error l i = Some x.
Proof.
  assert (forall l n i (x : A), In (i, x) (combine (seq n (length l)) l) -> (n <= i)%nat /\ nth_error l (i - n) = Some x) as W.
  { clear. induction l as [|y l IH]; intros n i x H; [destruct H|]. cbn [length seq combine] in H. destruct H as [H|H].
    - injection H as -> ->. split; [lia|]. now rewrite Nat.sub_diag.
    - apply IH in H. destruct H as (L & E). split; [lia|]. replace (i - n)%nat with (S (i - S n)) by lia. exact E. }
  intros H. apply W in H. now rewrite Nat.sub_0_r in H.
Qed.
Lemma map_snd_numbered {A B} (f : A -> B) (l : list A) n : map (fun x => f (snd x)) (combine (seq n (length l)) l) = map f l.
Proof. revert n. induction l as [|y l IH]; intros n; cbn; [reflexivity|]. now rewrite IH. Qed.
Lemma by_name_fill fmt keys : by_name fmt keys = fill name_eqb (fun ik : nat * Q => fmt (snd ik)) fst (combine (seq 0 (length keys)) keys) [].
Proof. reflexivity. Qed.
Lemma by_name_in fmt keys k i : In (k, i) (by_name fmt keys) -> exists t, nth_error keys i = Some t /\ k = fmt t.
Proof.
  rewrite by_name_fill. intros H. apply fill_in in H. destruct H as [[]|([j t] & H & E)]. cbn [fst snd] in E. injection E as -> ->. exists t. split; [now apply numbered|reflexivity].
Qed.
Lemma by_name_keys fmt keys k : In k (map fst (by_name fmt keys)) <-> In k (map fmt keys).
Proof. rewrite by_name_fill, fill_keys, map_snd_numbered. cbn. tauto. Qed.
Lemma by_name_list fmt keys : NoDup (map fmt keys) -> map fst (by_name fmt keys) = map fmt keys.
Proof.
  intros H. rewrite by_name_fill, fill_new; [|cbn [map app]; now rewrite map_snd_numbered]. cbn [app]. rewrite map_map. cbn [fst]. apply map_snd_numbered.
Qed.
Lemma map_fst_map {A B C} (f : B -> C) (l : list (A * B)) : map fst (map (fun ni => (fst ni, f (snd ni))) l) = map fst l.
Proof. rewrite map_map. reflexivity. Qed.

Section Reports.
Context (c : config) (two_d : bool) (kind : weighting) (batches : list (list sample)) (M : mappings c) (A : acceptable c).
Lemma scales_for s types : In (s, types) (subsets c) -> exists scales, Forall2 (fun t x => In (t, x) (per_type_scales c)) types scales.
Proof using M A. intros H. destruct (scales_ok c types M) as (scales & _ & F); [|eauto]. intros t Ht. destruct A as (_ & A2). eauto. Qed.

Lemma mpjpe_report st dl : In st (subsets c) -> mpjpe_end c kind batches st dl ->
  map fst (report c (snd dl)) = [mpjpe_key (fst st)] /\ forall k v, In (k, v) (report c (snd dl)) -> value c two_d kind batches k v.
Proof using M A.
  destruct st as [s types]. intros Hs (seen & x & F & E & R). cbn [fst snd] in *. rewrite E. cbn [report map fst]. split; [reflexivity|]. intros k v [H|[]]. injection H as <- <-.
  destruct (scales_for s types Hs) as (scales & Fs). exists s, types, seen, scales. split; [exact Hs|]. split; [now apply seen_restricted|]. split; [exact Fs|]. left. split; [reflexivity|]. eauto.
Qed.
Lemma pck_report st dl : In st (subsets c) -> pck_end c two_d kind batches st dl ->
  (forall k, In k (map fst (report c (snd dl))) <-> In k (map (pck_key (fst st)) (pck_thresholds c))) /\
  (told_apart (pck_thresholds c) -> map fst (report c (snd dl)) = map (pck_key (fst st)) (pck_thresholds c)) /\
  forall k v, In (k, v) (report c (snd dl)) -> value c two_d kind batches k v.
Proof using M A.
  destruct st as [s types]. intros Hs (seen & scales & xs & F & Es & E & R). cbn [fst snd] in *. rewrite E. cbn [report]. rewrite map_fst_map.
  assert (forall t, pck_name (chars "PCK/" ++ s) t = pck_key s t) as P by (intros t; unfold pck_name, pck_key, text, chars; now rewrite <- app_assoc).
  assert (map (pck_name (chars "PCK/" ++ s)) (pck_thresholds c) = map (pck_key s) (pck_thresholds c)) as P' by (apply map_ext, P).
  split; [|split].
  - intros k. rewrite by_name_keys, P'. tauto.
  - intros T. rewrite by_name_list; [exact P'|]. rewrite P'. apply (nodup_through format_2f); [exact T|]. intros a b H. now apply pck_key_inj in H.
  - intros k v H. apply in_map_iff in H. destruct H as ([k' i] & H & Hi). cbn [fst snd] in H. injection H as <- <-. apply by_name_in in Hi. destruct Hi as (t & Ht & ->).
    exists s, types, seen, scales. split; [exact Hs|]. split; [now apply seen_restricted|]. split; [now apply scales_inv|]. right; left. exists t. split; [now apply nth_error_In in Ht|]. split; [apply P|].
    eexists. split; [exact (R i t Ht)|reflexivity].
Qed.
Lemma oks_report st dl : In st (subsets c) -> oks_end c two_d kind batches st dl ->
  (forall k, In k (map fst (report c (snd dl))) <-> In k (map (oks_key (fst st)) (oks_thresholds c) ++ [ap_key (fst st)])) /\
  (told_apart (oks_thresholds c) -> map fst (report c (snd dl)) = map (oks_key (fst st)) (oks_thresholds c) ++ [ap_key (fst st)]) /\
  forall k v, In (k, v) (report c (snd dl)) -> value c two_d kind batches k v.
Proof using M A.
  destruct st as [s types]. intros Hs (seen & scales & x & F & Es & E & R). cbn [fst snd] in *. rewrite E. cbn [report].
  assert (forall t, precision_name (chars "OKS/" ++ s) t = oks_key s t) as P by (intros t; unfold precision_name, oks_key, text, chars; now rewrite <- app_assoc).
  assert (average_name (chars "OKS/" ++ s) = ap_key s) as Pa by (unfold average_name, ap_key, text, chars; now rewrite <- app_assoc).
  assert (map (precision_name (chars "OKS/" ++ s)) (oks_thresholds c) = map (oks_key s) (oks_thresholds c)) as P' by (apply map_ext, P).
  rewrite Pa. split; [|split].
  - intros k. rewrite (set_keys name_eqb name_eqb_eq), map_fst_map, by_name_keys, P', in_app_iff. cbn [In]. intuition.
  - intros T. pose proof (oks_keys_nodup (oks_thresholds c) s T) as N. unfold oks_keys in N.
    assert (map fst (by_name (precision_name (chars "OKS/" ++ s)) (oks_thresholds c)) = map (oks_key s) (oks_thresholds c)) as B.
    { rewrite by_name_list; [exact P'|]. rewrite P'. now apply nodup_prefix in N. }
    rewrite set_new.
    + rewrite map_app, map_fst_map, B. reflexivity.
    + rewrite map_fst_map, B. intros Q. apply nodup_app_inv in N. destruct N as (_ & _ & N). apply (N _ Q). now left.
  - intros k v H. exists s, types, seen, scales. split; [exact Hs|]. split; [now apply seen_restricted|]. split; [now apply scales_inv|]. right; right.
    apply in_set in H. destruct H as [H|H].
    + injection H as -> ->. right. split; [reflexivity|]. eauto.
    + left. apply in_map_iff in H. destruct H as ([k' i] & H & Hi). cbn [fst snd] in H. injection H as <- <-. apply by_name_in in Hi. destruct Hi as (t & Ht & ->). exists t.
      split; [now apply nth_error_In in Ht|]. split; [apply P|].
      assert (nth_error (map Q2R (oks_thresholds c)) i = Some (Q2R t)) as Ht' by (rewrite nth_error_map', Ht; reflexivity).
      destruct (ap_single two_d scales kind _ seen _ _ i (Q2R t) mean_zero R) as (a & Ra); [cbn; apply map_length|exact Ht'|]. cbn [precisions ap_zero] in Ra. rewrite nth_zeros in Ra.
      eexists _, a. split; [exact Ra|reflexivity].
Qed.
End Reports.

(** * The result *)
Lemma each_value c two_d kind batches (P : name * list Z -> list Z * leaf -> Prop) g : (forall st dl, In st (subsets c) -> P st dl -> forall k v, In (k, v) (report c (snd dl)) -> value c two_d kind batches k v) ->
  Forall2 P (subsets c) g -> forall k v, In (k, v) (merge_results (map (fun dl => report c (snd dl)) g)) -> value c two_d kind batches k v.
Proof.
  intros H F k v Hin. unfold merge_results in Hin. apply merge_in in Hin. destruct Hin as [[]|(e & He & Hk)]. apply in_map_iff in He. destruct He as (dl & <- & Hd).
  destruct (Forall2_in_r _ _ _ F _ Hd) as (st & Hs & Hp). eauto.
Qed.
Theorem reported_values c two_d kind batches d : mappings c -> evaluate c two_d kind batches = Ok d ->
  forall k v, In (k, v) d -> value c two_d kind batches k v.
Proof.
  intros M H k v Hin. destruct (evaluate_inv c two_d kind batches d M H) as (A & g1 & g2 & g3 & -> & F1 & F2 & F3). clear H.
  unfold combined_result in Hin. unfold merge_results at 1 in Hin. apply merge_in in Hin. destruct Hin as [[]|(e & He & Hk)]. destruct He as [<-|[<-|[<-|[]]]].
  - revert Hk. revert k v. apply (each_value c two_d kind batches (mpjpe_end c kind batches) g1); [|exact F1]. intros st dl Hs Hp. now apply (mpjpe_report c two_d kind batches M A st dl Hs Hp).
  - revert Hk. revert k v. apply (each_value c two_d kind batches (pck_end c two_d kind batches) g2); [|exact F2]. intros st dl Hs Hp. now apply (pck_report c two_d kind batches M A st dl Hs Hp).
  - revert Hk. revert k v. apply (each_value c two_d kind batches (oks_end c two_d kind batches) g3); [|exact F3]. intros st dl Hs Hp. now apply (oks_report c two_d kind batches M A st dl Hs Hp).
Qed.
Lemma each_keys c (P : name * list Z -> list Z * leaf -> Prop) (f : name -> list name) g :
  (forall st dl, In st (subsets c) -> P st dl -> forall k, In k (map fst (report c (snd dl))) <-> In k (f (fst st))) -> Forall2 P (subsets c) g ->
  forall k, In k (map fst (merge_results (map (fun dl => report c (snd dl)) g))) <-> In k (flat_map f (map fst (subsets c))).
Proof.
  intros H F k. unfold merge_results. rewrite merge_keys, in_flat_map. cbn [map In]. split.
  - intros [[]|(e & He & Hk)]. apply in_map_iff in He. destruct He as (dl & <- & Hd). destruct (Forall2_in_r _ _ _ F _ Hd) as (st & Hs & Hp).
    exists (fst st). split; [now apply in_map|]. now apply (H st dl).
  - intros (s & Hs & Hk). right. apply in_map_iff in Hs. destruct Hs as (st & <- & Hs). destruct (Forall2_in_l _ _ _ F _ Hs) as (dl & Hd & Hp).
    exists (report c (snd dl)). split; [now apply (in_map (fun dl => report c (snd dl)))|]. now apply (H st dl).
Qed.
Lemma flat_single {A B} (f : A -> B) l : flat_map (fun a => [f a]) l = map f l.
Proof. induction l as [|a l IH]; cbn; congruence. Qed.
Theorem reported_keys c two_d kind batches d : mappings c -> evaluate c two_d kind batches = Ok d ->
  NoDup (map fst d) /\ forall k, In k (map fst d) <-> In k (expected_keys c).
Proof.
  intros M H. destruct (evaluate_inv c two_d kind batches d M H) as (A & g1 & g2 & g3 & -> & F1 & F2 & F3). clear H. split; [apply merge_nodup; constructor|].
  intros k. unfold combined_result, merge_results at 1. rewrite merge_keys. cbn [map In]. unfold expected_keys. rewrite !in_app_iff.
  pose proof (each_keys c _ (fun s => [mpjpe_key s]) g1 (fun st dl Hs Hp k => ltac:(rewrite (proj1 (mpjpe_report c two_d kind batches M A st dl Hs Hp)); reflexivity)) F1 k) as K1.
  pose proof (each_keys c _ (fun s => map (pck_key s) (pck_thresholds c)) g2 (fun st dl Hs Hp => proj1 (pck_report c two_d kind batches M A st dl Hs Hp)) F2 k) as K2.
  pose proof (each_keys c _ (fun s => map (oks_key s) (oks_thresholds c) ++ [ap_key s]) g3 (fun st dl Hs Hp => proj1 (oks_report c two_d kind batches M A st dl Hs Hp)) F3 k) as K3.
  rewrite flat_single in K1. rewrite <- K1, <- K2, <- K3. split.
  - intros [[]|(e & [<-|[<-|[<-|[]]]] & Hk)]; auto.
  - intros [Hk|[Hk|Hk]]; right; eexists; (split; [|exact Hk]); auto.
Qed.
Lemma merged_list c (P : name * list Z -> list Z * leaf -> Prop) (f : name -> list name) g :
  (forall st dl, In st (subsets c) -> P st dl -> map fst (report c (snd dl)) = f (fst st)) -> Forall2 P (subsets c) g ->
  map fst (concat (map (fun dl => report c (snd dl)) g)) = flat_map f (map fst (subsets c)).
Proof.
  intros H F. revert H. induction F as [|st dl l g Hp F IH]; intros H; cbn [map concat flat_map]; [reflexivity|]. rewrite map_app, (H st dl (or_introl eq_refl) Hp), IH; [reflexivity|].
  intros st' dl' Hs. apply H. now right.
Qed.
Lemma nodup_suffix {A} (l m : list A) : NoDup (l ++ m) -> NoDup m.
Proof. intros H. now apply nodup_app_inv in H. Qed.
Theorem reported_in_order c two_d kind batches d : mappings c -> told_apart (pck_thresholds c) -> told_apart (oks_thresholds c) ->
  evaluate c two_d kind batches = Ok d -> map fst d = expected_keys c.
Proof.
  intros M Tp To H. destruct (evaluate_inv c two_d kind batches d M H) as (A & g1 & g2 & g3 & -> & F1 & F2 & F3). clear H.
  pose proof (keys_distinct c M Tp To) as N. unfold expected_keys in *.
  pose proof (merged_list c _ (fun s => [mpjpe_key s]) g1 (fun st dl Hs Hp => proj1 (mpjpe_report c two_d kind batches M A st dl Hs Hp)) F1) as K1. rewrite flat_single in K1.
  pose proof (merged_list c _ (fun s => map (pck_key s) (pck_thresholds c)) g2 (fun st dl Hs Hp => proj1 (proj2 (pck_report c two_d kind batches M A st dl Hs Hp)) Tp) F2) as K2.
  pose proof (merged_list c _ (fun s => map (oks_key s) (oks_thresholds c) ++ [ap_key s]) g3 (fun st dl Hs Hp => proj1 (proj2 (oks_report c two_d kind batches M A st dl Hs Hp)) To) F3) as K3.
  rewrite <- K1, <- K2, <- K3 in *. rewrite <- !map_app in N |- *.
  assert (forall g : group, NoDup (map fst (concat (map (fun dl => report c (snd dl)) g))) -> merge_results (map (fun dl => report c (snd dl)) g) = concat (map (fun dl => report c (snd dl)) g)) as W.
  { intros g Hg. unfold merge_results. now rewrite merge_new. }
  pose proof N as N'. rewrite map_app in N'. pose proof (nodup_prefix _ _ N') as N1. apply nodup_suffix in N'. rewrite map_app in N'. pose proof (nodup_prefix _ _ N') as N2. apply nodup_suffix in N'.
  unfold combined_result. cbn [map]. rewrite !W by assumption. unfold merge_results. rewrite merge_new; cbn [concat app]; rewrite app_nil_r; [reflexivity|exact N].
Qed.

(** * How many *)
Lemma expected_length c : length (expected_keys c) = (length (subsets c) * (length (pck_thresholds c) + length (oks_thresholds c) + 2))%nat.
Proof.
  unfold expected_keys. rewrite !app_length, !map_length. set (l := subsets c).
  assert (forall (f : name -> list name) n, (forall s, length (f s) = n) -> forall l : list (name * list Z), length (flat_map f (map fst l)) = (length l * n)%nat) as W.
  { intros f n H. induction l0 as [|a l0 IH]; cbn [map flat_map length]; [reflexivity|]. rewrite app_length, H, IH. lia. }
  rewrite (W _ (length (pck_thresholds c))), (W _ (S (length (oks_thresholds c)))); [lia|intros; rewrite app_length, map_length; cbn; lia|intros; apply map_length].
Qed.
Lemma flat_part {A B} (f : A -> list B) l a : In a l -> NoDup (flat_map f l) -> NoDup (f a).
Proof.
  induction l as [|b l IH]; intros [] N; cbn [flat_map] in N; [subst b; now apply nodup_prefix in N|]. apply IH; [assumption|]. now apply nodup_suffix in N.
Qed.
Lemma apart_back (fmt : Q -> name) ts : (forall a b, format_2f a = format_2f b -> fmt a = fmt b) -> NoDup (map fmt ts) -> told_apart ts.
Proof. intros H N. exact (nodup_through fmt format_2f ts N H). Qed.
Theorem reported_all c two_d kind batches d : mappings c -> subsets c <> [] -> evaluate c two_d kind batches = Ok d ->
  let all := (length (subsets c) * (length (pck_thresholds c) + length (oks_thresholds c) + 2))%nat in
  (length d <= all)%nat /\ (length d = all <-> told_apart (pck_thresholds c) /\ told_apart (oks_thresholds c)).
Proof.
  intros M Hne H all. destruct (reported_keys c two_d kind batches d M H) as (N & K). unfold all. rewrite <- expected_length, <- (map_length fst d). split.
  - apply NoDup_incl_length; [exact N|]. intros k Hk. now apply K.
  - split.
    + intros L. assert (NoDup (expected_keys c)) as Ne by (apply (NoDup_incl_NoDup N); [lia|intros k Hk; now apply K]).
      unfold expected_keys in Ne. apply nodup_suffix in Ne. destruct (subsets c) as [|[s types] l] eqn:E; [congruence|].
      pose proof (nodup_prefix _ _ Ne) as Np. apply nodup_suffix in Ne. cbn [map fst] in *.
      apply (flat_part _ _ s (in_eq s _)) in Np. apply (flat_part _ _ s (in_eq s _)) in Ne. apply nodup_prefix in Ne. split.
      * apply (apart_back (pck_key s)); [|exact Np]. intros a b Hab. unfold pck_key. congruence.
      * apply (apart_back (oks_key s)); [|exact Ne]. intros a b Hab. unfold oks_key. congruence.
    + intros (Tp & To). rewrite (reported_in_order c two_d kind batches d M Tp To H). reflexivity.
Qed.

(** * When there is a result *)
Lemma evaluate_total c two_d kind batches : mappings c -> acceptable c ->
  (forall s types, In (s, types) (subsets c) -> exists seen, fed c batches types seen /\ forall l, (exists nm st, l = Mpjpe nm st) \/
     (exists nm scales sts, l = Pck nm scales sts /\ select_scales c types = Ok scales) \/ (exists nm scales st, l = OksAp nm scales st /\ select_scales c types = Ok scales) ->
     exists l', foldM (fun l b => update_leaf c two_d kind b l) seen l = Ok l') ->
  exists d, evaluate c two_d kind batches = Ok d.
Proof.
  intros M A H. unfold evaluate. rewrite (proj1 (config_accepted c M) A). cbn [bind].
  assert (forall s types, In (s, types) (subsets c) -> exists scales, select_scales c types = Ok scales) as Sc.
  { intros s types Hs. destruct (scales_ok c types M) as (scales & E & _); [|eauto]. intros t Ht. destruct A as (_ & A). eauto. }
  assert (forall create, (forall s types, In (s, types) (subsets c) -> exists l, create s types = Ok l) -> exists g, metric_for_subsets c create = Ok g /\ forall dl, In dl g -> exists s, In (s, fst dl) (subsets c) /\ create s (fst dl) = Ok (snd dl)) as W.
  { intros create Hc. unfold metric_for_subsets. revert Hc. generalize (subsets c). induction l as [|[s types] l IH]; intros Hc; [exists []; split; [reflexivity|intros dl []]|].
    destruct IH as (g & E & Hg); [intros; apply (Hc s0); now right|]. destruct (Hc s types (or_introl eq_refl)) as (l0 & E0). exists ((types, l0) :: g). cbn [mapM fst snd]. rewrite E0. cbn [bind]. rewrite E. split; [reflexivity|].
    intros dl [<-|Hd]; [exists s; split; [now left|exact E0]|]. destruct (Hg dl Hd) as (s' & Hs' & E'). exists s'. split; [now right|exact E']. }
  destruct (W create_mpjpe) as (g1 & E1 & G1); [intros; eexists; reflexivity|].
  destruct (W (create_oks c)) as (g3 & E3 & G3); [intros s types Hs; destruct (Sc s types Hs) as (x & Ex); unfold create_oks; rewrite Ex; eexists; reflexivity|].
  destruct (W (create_pck c)) as (g2 & E2 & G2); [intros s types Hs; destruct (Sc s types Hs) as (x & Ex); unfold create_pck; rewrite Ex; eexists; reflexivity|].
  unfold create_combined_metric. rewrite E1, E3, E2. cbn [bind].
  destruct (combined_total c two_d kind batches [g1; g2; g3]) as (m & Em); [|rewrite Em; cbn [bind]; eauto].
  intros g [dst l] Hg Hd. assert (exists s, In (s, dst) (subsets c) /\ ((exists nm st, l = Mpjpe nm st) \/
     (exists nm scales sts, l = Pck nm scales sts /\ select_scales c dst = Ok scales) \/ (exists nm scales st, l = OksAp nm scales st /\ select_scales c dst = Ok scales))) as (s & Hs & Hl).
  { destruct Hg as [<-|[<-|[<-|[]]]].
    - destruct (G1 _ Hd) as (s & Hs & E). exists s. split; [exact Hs|]. left. injection E as <-. eauto.
    - destruct (G2 _ Hd) as (s & Hs & E). exists s. split; [exact Hs|]. right; left. unfold create_pck in E. cbn [fst snd] in E. apply bind_inv in E. destruct E as (x & Ex & E). injection E as <-. eauto 6.
    - destruct (G3 _ Hd) as (s & Hs & E). exists s. split; [exact Hs|]. right; right. unfold create_oks in E. cbn [fst snd] in E. apply bind_inv in E. destruct E as (x & Ex & E). injection E as <-. eauto 6. }
  destruct (H s dst Hs) as (seen & Fs & Hr). destruct (Hr l Hl) as (l' & El). exists (dst, l'). now apply (entry_make _ _ _ _ seen).
Qed.
Definition shaped (n : nat) (s : sample) : Prop := length (s_gt s) = n /\ length (s_pr s) = n.
Lemma mapM_all {A B} (f : A -> result B) l : (forall a, In a l -> exists b, f a = Ok b) -> exists r, mapM f l = Ok r.
Proof. intros H. apply Forall2_exists in H. destruct H as (r & F). exists r. now apply mapM_Forall2. Qed.
Lemma leaf_total c two_d n b : (forall s, In s b -> shaped n s) -> forall l, (exists nm st, l = Mpjpe nm st) \/
     (exists nm scales sts, l = Pck nm scales sts /\ length scales = n) \/ (exists nm scales st, l = OksAp nm scales st /\ length scales = n) ->
   exists l', update_leaf c two_d Unweighted b l = Ok l' /\ ((exists nm st, l' = Mpjpe nm st) \/
     (exists nm scales sts, l' = Pck nm scales sts /\ length scales = n) \/ (exists nm scales st, l' = OksAp nm scales st /\ length scales = n)).
Proof.
  intros Hb l Hl.
  assert (mapM check_shapes b = Ok (map (fun _ => tt) b)) as C.
  { apply mapM_ok. intros s Hs. destruct (Hb s Hs) as (E1 & E2). unfold check_shapes. rewrite E1, E2, Nat.eqb_refl. reflexivity. }
  assert (mapM (fun s => masked_weights Unweighted (pair_mask s) (s_weight s)) b = Ok (map pair_mask b)) as W by (apply mapM_ok; reflexivity).
  destruct Hl as [(nm & st & ->)|[(nm & scales & sts & -> & L)|(nm & scales & st & -> & L)]]; cbn [update_leaf].
  - unfold mpjpe_update. rewrite C. cbn [bind]. rewrite W. cbn [bind]. eexists. split; [reflexivity|]. left. eauto.
  - assert (forall t st, exists st', pck_update two_d {| per_type := Some scales; use_object_scale := true |} true Unweighted t st b = Ok st') as P.
    { intros t st. unfold pck_update. rewrite C. cbn [bind]. destruct (mapM_all (is_correct two_d {| per_type := Some scales; use_object_scale := true |} true t) b) as (r & Er).
      - intros s Hs. destruct (Hb s Hs) as (E1 & E2). unfold is_correct, keypoint_threshold. cbn [use_object_scale per_type bind]. rewrite E1, L, Nat.eqb_refl. cbn [bind]. eauto.
      - rewrite Er. cbn [bind]. rewrite W. cbn [bind]. eauto. }
    assert (forall ts sts, exists sts', pck_all two_d scales Unweighted ts sts b = Ok sts') as Q.
    { induction ts as [|t ts IH]; intros [|st sts0]; cbn [pck_all]; eauto. destruct (P (Q2R t) st) as (st' & ->). cbn [bind]. destruct (IH sts0) as (r & ->). cbn [bind]. eauto. }
    destruct (Q (pck_thresholds c) sts) as (sts' & ->). cbn [bind]. eexists. split; [reflexivity|]. right; left. eauto 6.
  - unfold ap_update. destruct (mapM_all (object_keypoint_similarity two_d scales Unweighted) b) as (r & Er).
    + intros s Hs. destruct (Hb s Hs) as (E1 & E2). unfold object_keypoint_similarity. rewrite E1, E2, L, Nat.eqb_refl. cbn [andb negb masked_weights bind]. eauto.
    + rewrite Er. cbn [bind object_weights]. eexists. split; [reflexivity|]. right; right. eauto 6.
Qed.
Theorem unweighted_result c two_d batches : mappings c -> acceptable c -> well_shaped c batches -> exists d, evaluate c two_d Unweighted batches = Ok d.
Proof.
  intros M A (W1 & W2). apply evaluate_total; [exact M|exact A|]. intros s types Hs. destruct (W1 s types Hs) as (Hne & Hi).
  assert (exists seen, Forall2 (fun b b' => mapM (subset (src_order c) types) b = Ok b') batches seen) as (seen & F).
  { apply Forall2_exists. intros b Hb. apply mapM_all. intros x Hx. destruct (W2 b x Hb Hx) as (L1 & L2).
    destruct (subset_eq (s_gt x) (src_order c) types) as (o1 & E1 & _); [split; auto|]. destruct (subset_eq (s_pr x) (src_order c) types) as (o2 & E2 & _); [split; auto|].
    unfold subset. rewrite E1. cbn [bind]. rewrite E2. cbn [bind]. eauto. }
  exists seen. split; [exact F|]. intros l Hl.
  assert (forall x, select_scales c types = Ok x -> length x = length types) as Ls by (intros x Hx; apply mapM_length in Hx; exact Hx).
  destruct (fold_total (fun l => (exists nm st, l = Mpjpe nm st) \/ (exists nm scales sts, l = Pck nm scales sts /\ length scales = length types) \/ (exists nm scales st, l = OksAp nm scales st /\ length scales = length types))
     (fun l b => update_leaf c two_d Unweighted b l) seen) with (a := l) as (l' & E & _); [| |eauto].
  - intros l0 b Hb Hl0. apply leaf_total; [|exact Hl0]. intros s0 Hs0. destruct (Forall2_in_r _ _ _ F _ Hb) as (b0 & Hb0 & Eb). apply mapM_inv in Eb.
    destruct (Forall2_in_r _ _ _ Eb _ Hs0) as (x & Hx & Ex). apply subset_inv in Ex. destruct Ex as (P1 & P2 & _). apply Forall2_len in P1, P2. split; congruence.
  - destruct Hl as [Hl|[(nm & scales & sts & -> & Es)|(nm & scales & st & -> & Es)]]; [now left|right; left|right; right]; eauto 7.
Qed.

(** * When there is none *)
Lemma seen_by c two_d kind batches d s types : mappings c -> evaluate c two_d kind batches = Ok d -> In (s, types) (subsets c) ->
  (exists seen st, fed c batches types seen /\ foldM (mpjpe_update kind) seen mean_zero = Ok st) /\
  exists seen scales x, fed c batches types seen /\ foldM (ap_update two_d scales (map Q2R (oks_thresholds c)) kind) seen (ap_zero (map Q2R (oks_thresholds c))) = Ok x.
Proof.
  intros M H Hs. destruct (evaluate_inv c two_d kind batches d M H) as (_ & g1 & g2 & g3 & _ & F1 & _ & F3).
  destruct (Forall2_in_l _ _ _ F1 _ Hs) as (dl1 & _ & seen1 & st & A1 & _ & B1). destruct (Forall2_in_l _ _ _ F3 _ Hs) as (dl3 & _ & seen3 & scales & x & A3 & _ & _ & B3).
  split; [exists seen1, st; auto|exists seen3, scales, x; auto].
Qed.
Lemma fold_some {A B} (f : A -> B -> result A) l b : In b l -> forall a a', foldM f l a = Ok a' -> exists x y, f x b = Ok y.
Proof.
  induction l as [|b' l IH]; intros Hb a a' H; [destruct Hb|]; destruct Hb as [Hb|Hb]; cbn [foldM] in H; apply bind_inv in H; destruct H as (a1 & E & H); [subst b'; eauto|]. eapply IH; eauto.
Qed.
Theorem stray_subset c two_d kind batches s types b x : mappings c -> In (s, types) (subsets c) -> In b batches -> In x b ->
  ~ incl types (src_order c) \/ types = [] -> forall d, evaluate c two_d kind batches <> Ok d.
Proof.
  intros M Hs Hb Hx Hi d H. destruct (seen_by c two_d kind batches d s types M H Hs) as ((seen & st & F & _) & _).
  destruct (Forall2_in_l _ _ _ F _ Hb) as (b' & _ & Eb). apply mapM_inv in Eb. destruct (Forall2_in_l _ _ _ Eb _ Hx) as (x' & _ & Ex).
  unfold subset in Ex. apply bind_inv in Ex. destruct Ex as (g & Eg & _). rewrite subset_refuses in Eg; [discriminate|]. intros (_ & U1 & U2). destruct Hi as [Hi|Hi]; contradiction.
Qed.
Theorem object_weights_refused c two_d batches s types b : mappings c -> In (s, types) (subsets c) -> In b batches -> forall d, evaluate c two_d PerObject batches <> Ok d.
Proof.
  intros M Hs Hb d H. destruct (seen_by c two_d PerObject batches d s types M H Hs) as (_ & seen & scales & x & F & R).
  destruct (Forall2_in_l _ _ _ F _ Hb) as (b' & Hb' & _). destruct (fold_some _ _ _ Hb' _ _ R) as (st & y & E). unfold ap_update in E. apply bind_inv in E. destruct E as (o & _ & E). discriminate.
Qed.
Theorem point_weights_refused c two_d batches s types b x : mappings c -> In (s, types) (subsets c) -> In b batches -> In x b ->
  length (s_weight x) = length (src_order c) -> length types <> length (src_order c) -> length (src_order c) <> 1%nat -> forall d, evaluate c two_d PerPoint batches <> Ok d.
Proof.
  intros M Hs Hb Hx Lw Lt L1 d H. destruct (seen_by c two_d PerPoint batches d s types M H Hs) as ((seen & st & F & R) & _).
  destruct (Forall2_in_l _ _ _ F _ Hb) as (b' & Hb' & Eb). apply mapM_inv in Eb. destruct (Forall2_in_l _ _ _ Eb _ Hx) as (x' & Hx' & Ex). apply subset_inv in Ex. destruct Ex as (P1 & P2 & _ & Ew).
  apply Forall2_len in P1, P2. destruct (fold_some _ _ _ Hb' _ _ R) as (st1 & y & E). unfold mpjpe_update in E. apply bind_inv in E. destruct E as (u & _ & E). apply bind_inv in E. destruct E as (w & E & _).
  apply mapM_inv in E. destruct (Forall2_in_l _ _ _ E _ Hx') as (w' & _ & E'). unfold masked_weights in E'. rewrite Ew in E'.
  assert (length (pair_mask x') = length types) as Lp by (unfold pair_mask; rewrite map_length, combine_length; lia).
  destruct (s_weight x) as [|w1 [|w2 ws]] eqn:E0; cbn [length] in Lw; [| congruence |]; (destruct (Nat.eqb _ (length (pair_mask x'))) eqn:En; [apply Nat.eqb_eq in En; cbn [length] in En; congruence|discriminate]).
Qed.
