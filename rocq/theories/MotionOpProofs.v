(** Proofs about the motion metrics op. *)
From Coq Require Import String Permutation Sorting.Sorted.
From Verif Require Import Base ResultLib MotionModel MotionSpec MotionStatsProofs BreakdownModel MotionOpModel MotionOpSpec.
Open Scope list_scope.
Open Scope Z_scope.

Lemma Forall2_impl' {A B} (P Q : A -> B -> Prop) l l' : (forall a b, P a b -> Q a b) -> Forall2 P l l' -> Forall2 Q l l'.
Proof. intros H F. induction F; constructor; auto. Qed.
(** ** Indices *)
Lemma key_eqb_iff a b : key_eqb a b = true <-> a = b.
Proof. destruct a, b. unfold key_eqb. cbn [fst snd]. rewrite andb_true_iff, !Z.eqb_eq. split; [intros [-> ->]; reflexivity|intros [= -> ->]; auto]. Qed.
Lemma key_eqb_refl a : key_eqb a a = true.
Proof. apply key_eqb_iff. reflexivity. Qed.
Lemma find_put k i m k' : find_index k' (put_index k i m) = if key_eqb k' k then Some i else find_index k' m.
Proof.
  induction m as [|[x j] m IH]; cbn [put_index find_index]; [reflexivity|]. destruct (key_eqb k x) eqn:E; cbn [find_index].
  - apply key_eqb_iff in E. subst x. destruct (key_eqb k' k); reflexivity.
  - rewrite IH. destruct (key_eqb k' x) eqn:A; [|reflexivity]. apply key_eqb_iff in A. subst x. destruct (key_eqb k' k) eqn:B; [|reflexivity].
    apply key_eqb_iff in B. subst k'. rewrite key_eqb_refl in E. discriminate.
Qed.
Definition find_last (k : Z * Z) (ks : list (Z * Z)) : option nat :=
  fold_left (fun r '(i, x) => if key_eqb k x then Some i else r) (combine (seq 0 (List.length ks)) ks) None.
Lemma indices_find bs k : find_index k (indices bs) = find_last k (map bundle_key bs).
Proof.
  unfold indices, find_last. rewrite map_length. assert (G : forall l n m r, find_index k m = r ->
    find_index k (fold_left (fun m '(i, b) => put_index (bundle_key b) i m) (combine (seq n (List.length l)) l) m) =
    fold_left (fun r '(i, x) => if key_eqb k x then Some i else r) (combine (seq n (List.length l)) (map bundle_key l)) r).
  { induction l as [|b l IH]; intros n m r E; cbn [List.length seq map combine fold_left]; [exact E|]. apply IH. rewrite find_put, E. reflexivity. }
  apply G. reflexivity.
Qed.
Lemma find_last_snoc k ks x : find_last k (ks ++ [x]) = if key_eqb k x then Some (List.length ks) else find_last k ks.
Proof.
  unfold find_last. rewrite app_length. cbn [List.length]. rewrite seq_app. cbn [seq plus].
  assert (C : combine (seq 0 (List.length ks) ++ [List.length ks]) (ks ++ [x]) = combine (seq 0 (List.length ks)) ks ++ [(List.length ks, x)]).
  { assert (G : forall (a : list nat) n, List.length a = List.length ks -> combine (a ++ [n]) (ks ++ [x]) = combine a ks ++ [(n, x)]).
    { clear. induction ks as [|y ks IH]; intros [|b a] n L; try discriminate; [reflexivity|]. cbn [app combine]. f_equal. apply IH. injection L as L. exact L. }
    apply G, seq_length. }
  rewrite C, fold_left_app. reflexivity.
Qed.
Lemma find_last_spec k ks : match find_last k ks with Some i => nth_error ks i = Some k | None => ~ In k ks end.
Proof.
  induction ks as [|x ks IH] using rev_ind; [intros []|]. rewrite find_last_snoc. destruct (key_eqb k x) eqn:E.
  - apply key_eqb_iff in E. subst x. rewrite nth_error_app2, Nat.sub_diag by lia. reflexivity.
  - destruct (find_last k ks) as [i|].
    + rewrite nth_error_app1; [exact IH|]. apply nth_error_Some. congruence.
    + intros I. apply in_app_or in I. destruct I as [I|[-> |[]]]; [exact (IH I)|]. rewrite key_eqb_refl in E. discriminate.
Qed.
Lemma output_spec bs t s : 1 <= t ->
  (exists b, In b bs /\ b_type b = t /\ b_step b = s /\ output_row bs t s = to_row b) \/
  ((forall b, In b bs -> ~ (b_type b = t /\ b_step b = s)) /\ output_row bs t s = no_row).
Proof.
  intros T. assert (K : forall b, bundle_key b = (t, s) <-> b_type b = t /\ b_step b = s).
  { intros b. unfold bundle_key. destruct (Z.eqb_spec (b_type b) 0) as [E|E]; split; [intros [=]; lia|intros [A B]; lia|intros [=]; auto|intros [-> ->]; reflexivity]. }
  unfold output_row. rewrite indices_find. pose proof (find_last_spec (t, s) (map bundle_key bs)) as F. destruct (find_last (t, s) (map bundle_key bs)) as [i|].
  - left. rewrite nth_error_map in F. destruct (nth_error bs i) as [b|] eqn:B; [|discriminate]. cbn [option_map] in F. assert (F' : bundle_key b = (t, s)) by congruence. clear F. apply K in F'. rename F' into F. exists b.
    split; [eapply nth_error_In; exact B|]. split; [apply F|]. split; [apply F|reflexivity].
  - right. split; [|reflexivity]. intros b I H. apply F. apply in_map_iff. exists b. split; [apply K; exact H|exact I].
Qed.

(** ** Names *)
Theorem names_rows dec steps bs : Forall2 (fun n r => exists t s, In t [1; 2; 3] /\ In s steps /\ n = row_name dec t s /\ r = output_row bs t s)
  (cpp_motion_names dec steps) (create_output steps bs).
Proof.
  unfold cpp_motion_names, create_output, motion_types, expected_types. cbn [map concat]. rewrite !app_nil_r.
  assert (G : forall t ty, In t [1; 2; 3] -> type_text t = ty -> Forall2 (fun n r => exists t s, In t [1; 2; 3] /\ In s steps /\ n = row_name dec t s /\ r = output_row bs t s)
    (map (fun s => cat [ty; "_"; dec s]%string) steps) (map (output_row bs t) steps)).
  { intros t ty It <-. assert (H : forall l, (forall s, In s l -> In s steps) -> Forall2 (fun n r => exists t s, In t [1; 2; 3] /\ In s steps /\ n = row_name dec t s /\ r = output_row bs t s)
      (map (fun s => cat [type_text t; "_"; dec s]%string) l) (map (output_row bs t) l)).
    { induction l as [|s l IH]; intros Hl; cbn [map]; constructor; [|apply IH; intros x I; apply Hl; right; exact I]. exists t, s. split; [exact It|]. split; [apply Hl; left; reflexivity|].
      split; [|reflexivity]. reflexivity. }
    apply H. auto. }
  apply Forall2_app; [apply G; [left; reflexivity|reflexivity]|]. apply Forall2_app; apply G; cbn [In]; auto; reflexivity.
Qed.

(** ** Accumulation *)
Lemma checked_ok {A} (r : result A) a : checked r = Ok a -> r = Ok a.
Proof. destruct r; [intros [=]; subst; reflexivity|discriminate]. Qed.
Definition with_scenario (ps : preds * scenario) : preds * option scenario := (fst ps, Some (snd ps)).
Lemma accumulate_total g c l : accumulate g c l = checked (total_stats g c (map with_scenario l)).
Proof.
  unfold accumulate, total_stats. assert (G : forall l tot, ok_stats tot ->
    foldM (fun tot ps => do st <- checked (compute_stats g c (fst ps) (snd ps)); bs_acc tot st) l tot =
    checked (foldM (fun tot ps => match snd ps with None => Err ValueError | Some s => do st <- compute_stats g c (fst ps) s; bs_acc tot st end) (map with_scenario l) tot)).
  { clear l. induction l as [|[p s] l IH]; intros tot Ht; cbn [map foldM fst snd with_scenario]; [reflexivity|]. pose proof (scenario_stats_ok g c (p, Some s)) as H. unfold scenario_stats in H. cbn [fst snd] in H.
    destruct (compute_stats g c p s) as [st|e]; cbn [checked bind]; [|reflexivity]. destruct (H st eq_refl) as [S1 S2], Ht as [T1 T2]. destruct (bs_acc_ok tot st T1 S1) as [E F]. rewrite E. cbn [bind].
    apply IH. split; [exact F|apply bs_add_sorted; exact T2]. }
  apply G. split; constructor.
Qed.
Lemma accumulate_sorted g c l tot : accumulate g c l = Ok tot -> sorted tot.
Proof.
  rewrite accumulate_total. intros H. apply checked_ok in H. apply (total_stats_inv full (fun _ H => H) full_ms_add g c) in H; [apply H|]. intros ids s m sc st. apply one_stats_full.
Qed.
(** The entry of a type and a step in accumulated statistics. *)
Definition entry (tot : bstats) (t s : Z) (v : mstats) : Prop := In ((t, s), v) tot.
Lemma entry_fun tot t s v w : sorted tot -> entry tot t s v -> entry tot t s w -> v = w.
Proof. intros S0 A B. apply sorted_get_in in A; [|exact S0]. apply sorted_get_in in B; [|exact S0]. congruence. Qed.
Lemma row_of_entry tot t s : sorted tot -> 1 <= t ->
  (exists v, entry tot t s v /\ output_row (map to_bundle tot) t s = to_row (to_bundle ((t, s), v))) \/
  ((forall v, ~ entry tot t s v) /\ output_row (map to_bundle tot) t s = no_row).
Proof.
  intros S0 T. destruct (output_spec (map to_bundle tot) t s T) as [(b & I & A & B & E)|(N & E)].
  - left. apply in_map_iff in I. destruct I as ([[t' s'] v] & <- & I). cbn [to_bundle b_type b_step fst snd] in A, B. subst t' s'. exists v. split; [exact I|]. rewrite E. reflexivity.
  - right. split; [|exact E]. intros v I. apply (N (to_bundle ((t, s), v))); [apply in_map; exact I|]. split; reflexivity.
Qed.

(** ** Which entries there are *)
Lemma upd_keys k f : forall m m', upd k f m = Ok m' -> forall x, In x (map fst m') <-> x = k \/ In x (map fst m).
Proof.
  induction m as [|[k' v] m IH]; intros m' E x; cbn [upd] in E.
  - destruct (f ms0); cbn [bind] in E; [injection E as <-|discriminate]. cbn [map fst In]. intuition.
  - destruct (key_cmp k k') eqn:C.
    + apply key_cmp_eq in C. subst k'. destruct (f v); cbn [bind] in E; [injection E as <-|discriminate]. cbn [map fst In]. intuition.
    + destruct (f ms0); cbn [bind] in E; [injection E as <-|discriminate]. cbn [map fst In]. intuition.
    + destruct (upd k f m) as [m''|] eqn:U; cbn [bind] in E; [injection E as <-|discriminate]. cbn [map fst In]. rewrite (IH _ eq_refl). intuition.
Qed.
Lemma bs_acc_keys b : forall a r, bs_acc a b = Ok r -> forall x, In x (map fst r) <-> In x (map fst a) \/ In x (map fst b).
Proof.
  unfold bs_acc. induction b as [|p b IH]; intros a r E x; cbn [foldM map] in E |- *; [injection E as <-; cbn [In]; intuition|].
  destruct (upd (fst p) _ a) as [a'|] eqn:U; cbn [bind] in E; [|discriminate]. rewrite (IH _ _ E). rewrite (upd_keys _ _ _ _ U). cbn [In]. intuition.
Qed.
Lemma prediction_keys g c ids s j m r r' : prediction_stats g c ids s (j :: m) r = Ok r' -> exists t, object_type ids (jt_trajs j) = Ok t /\
  forall x, In x (map fst r') <-> In x (map fst r) \/ (fst x = t /\ In (snd x) (map m_step (step_cfgs c))).
Proof.
  unfold prediction_stats. destruct (object_type ids (jt_trajs j)) as [t|]; cbn [bind]; [|discriminate]. intros E. exists t. split; [reflexivity|].
  revert r E. generalize (step_cfgs c). intros l. induction l as [|sc l IH]; intros r E x; cbn [foldM] in E.
  - injection E as <-. cbn [map In]. intuition.
  - destruct (one_stats g c ids s (j :: m) sc) as [st|]; cbn [bind] in E; [|discriminate]. destruct (upd (t, m_step sc) _ r) as [r1|] eqn:U; cbn [bind] in E; [|discriminate].
    rewrite (IH _ E). rewrite (upd_keys _ _ _ _ U). cbn [map In]. destruct x as [a b]. cbn [fst snd]. split.
    + intros [[Eq|I]|[A B]]; [injection Eq as -> ->; right; split; [reflexivity|left; reflexivity]|left; exact I|right; split; [exact A|right; exact B]].
    + intros [I|[-> [<- |B]]]; [left; right; exact I|left; left; reflexivity|right; split; [reflexivity|exact B]].
Qed.
Lemma begins_iff m : is_empty_mmp m = false <-> begins m.
Proof.
  unfold is_empty_mmp, begins. destruct m as [|j rest]; [split; [discriminate|intros (j & r & t & ts & E & _); discriminate]|]. destruct (jt_trajs j) as [|t ts] eqn:J.
  - split; [discriminate|]. intros (j' & r & t & ts & E & T). injection E as <- <-. congruence.
  - split; [|reflexivity]. intros _. exists j, rest, t, ts. split; [reflexivity|exact J].
Qed.
Lemma all_keys g c ids s ms : forall r r', all_metrics g c ids s ms r = Ok r' -> forall t st, In (t, st) (map fst r') <->
  In (t, st) (map fst r) \/ (In st (map m_step (step_cfgs c)) /\ exists a m b j rest, ms = a ++ m :: b /\ begins m /\ (forall x, In x a -> begins x) /\ m = j :: rest /\ object_type ids (jt_trajs j) = Ok t).
Proof.
  induction ms as [|m ms IH]; intros r r' E t st; cbn [all_metrics] in E.
  - injection E as <-. split; [auto|]. intros [I|(_ & a & m & b & j & rest & X & _)]; [exact I|]. destruct a; discriminate.
  - destruct (is_empty_mmp m) eqn:Em.
    + injection E as <-. split; [auto|]. intros [I|(_ & a & m' & b & j & rest & X & B & A & _)]; [exact I|]. exfalso. assert (B' : begins m).
      { destruct a as [|x a]; cbn [app] in X; injection X as -> _; [exact B|apply A; left; reflexivity]. }
      apply begins_iff in B'. congruence.
    + destruct (prediction_stats g c ids s m r) as [r1|] eqn:P; cbn [bind] in E; [|discriminate]. apply begins_iff in Em. destruct Em as (j & rest & tj & ts & -> & J).
      destruct (prediction_keys _ _ _ _ _ _ _ _ P) as (ty & O & K). rewrite (IH _ _ E), K. cbn [fst snd]. split.
      * intros [[I|[-> I]]|(I & a & m & b & j' & rest' & -> & B & A & X & O')]; [left; exact I| |].
        -- right. split; [exact I|]. exists [], (j :: rest), ms, j, rest. split; [reflexivity|]. split; [exists j, rest, tj, ts; auto|]. split; [intros x []|]. split; [reflexivity|exact O].
        -- right. split; [exact I|]. exists ((j :: rest) :: a), m, b, j', rest'. split; [reflexivity|]. split; [exact B|]. split; [|split; assumption].
           intros x [<- |Ix]; [exists j, rest, tj, ts; auto|apply A; exact Ix].
      * intros [I|(I & a & m & b & j' & rest' & X & B & A & Em & O')]; [left; left; exact I|]. destruct a as [|y a]; cbn [app] in X.
        -- injection X as Xm Xb. left. right. split; [|exact I]. rewrite <- Xm in Em. injection Em as <- <-. congruence.
        -- injection X as <- ->. right. split; [exact I|]. exists a, m, b, j', rest'. split; [reflexivity|]. split; [exact B|]. split; [intros x Ix; apply A; right; exact Ix|]. split; assumption.
Qed.

Lemma idmap_from s : forall l m0 m, foldM (fun m i => if (i >=? Z.of_nat (List.length (sc_tracks s))) || (i <? 0) then Err ValueError else
    do t <- at_ (sc_tracks s) i; Ok ((tr_id t, t) :: m)) l m0 = Ok m -> forall id tr, get_track id m = Ok tr <->
  (exists a i b, l = a ++ i :: b /\ 0 <= i /\ nth_error (sc_tracks s) (Z.to_nat i) = Some tr /\ tr_id tr = id /\
    forall i' tr', In i' b -> 0 <= i' -> nth_error (sc_tracks s) (Z.to_nat i') = Some tr' -> tr_id tr' <> id) \/
  (get_track id m0 = Ok tr /\ forall i' tr', In i' l -> 0 <= i' -> nth_error (sc_tracks s) (Z.to_nat i') = Some tr' -> tr_id tr' <> id).
Proof.
  induction l as [|i l IH]; intros m0 m E id tr; cbn [foldM] in E.
  - injection E as <-. split; [intros H; right; split; [exact H|intros ? ? []]|]. intros [(a & i & b & X & _)|[H _]]; [destruct a; discriminate|exact H].
  - destruct ((i >=? _) || (i <? 0)) eqn:C; cbn [bind] in E; [discriminate|]. apply orb_false_iff in C. destruct C as [_ C]. unfold at_ in E. rewrite C in E. apply Z.ltb_ge in C.
    destruct (nth_error (sc_tracks s) (Z.to_nat i)) as [t|] eqn:N; cbn [bind] in E; [|discriminate]. rewrite (IH _ _ E id tr). clear IH. split.
    + intros [(a & j & b & -> & R)|[H L]]; [left; exists (i :: a), j, b; split; [reflexivity|exact R]|]. unfold get_track in H |- *. cbn [find fst] in H. destruct (Z.eqb_spec (tr_id t) id) as [Q|Q].
      * injection H as <-. left. exists [], i, l. split; [reflexivity|]. split; [exact C|]. split; [exact N|]. split; [exact Q|exact L].
      * right. split; [exact H|]. intros i' tr' [<- |I]; [intros _ X; congruence|apply L; exact I].
    + intros [(a & j & b & X & R)|[H L]].
      * destruct a as [|y a]; cbn [app] in X; injection X as -> ->; [|left; exists a, j, b; split; [reflexivity|exact R]]. right. destruct R as (_ & N' & Q & L). rewrite N' in N. injection N as ->.
        split; [|exact L]. unfold get_track. cbn [find fst]. rewrite Q, Z.eqb_refl. reflexivity.
      * right. split; [|intros i' tr' I; apply L; right; exact I]. unfold get_track in H |- *. cbn [find fst]. destruct (Z.eqb_spec (tr_id t) id) as [Q|Q]; [|exact H].
        exfalso. exact (L i t (or_introl eq_refl) C N Q).
Qed.
Lemma idmap_spec s m : build_idmap s = Ok m -> forall id tr, get_track id m = Ok tr <-> object_track s id tr.
Proof.
  intros E id tr. pose proof (idmap_from s _ _ _ E id tr) as H. rewrite H. unfold object_track. split; [intros [X|[X _]]; [exact X|discriminate]|auto].
Qed.
Lemma priority_spec t a : type_priority t = Some a <-> 0 <= t <= 4 /\ a = importance t.
Proof.
  unfold type_priority, importance. destruct (Z.eqb_spec t 0) as [-> |]; [split; [intros [= <-]; split; [lia|reflexivity]|intros [_ ->]; reflexivity]|].
  destruct (Z.eqb_spec t 4) as [-> |]; [split; [intros [= <-]; split; [lia|reflexivity]|intros [_ ->]; reflexivity]|].
  destruct (Z.eqb_spec t 1) as [-> |]; [split; [intros [= <-]; split; [lia|reflexivity]|intros [_ ->]; reflexivity]|].
  destruct (Z.eqb_spec t 2) as [-> |]; [split; [intros [= <-]; split; [lia|reflexivity]|intros [_ ->]; reflexivity]|].
  destruct (Z.eqb_spec t 3) as [-> |]; [split; [intros [= <-]; split; [lia|reflexivity]|intros [_ ->]; reflexivity]|]. split; [discriminate|]. intros [? _]. lia.
Qed.
Lemma importance_inj a b : 0 <= a <= 4 -> 0 <= b <= 4 -> importance a = importance b -> a = b.
Proof. unfold importance. intros A B. destruct (Z.eqb_spec a 4), (Z.eqb_spec b 4), (Z.eqb_spec a 0), (Z.eqb_spec b 0); lia. Qed.
Lemma object_from ids : forall ts ty t, foldM (fun ty t =>
    do tr <- get_track (tj_id t) ids;
    match type_priority (tr_type tr), type_priority ty with
    | Some a, Some b => Ok (if b <? a then tr_type tr else ty)
    | _, _ => Err ValueError
    end) ts ty = Ok t -> 0 <= ty <= 4 -> 0 <= t <= 4 /\ importance ty <= importance t /\
  (t = ty \/ exists tj tr, In tj ts /\ get_track (tj_id tj) ids = Ok tr /\ tr_type tr = t) /\
  (forall tj, In tj ts -> exists tr, get_track (tj_id tj) ids = Ok tr /\ 0 <= tr_type tr <= 4 /\ importance (tr_type tr) <= importance t).
Proof.
  induction ts as [|tj ts IH]; intros ty t E B; cbn [foldM] in E.
  - injection E as <-. split; [exact B|]. split; [lia|]. split; [left; reflexivity|intros ? []].
  - destruct (get_track (tj_id tj) ids) as [tr|] eqn:G; cbn [bind] in E; [|discriminate]. destruct (type_priority (tr_type tr)) as [a|] eqn:P; [|discriminate].
    destruct (type_priority ty) as [b|] eqn:Q; [|discriminate]. cbn [bind] in E. apply priority_spec in P, Q. destruct P as [P ->], Q as [_ ->].
    destruct (Z.ltb_spec (importance ty) (importance (tr_type tr))) as [L|L].
    + destruct (IH _ _ E P) as (H1 & H2 & H3 & H4). split; [exact H1|]. split; [lia|]. split.
      * right. destruct H3 as [-> |(tj' & tr' & I & R)]; [exists tj, tr; split; [left; reflexivity|auto]|exists tj', tr'; split; [right; exact I|exact R]].
      * intros x [<- |I]; [exists tr; split; [exact G|split; [exact P|exact H2]]|apply H4; exact I].
    + destruct (IH _ _ E B) as (H1 & H2 & H3 & H4). split; [exact H1|]. split; [exact H2|]. split.
      * destruct H3 as [H3|(tj' & tr' & I & R)]; [left; exact H3|right; exists tj', tr'; split; [right; exact I|exact R]].
      * intros x [<- |I]; [exists tr; split; [exact G|split; [exact P|lia]]|apply H4; exact I].
Qed.
Lemma object_main s ids ts t : build_idmap s = Ok ids -> ts <> [] -> object_type ids ts = Ok t -> forall t', main_type s ts t' <-> t' = t.
Proof.
  intros I N E t'. pose proof (idmap_spec s ids I) as K. unfold object_type in E. destruct (object_from ids ts 0 t E ltac:(lia)) as (H1 & H2 & H3 & H4).
  assert (W : exists tj tr, In tj ts /\ get_track (tj_id tj) ids = Ok tr /\ tr_type tr = t).
  { destruct H3 as [-> |W]; [|exact W]. destruct ts as [|tj ts]; [contradiction|]. destruct (H4 tj (or_introl eq_refl)) as (tr & G & B & L). exists tj, tr. split; [left; reflexivity|]. split; [exact G|].
    revert L. unfold importance. destruct (Z.eqb_spec (tr_type tr) 4); [change (if 0 =? 4 then 1 else if 0 =? 0 then 0 else 0 + 1) with 0; lia|]. destruct (Z.eqb_spec (tr_type tr) 0); [lia|].
    change (if 0 =? 4 then 1 else if 0 =? 0 then 0 else 0 + 1) with 0. lia. }
  assert (M : main_type s ts t).
  { split; [destruct W as (tj & tr & X & Y & Z0); exists tj, tr; split; [exact X|]; split; [apply K; exact Y|exact Z0]|]. intros tj tr X Y. apply K in Y. destruct (H4 tj X) as (tr' & G & R). rewrite G in Y. injection Y as <-. exact R. }
  split; [|intros ->; exact M]. intros [(tj & tr & X & Y & Z0) U]. destruct M as [_ V]. destruct (V tj tr X Y) as [V1 V2]. rewrite Z0 in V1, V2.
  destruct W as (tj' & tr' & X' & Y' & Z'). apply K in Y'. destruct (U tj' tr' X' Y') as [U1 U2]. rewrite Z' in U1, U2. apply importance_inj; [exact V1|exact U1|lia].
Qed.
Lemma compute_keys g c p s st : compute_stats g c p s = Ok st -> forall t n, In (t, n) (map fst st) <->
  In n (map m_step (step_cfgs c)) /\ exists m j rest, counted p m /\ m = j :: rest /\ main_type s (jt_trajs j) t.
Proof.
  unfold compute_stats. intros E t n. destruct (validate_config c) as [[]|]; cbn [bind] in E; [|discriminate]. destruct (validate_predictions c p s) as [[]|]; cbn [bind] in E; [|discriminate].
  destruct (build_idmap s) as [ids|] eqn:I; cbn [bind] in E; [|discriminate]. destruct (validate_tracks c ids) as [[]|]; cbn [bind] in E; [|discriminate].
  destruct (validate_prediction_ids p ids) as [[]|]; cbn [bind] in E; [|discriminate]. rewrite (all_keys _ _ _ _ _ _ _ E). cbn [map In]. split.
  - intros [[]|(S0 & a & m & b & j & rest & X & B & A & M & O)]. split; [exact S0|]. exists m, j, rest. split; [exists a, b; auto|]. split; [exact M|].
    eapply object_main; [exact I| |exact O|reflexivity]. destruct B as (j' & r' & tj & ts & M' & J). rewrite M in M'. injection M' as <- <-. rewrite J. discriminate.
  - intros (S0 & m & j & rest & (a & b & X & B & A) & M & O). right. split; [exact S0|]. exists a, m, b, j, rest. split; [exact X|]. split; [exact B|]. split; [exact A|]. split; [exact M|].
    assert (P : exists t', object_type ids (jt_trajs j) = Ok t').
    { clear S0 O t n. revert E. rewrite X. generalize (@nil (key * mstats)) as r. clear X. revert A. induction a as [|y a IH]; intros A r E; cbn [app all_metrics] in E.
      - assert (B' := B). apply begins_iff in B'. rewrite B' in E. destruct (prediction_stats g c ids s m r) as [r1|] eqn:P; cbn [bind] in E; [|discriminate]. subst m.
        destruct (prediction_keys _ _ _ _ _ _ _ _ P) as (ty & O & _). exists ty. exact O.
      - assert (B' := A y (or_introl eq_refl)). apply begins_iff in B'. rewrite B' in E. destruct (prediction_stats g c ids s y r) as [r1|] eqn:P; cbn [bind] in E; [|discriminate].
        apply (IH (fun x Ix => A x (or_intror Ix)) r1 E). }
    destruct P as (t' & P). rewrite P. f_equal. symmetry. apply (object_main s ids (jt_trajs j) t' I); [|exact P|exact O].
    destruct B as (j' & r' & tj & ts & M' & J). rewrite M in M'. injection M' as <- <-. rewrite J. discriminate.
Qed.
Lemma accumulate_keys g c l : forall tot, accumulate g c l = Ok tot -> forall t n, In (t, n) (map fst tot) <-> In n (map m_step (step_cfgs c)) /\ measured l t.
Proof.
  unfold accumulate. intros tot E t n. assert (G : forall l r tot, foldM (fun tot ps => do st <- checked (compute_stats g c (fst ps) (snd ps)); bs_acc tot st) l r = Ok tot ->
    (In (t, n) (map fst tot) <-> In (t, n) (map fst r) \/ (In n (map m_step (step_cfgs c)) /\ measured l t))).
  { clear l tot E. induction l as [|[p s] l IH]; intros r tot E; cbn [foldM] in E.
    - injection E as <-. split; [auto|]. intros [I|[_ (p & s & m & j & rest & [] & _)]]. exact I.
    - destruct (checked (compute_stats g c (fst (p, s)) (snd (p, s)))) as [st|] eqn:C; cbn [bind] in E; [|discriminate]. apply checked_ok in C. cbn [fst snd] in C.
      destruct (bs_acc r st) as [r1|] eqn:B; cbn [bind] in E; [|discriminate]. rewrite (IH _ _ E), (bs_acc_keys _ _ _ B), (compute_keys _ _ _ _ _ C). split.
      + intros [[I|(I & m & j & rest & R)]|(I & p' & s' & m & j & rest & L & R)]; [left; exact I| |].
        * right. split; [exact I|]. exists p, s, m, j, rest. split; [left; reflexivity|exact R].
        * right. split; [exact I|]. exists p', s', m, j, rest. split; [right; exact L|exact R].
      + intros [I|(I & p' & s' & m & j & rest & [L|L] & R)]; [left; left; exact I| |].
        * injection L as <- <-. left. right. split; [exact I|]. exists m, j, rest. exact R.
        * right. split; [exact I|]. exists p', s', m, j, rest. split; [exact L|exact R]. }
  rewrite (G l [] tot E). cbn [map In]. intuition.
Qed.

(** ** The rows *)
Lemma evaluated_with l : evaluated l = map with_scenario l.
Proof. reflexivity. Qed.
Theorem rows_decided g c l : match motion_metrics g c (evaluated l) with Ok _ => exists rows, compute_rows g c l = Ok rows | Err _ => compute_rows g c l = Err CheckFailed end.
Proof.
  unfold compute_rows, motion_metrics. rewrite accumulate_total, evaluated_with. destruct (total_stats g c (map with_scenario l)); cbn [checked bind]; [eexists; reflexivity|reflexivity].
Qed.
Theorem rows_spec g c dec l rows bs : compute_rows g c l = Ok rows -> motion_metrics g c (evaluated l) = Ok bs ->
  Forall2 (fun name r => exists t s, In t [1; 2; 3] /\ In s (map m_step (step_cfgs c)) /\ name = row_name dec t s /\ right_row l bs t s r)
    (cpp_motion_names dec (map m_step (step_cfgs c))) rows.
Proof.
  unfold compute_rows. destruct (accumulate g c l) as [tot|] eqn:A; cbn [bind]; [|discriminate]. intros E F. injection E as <-.
  assert (B : bs = map to_bundle tot).
  { assert (A' := A). rewrite accumulate_total in A'. apply checked_ok in A'. unfold motion_metrics in F. rewrite evaluated_with, A' in F. cbn [bind] in F. injection F as <-. reflexivity. }
  subst bs. pose proof (accumulate_sorted _ _ _ _ A) as S0. eapply Forall2_impl'; [|apply names_rows]. intros n r (t & s & It & Is & -> & ->). exists t, s.
  split; [exact It|]. split; [exact Is|]. split; [reflexivity|]. assert (T : 1 <= t) by (cbn [In] in It; lia).
  assert (K : (exists v, entry tot t s v) <-> measured l t).
  { pose proof (accumulate_keys g c l tot A t s) as K. split.
    - intros [v V]. apply K. apply in_map_iff. exists ((t, s), v). split; [reflexivity|exact V].
    - intros M. assert (I : In (t, s) (map fst tot)) by (apply K; split; assumption). apply in_map_iff in I. destruct I as ([k v] & Ek & I). cbn [fst] in Ek. subst k. exists v. exact I. }
  destruct (row_of_entry tot t s S0 T) as [(v & V & R)|(N & R)].
  - left. split; [apply K; exists v; exact V|]. exists (to_bundle ((t, s), v)). split; [split; [apply in_map; exact V|split; reflexivity]|]. split; [|rewrite R; repeat split].
    intros b' (I & X & Y). apply in_map_iff in I. destruct I as ([[t' s'] w] & <- & W). cbn [to_bundle b_type b_step fst snd] in X, Y. subst t' s'.
    rewrite (entry_fun tot t s w v S0 W V). reflexivity.
  - right. split; [|rewrite R; repeat split]. intros M. apply K in M. destruct M as [v V]. exact (N v V).
Qed.
(** Steps do not decide whether a row is blank, the type does. *)
Theorem measured_type l t : measured l t -> 0 <= t <= 4.
Proof. intros (p & s & m & j & rest & _ & _ & _ & (tj & tr & I & O & <-) & B). exact (proj1 (B tj tr I O)). Qed.
Theorem rows_count g c l rows : compute_rows g c l = Ok rows -> List.length rows = (3 * List.length (step_cfgs c))%nat.
Proof.
  unfold compute_rows. destruct (accumulate g c l) as [tot|]; cbn [bind]; [|discriminate]. intros E. injection E as <-. unfold create_output, expected_types. cbn [map concat].
  rewrite !app_length, !map_length. cbn [List.length]. lia.
Qed.
(** ** Order *)
Lemma row_same bs bs' : Forall2 same_metrics bs bs' -> forall t s, same_row (output_row bs t s) (output_row bs' t s).
Proof.
  intros F t s. assert (K : map bundle_key bs = map bundle_key bs').
  { induction F as [|a b bs bs' (A & B & _) _ IH]; [reflexivity|]. cbn [map]. rewrite IH. unfold bundle_key. rewrite A, B. reflexivity. }
  unfold output_row. rewrite !indices_find, K. assert (R : same_row no_row no_row) by (repeat split; reflexivity). destruct (find_last (t, s) (map bundle_key bs')) as [i|]; [|exact R].
  clear K. revert i. induction F as [|a b bs bs' (A & B & C & D & E & H & M & _) _ IH]; intros [|i]; cbn [nth_error]; try exact R; [|apply IH].
  split; [exact C|]. split; [exact D|]. split; [exact E|]. split; [exact H|exact M].
Qed.
Theorem rows_order g c l l' : Permutation l l' ->
  match compute_rows g c l, compute_rows g c l' with
  | Ok r, Ok r' => Forall2 same_row r r'
  | Err e, Err e' => e = e'
  | _, _ => False
  end.
Proof.
  intros P. pose proof (motion_metrics_perm g c _ _ (Permutation_map with_scenario P)) as H. unfold compute_rows. rewrite !accumulate_total. unfold motion_metrics in H.
  destruct (total_stats g c (map with_scenario l)) as [t|], (total_stats g c (map with_scenario l')) as [t'|]; cbn [checked bind] in H |- *; try contradiction; [|reflexivity].
  unfold create_output. generalize expected_types as ts. intros ts. induction ts as [|ty ts IH]; cbn [map concat]; [constructor|]. apply Forall2_app; [|exact IH].
  generalize (map m_step (step_cfgs c)) as ss. intros ss. induction ss as [|s ss IHs]; cbn [map]; constructor; [apply row_same; exact H|exact IHs].
Qed.

Theorem op_order g c inp tr tr' : (forall x, Permutation x (tr x)) -> (forall x, Permutation x (tr' x)) ->
  match motion_op g c tr inp, motion_op g c tr' inp with
  | Ok r, Ok r' => Forall2 same_row r r'
  | Err e, Err e' => e = e'
  | _, _ => False
  end.
Proof.
  intros T T'. unfold motion_op. destruct (ParseModel.parse_motion inp) as [x|]; cbn [bind]; [|reflexivity].
  apply rows_order. unfold pairs. apply Permutation_map. transitivity x; [symmetry; apply T|apply T'].
Qed.
Lemma Forall2_map {A B} (R : A -> B -> Prop) (f : A -> B) l : (forall a, R a (f a)) -> Forall2 R l (map f l).
Proof. intros H. induction l; cbn [map]; constructor; auto. Qed.
Theorem op_reads x : Forall2 (fun e ps => reads_predictions (snd (snd e)) (fst ps) /\ reads_scenario (fst (snd e)) (snd ps)) x (pairs x).
Proof.
  apply Forall2_map. intros [k [sc pr]]. cbn [fst snd]. split.
  - split; [reflexivity|]. apply Forall2_map. intros gr. apply Forall2_map. intros j. split; [reflexivity|]. apply Forall2_map. intros t. repeat split.
  - split; [reflexivity|]. split; [|apply Forall2_map; reflexivity]. apply Forall2_map. intros t. split; [reflexivity|]. split; [reflexivity|]. apply Forall2_map. intros st. repeat split.
Qed.
Theorem op_rows g c tr inp : match ParseModel.parse_motion inp with
  | Ok x => motion_op g c tr inp = compute_rows g c (pairs (tr x))
  | Err e => motion_op g c tr inp = Err e
  end.
Proof. unfold motion_op. destruct (ParseModel.parse_motion inp); reflexivity. Qed.

(** ** Defects *)
From Verif Require Import MotionExamples.
(** Two configurations of the same step: a strict one, that misses, and a loose one, that does not. *)
Definition two_steps (lat lat' : Q) : mcfg :=
  {| tsps := 2; psps := 1; hist := 1; fut := 4; spd_lo := 1; spd_hi := 2; scl_lo := 1; scl_hi := 1;
     step_cfgs := [{| m_step := 1; lat_thr := lat; lon_thr := 1 |}; {| m_step := 1; lat_thr := lat'; lon_thr := 1 |}]; max_preds := 6 |}.
Definition one_step (lat : Q) : mcfg :=
  {| tsps := 2; psps := 1; hist := 1; fut := 4; spd_lo := 1; spd_hi := 2; scl_lo := 1; scl_hi := 1;
     step_cfgs := [{| m_step := 1; lat_thr := lat; lon_thr := 1 |}]; max_preds := 6 |}.
Definition miss_preds : preds := {| pr_id := "s"; pr_mms := [[ex_joint 7 1 3]] |}.
Definition miss_of (rows : result (list row)) (i : nat) : option Q :=
  match rows with Ok l => option_map out_miss_rate (nth_error l i) | Err _ => None end.
Definition same_opt (a : option Q) (b : Q) : Prop := match a with Some x => (x == b)%Q | None => False end.
Theorem merged_refuted : exists c c1 c2 l, step_cfgs c = step_cfgs c1 ++ step_cfgs c2 /\
  same_opt (miss_of (compute_rows ex_geom c1 l) 0) 1 /\ same_opt (miss_of (compute_rows ex_geom c2 l) 0) 0 /\
  same_opt (miss_of (compute_rows ex_geom c l) 0) (1 # 2) /\ same_opt (miss_of (compute_rows ex_geom c l) 1) (1 # 2).
Proof.
  exists (two_steps 1 5), (one_step 1), (one_step 5), [(miss_preds, ex_scenario)]. split; [reflexivity|]. vm_compute. auto.
Qed.
(** The object is never valid after the current step, so that there is nothing to measure. *)
Definition gone (x : Q) : state :=
  {| st_x := x; st_y := 0; st_heading := 0; st_vx := 1; st_vy := 0; st_len := 4; st_wid := 2; st_valid := false |}.
Definition gone_scenario : scenario :=
  {| sc_id := "s"; sc_tracks := [{| tr_id := 7; tr_type := 1; tr_states := [ex_state 0; ex_state 1; gone 2; gone 3; gone 4; gone 5] |}]; sc_predict := [0] |}.
Theorem nothing_refuted : exists l rows r, compute_rows ex_geom (one_step 1) l = Ok rows /\ nth_error rows 0 = Some r /\
  (forall p s tr, In (p, s) l -> In tr (sc_tracks s) -> forall i st, (2 <= i)%nat -> nth_error (tr_states tr) i = Some st -> st_valid st = false) /\
  (min_ade r == 0)%Q /\ (min_fde r == 0)%Q /\ (out_miss_rate r == 0)%Q.
Proof.
  exists [(miss_preds, gone_scenario)]. eexists. eexists. split; [vm_compute; reflexivity|]. split; [reflexivity|]. split; [|vm_compute; auto].
  intros p s tr [[= <- <-]|[]] [<- |[]] i st I. cbn [tr_states]. do 6 (destruct i as [|i]; [first [lia|intros [= <-]; reflexivity]|]). destruct i; discriminate.
Qed.
