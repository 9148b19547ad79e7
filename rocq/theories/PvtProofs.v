(** Proofs about the panoptic segmentation tutorial. *)
From Coq Require Import String Sorting.Sorted Lia.
From Verif Require Import Base ResultLib MonadLib ListLib PvtModel PvtSpec.
Open Scope list_scope.

(** * Tables *)
Lemma insert_key_in k l x : In x (insert_key k l) <-> x = k \/ In x l.
Proof.
  induction l as [|j l IH]; cbn [insert_key In]; [intuition auto|]. destruct (Z.ltb_spec k j); [cbn; intuition auto|]. destruct (Z.eqb_spec k j) as [->|N]; cbn [In]; [intuition auto|]. rewrite IH. intuition auto.
Qed.
Lemma insert_key_sorted k l : StronglySorted Z.lt l -> StronglySorted Z.lt (insert_key k l).
Proof.
  induction 1 as [|j l S IH F]; cbn [insert_key]; [repeat constructor|]. destruct (Z.ltb_spec k j) as [L|L].
  - constructor; [now constructor|]. constructor; [exact L|]. eapply Forall_impl; [|exact F]. cbn. lia.
  - destruct (Z.eqb_spec k j) as [->|N]; [now constructor|]. constructor; [exact IH|]. apply Forall_forall. intros x Hx. apply insert_key_in in Hx as [->|Hx]; [lia|]. rewrite Forall_forall in F. now apply F.
Qed.
Lemma group_keys_ok {V} (t : table V) : StronglySorted Z.lt (group_keys t) /\ forall k, In k (group_keys t) <-> exists r, In (k, r) t.
Proof.
  unfold group_keys. induction t as [|[k r] t [I1 I2]]; cbn [fold_right fst].
  - split; [constructor|]. intros k. split; [intros []|intros (r & [])].
  - split; [now apply insert_key_sorted|]. intros x. rewrite insert_key_in, I2. split.
    + intros [->|(s & H)]; [exists r; now left|exists s; now right].
    + intros (s & [H|H]); [injection H as <- _; now left|right; now exists s].
Qed.
Lemma keys_unique (l l' : list Z) : StronglySorted Z.lt l -> StronglySorted Z.lt l' -> (forall p, In p l <-> In p l') -> l = l'.
Proof.
  revert l'. induction l as [|a l IH]; intros [|b l'] H H' E; [reflexivity|destruct (proj2 (E b) (or_introl eq_refl))|destruct (proj1 (E a) (or_introl eq_refl))|].
  inversion H as [|a' l1 S F]; subst. inversion H' as [|b' l2 S' F']; subst. rewrite Forall_forall in F, F'.
  assert (a = b).
  { destruct (proj1 (E a) (or_introl eq_refl)) as [X|X]; [now symmetry|]. destruct (proj2 (E b) (or_introl eq_refl)) as [Y|Y]; [exact Y|]. specialize (F b Y). specialize (F' a X). lia. }
  subst b. f_equal. apply IH; [exact S|exact S'|]. intros p. split; intros Hp.
  - destruct (proj1 (E p) (or_intror Hp)) as [X|X]; [|exact X]. specialize (F p Hp). lia.
  - destruct (proj2 (E p) (or_intror Hp)) as [X|X]; [|exact X]. specialize (F' p Hp). lia.
Qed.
Lemma zip_columns {V} (rows : list (list V)) : forall n s, (forall r, In r rows -> (s + S n <= List.length r)%nat) ->
  zip_star (columns s (S n) rows) = map (fun r => firstn (S n) (skipn s r)) rows.
Proof.
  assert (E : forall s (r : list V), (s < List.length r)%nat -> exists v, nth_error r s = Some v /\ skipn s r = v :: skipn (s + 1) r).
  { induction s as [|s IH]; intros [|v r] H; cbn [List.length] in H; try lia; [exists v; auto|]. destruct (IH r ltac:(lia)) as (w & H1 & H2). exists w. split; [exact H1|exact H2]. }
  induction n as [|n IH]; intros s H.
  - cbn [columns zip_star]. induction rows as [|r rows IHr]; [reflexivity|]. cbn [flat_map map]. destruct (E s r) as (v & H1 & H2); [specialize (H r (or_introl eq_refl)); lia|].
    rewrite H1, H2. cbn [app map firstn]. f_equal. apply IHr. intros x Hx. apply H. now right.
  - cbn [columns]. change (zip_star (?a :: ?b :: ?l)) with (zip_cons a (zip_star (b :: l))). 
    assert (I : zip_star (columns (s + 1) (S n) rows) = map (fun r => firstn (S n) (skipn (s + 1) r)) rows) by (apply IH; intros r Hr; specialize (H r Hr); lia).
    cbn [columns] in I. rewrite I. clear I IH. induction rows as [|r rows IHr]; [reflexivity|]. cbn [flat_map map]. destruct (E s r) as (v & H1 & H2); [specialize (H r (or_introl eq_refl)); lia|].
    rewrite H1, H2. cbn [app zip_cons]. change (firstn (S (S n)) (v :: ?l)) with (v :: firstn (S n) l). f_equal. apply IHr. intros x Hx. apply H. now right.
Qed.
Lemma read_exact {V} n (t : table V) out : (0 < n)%nat -> (forall k r, In (k, r) t -> List.length r = n) -> read_labels n t = Ok out <->
  exists keys, StronglySorted Z.lt keys /\ (forall k, In k keys <-> exists r, In (k, r) t) /\
    out = map (fun k => map snd (filter (fun r => (fst r =? k)%Z) t)) (firstn 3 keys).
Proof.
  intros N H. destruct n as [|n]; [lia|].
  assert (U : forall k, ungroup_row (columns 0 (S n) (group_rows t k)) = Ok (group_rows t k)).
  { intros k. assert (L : forall r, In r (group_rows t k) -> List.length r = S n).
    { intros r Hr. unfold group_rows in Hr. apply in_map_iff in Hr as ([j r'] & <- & Hr). apply filter_In in Hr as [Hr _]. now apply (H j). }
    unfold ungroup_row. cbn [columns]. change (flat_map ?f ?l :: columns (0 + 1) n ?r) with (columns 0 (S n) r). rewrite zip_columns by (intros r Hr; rewrite (L r Hr); lia). f_equal.
    rewrite <- (map_id (group_rows t k)) at 2. apply map_ext_in. intros r Hr. cbn [skipn]. apply firstn_all2. rewrite (L r Hr). lia. }
  assert (R : read_labels (S n) t = Ok (map (group_rows t) (firstn 3 (group_keys t)))).
  { unfold read_labels. induction (firstn 3 (group_keys t)) as [|k l IH]; [reflexivity|]. cbn [mapM]. rewrite U. cbn [bind]. rewrite IH. reflexivity. }
  rewrite R. destruct (group_keys_ok t) as [G1 G2]. split.
  - intros E. apply Ok_inj in E. exists (group_keys t). split; [exact G1|]. split; [exact G2|]. now symmetry.
  - intros (keys & K1 & K2 & ->). f_equal. assert (E : keys = group_keys t); [|now rewrite E]. apply keys_unique; [exact K1|exact G1|]. intros k. now rewrite K2, G2.
Qed.

(** * Cameras *)
Lemma dict_none {A} (l : list (Z * A)) name : dict_get l name = None <-> forall m, In m l -> fst m <> name.
Proof.
  induction l as [|[n a] l IH]; cbn [dict_get]; [split; [intros _ m []|reflexivity]|]. destruct (dict_get l name) as [b|].
  - split; [discriminate|]. intros H. assert (X : Some b = None) by (apply IH; intros m Hm; apply H; now right). discriminate.
  - destruct (Z.eqb_spec n name) as [E|E].
    + split; [discriminate|]. intros H. destruct (H (n, a) (or_introl eq_refl) E).
    + split; [|reflexivity]. intros _ m [<-|Hm]; [exact E|]. now apply IH.
Qed.
Lemma dict_some {A} (l : list (Z * A)) name a : dict_get l name = Some a <-> last_image l name a.
Proof.
  unfold last_image. revert a. induction l as [|[n b] l IH]; intros a; cbn [dict_get]; [split; [discriminate|]; intros ([|i] & H & _); discriminate|].
  destruct (dict_get l name) as [c|] eqn:E.
  - rewrite IH. split.
    + intros (i & H1 & H2). exists (S i). split; [exact H1|]. intros [|j] m Hj Hm; [lia|]. apply (H2 j m); [lia|exact Hm].
    + intros ([|i] & H1 & H2).
      * exfalso. destruct (proj1 (IH c) eq_refl) as (i & Hi & _). apply (H2 (S i) (name, c)); [lia|exact Hi|reflexivity].
      * exists i. split; [exact H1|]. intros j m Hj Hm. apply (H2 (S j) m); [lia|exact Hm].
  - assert (N : forall m, In m l -> fst m <> name) by (now apply dict_none). destruct (Z.eqb_spec n name) as [En|En].
    + split.
      * intros H. injection H as <-. exists O. subst n. split; [reflexivity|]. intros [|j] m Hj Hm; [lia|]. cbn [nth_error] in Hm. apply N. now apply nth_error_In in Hm.
      * intros ([|i] & H1 & _); [cbn in H1; injection H1 as _ <-; reflexivity|]. cbn in H1. apply nth_error_In in H1. destruct (N _ H1 eq_refl).
    + split; [discriminate|]. intros ([|i] & H1 & _); [cbn in H1; congruence|]. cbn in H1. apply nth_error_In in H1. destruct (N _ H1 eq_refl).
Qed.
Lemma order_exact {A} (l : list (Z * A)) out : in_order l = Ok out <-> Forall2 (last_image l) left_to_right out.
Proof.
  unfold in_order. change left_to_right with camera_left_to_right_order. revert out. induction camera_left_to_right_order as [|c cs IH]; intros out; cbn [mapM].
  - split; [intros H; apply Ok_inj in H; subst; constructor|intros H; now inversion H].
  - split.
    + intros H. apply bind_inv in H as (a & Ha & H). apply bind_inv in H as (r & Hr & H). apply Ok_inj in H. subst out. destruct (dict_get l c) as [a'|] eqn:E; [|discriminate]. apply Ok_inj in Ha. subst a'.
      constructor; [now apply dict_some|now apply IH].
    + intros H. inversion H as [|c' a cs' r Ha Hr]; subst. apply dict_some in Ha. rewrite Ha. cbn [bind]. apply IH in Hr. rewrite Hr. reflexivity.
Qed.
Lemma order_accepts {A} (l : list (Z * A)) : (exists out, in_order l = Ok out) <-> forall c, (1 <= c <= 5)%Z -> exists a, In (c, a) l.
Proof.
  assert (D : forall c, (exists a, In (c, a) l) <-> exists a, last_image l c a).
  { intros c. split.
    - intros (a & H). destruct (dict_get l c) as [b|] eqn:E; [exists b; now apply dict_some|]. destruct (proj1 (dict_none l c) E _ H eq_refl).
    - intros (a & i & H & _). exists a. now apply nth_error_In in H. }
  split.
  - intros (out & H) c Hc. apply D. apply order_exact in H. assert (M : In c left_to_right) by (cbn; lia). clear Hc D. induction H as [|c' a cs r Ha _ IH]; [destruct M|]. destruct M as [<-|M]; [now exists a|now apply IH].
  - intros H. enough (G : forall cs, (forall c, In c cs -> (1 <= c <= 5)%Z) -> exists out, Forall2 (last_image l) cs out).
    { destruct (G left_to_right) as (out & Ho); [cbn; intros c Hc; lia|]. exists out. now apply order_exact. }
    induction cs as [|c cs IH]; intros Hc; [exists []; constructor|]. destruct IH as (out & Ho); [intros x Hx; apply Hc; now right|]. destruct (proj1 (D c) (H c (Hc c (or_introl eq_refl)))) as (a & Ha).
    exists (a :: out). now constructor.
Qed.
Lemma front_is_left {A} (frames : list (list (Z * A))) a : label_front frames = Ok a -> exists f fs, frames = f :: fs /\ last_image f 2 a.
Proof.
  unfold label_front. intros H. apply bind_inv in H as (ls & Hl & H). destruct frames as [|f fs]; [cbn in Hl; apply Ok_inj in Hl; subst; discriminate|]. exists f, fs. split; [reflexivity|].
  cbn [mapM] in Hl. apply bind_inv in Hl as (l & Ho & Hl). apply bind_inv in Hl as (r & _ & Hl). apply Ok_inj in Hl. subst ls. apply order_exact in Ho.
  inversion Ho as [|c1 a1 cs1 l1 H1 Ho1]; subst. inversion Ho1 as [|c2 a2 cs2 l2 H2 Ho2]; subst. cbn [nth_error FRONT] in H. apply Ok_inj in H. now subst a.
Qed.
Lemma front_refuted : exists (frames : list (list (Z * Z))) a f, nth_error frames 0 = Some f /\ label_front frames = Ok a /\ ~ last_image f 1 a.
Proof.
  exists [[(1, 10); (2, 20); (3, 30); (4, 40); (5, 50)]]%Z, 20%Z, [(1, 10); (2, 20); (3, 30); (4, 40); (5, 50)]%Z. split; [reflexivity|]. split; [reflexivity|]. intros H. apply dict_some in H. discriminate.
Qed.

(** * Padding *)
Lemma pad_exact {V} (zero : V) h w rows out : pad zero h (w, rows) = Ok out <->
  (List.length rows <= h)%nat /\ List.length out = h /\ skipn (h - List.length rows) out = rows /\
  forall r row, (r < h - List.length rows)%nat -> nth_error out r = Some row -> row = repeat zero w.
Proof.
  unfold pad. cbn [fst snd]. destruct (Nat.ltb_spec h (List.length rows)) as [L|L]; [split; [discriminate|intros (C & _); lia]|]. split.
  - intros H. apply Ok_inj in H. subst out. split; [exact L|]. split; [rewrite app_length, repeat_length; lia|]. split.
    + rewrite skipn_app, repeat_length, Nat.sub_diag, skipn_all2 by (rewrite repeat_length; lia). reflexivity.
    + intros r row Hr H. rewrite nth_error_app1 in H by (rewrite repeat_length; exact Hr). apply nth_error_In, repeat_spec in H. exact H.
  - intros (_ & Ho & Hs & Hr). f_equal. rewrite <- (firstn_skipn (h - List.length rows) out), Hs. f_equal.
    assert (F : List.length (firstn (h - List.length rows) out) = (h - List.length rows)%nat) by (apply firstn_length_le; lia). rewrite <- F at 1.
    assert (A : forall row, In row (firstn (h - List.length rows) out) -> row = repeat zero w).
    { intros row Hi. apply In_nth_error in Hi as (i & Hi). assert (B : (i < h - List.length rows)%nat) by (rewrite <- F; apply nth_error_Some; congruence).
      apply (Hr i row B). rewrite <- (firstn_skipn (h - List.length rows) out), nth_error_app1 by lia. exact Hi. }
    clear -A. induction (firstn (h - List.length rows) out) as [|x l IH]; [reflexivity|]. cbn [List.length repeat]. rewrite (A x (or_introl eq_refl)). f_equal. apply IH. intros y Hy. apply A. now right.
Qed.

(** * Submission *)
Definition keep {I} (times : list Z) (f : frame I) : bool := negb ((match times with [] => false | _ => true end) && negb (existsb (Z.eqb (timestamp_micros f)) times)).
Lemma keep_iff {I} times (f : frame I) : keep times f = true <-> asked times f.
Proof.
  unfold keep, asked. destruct times as [|t ts]; [cbn; intuition auto|]. cbn [andb]. rewrite negb_involutive, existsb_exists. split.
  - intros (x & Hx & E). apply Z.eqb_eq in E. right. now rewrite E.
  - intros [C|H]; [discriminate|]. exists (timestamp_micros f). split; [exact H|apply Z.eqb_refl].
Qed.
Lemma chosen_filter {I} times (fs gs : list (frame I)) : chosen times fs gs <-> gs = filter (keep times) fs.
Proof.
  split.
  - induction 1 as [|f fs gs A _ IH|f fs gs A _ IH]; cbn [filter]; [reflexivity| |].
    + apply keep_iff in A. now rewrite A, IH.
    + destruct (keep times f) eqn:E; [apply keep_iff in E; contradiction|exact IH].
  - intros ->. induction fs as [|f fs IH]; cbn [filter]; [constructor|]. destruct (keep times f) eqn:E; [constructor; [now apply keep_iff|exact IH]|]. apply chosen_no; [|exact IH]. intros A. apply keep_iff in A. congruence.
Qed.
Fixpoint first_name {I} (frames : list (frame I)) (name : string) : string :=
  match frames with [] => name | f :: fs => first_name fs (if String.eqb name "" then context_name f else name) end.
Lemma load_spec {I} times (frames : list (frame I)) : forall acc name,
  load_shard (match times with [] => false | _ => true end) times frames acc name = (acc ++ filter (keep times) frames, first_name frames name).
Proof.
  induction frames as [|f fs IH]; intros acc name; cbn [load_shard filter first_name]; [now rewrite app_nil_r|]. cbv zeta. unfold keep at 1. destruct (_ && _); cbn [negb]; rewrite IH; [reflexivity|]. now rewrite <- app_assoc.
Qed.
Lemma first_name_set {I} (frames : list (frame I)) name : name <> ""%string -> first_name frames name = name.
Proof. intros H. induction frames as [|f fs IH]; [reflexivity|]. cbn [first_name]. destruct (String.eqb_spec name ""); [contradiction|exact IH]. Qed.
Lemma first_name_iff {I} (frames : list (frame I)) name : sequence_name frames name <-> name = first_name frames "".
Proof.
  unfold sequence_name. split.
  - intros [(-> & H)|(N & before & f & after & -> & E & H)].
    + induction frames as [|f fs IH]; [reflexivity|]. cbn [first_name String.eqb]. rewrite (H f (or_introl eq_refl)). apply IH. intros g Hg. apply H. now right.
    + induction before as [|g bs IH]; cbn [app first_name String.eqb].
      * rewrite E. symmetry. now apply first_name_set.
      * rewrite (H g (or_introl eq_refl)). apply IH. intros x Hx. apply H. now right.
  - revert name. induction frames as [|f fs IH]; intros name H; cbn [first_name String.eqb] in H.
    + left. split; [exact H|intros f []].
    + destruct (String.eqb_spec (context_name f) "") as [E|E].
      * rewrite E in H. destruct (IH name H) as [(-> & A)|(N & b & g & a & -> & B & C)].
        -- left. split; [reflexivity|]. intros g [<-|Hg]; [exact E|now apply A].
        -- right. split; [exact N|]. exists (f :: b), g, a. split; [reflexivity|]. split; [exact B|]. intros x [<-|Hx]; [exact E|now apply C].
      * rewrite first_name_set in H by exact E. subst name. right. split; [exact E|]. exists [], f, fs. split; [reflexivity|]. split; [reflexivity|]. intros g [].
Qed.
Lemma last_time {I} (l : list (Z * I)) c (t t' : Z) : last_image (map (fun p => (fst p, t)) l) c t' -> t' = t.
Proof. intros (i & H & _). rewrite nth_error_map' in H. destruct (nth_error l i); [|discriminate]. cbn in H. now injection H as _ <-. Qed.
Lemma last_unique {A} (l : list (Z * A)) c a b : last_image l c a -> last_image l c b -> a = b.
Proof. intros H1 H2. apply dict_some in H1, H2. congruence. Qed.
Lemma one_frame {I P} (infer : I -> P) name (f : frame I) is ts :
  in_order (images f) = Ok is -> in_order (map (fun p => (fst p, timestamp_micros f)) (images f)) = Ok ts ->
  List.length is = 5%nat /\ List.length ts = 5%nat /\
  entries_of infer name f (map (fun p => Entry name (snd (fst p)) (snd p) (fst (fst p))) (combine (combine (map infer is) ts) camera_left_to_right_order)).
Proof.
  intros H1 H2. apply order_exact in H1, H2. unfold left_to_right in H1, H2.
  inversion H1 as [|? i1 ? r1 A1 B1]; subst. inversion B1 as [|? i2 ? r2 A2 B2]; subst. inversion B2 as [|? i3 ? r3 A3 B3]; subst. inversion B3 as [|? i4 ? r4 A4 B4]; subst. inversion B4 as [|? i5 ? r5 A5 B5]; subst. inversion B5; subst.
  inversion H2 as [|? t1 ? s1 C1 D1]; subst. inversion D1 as [|? t2 ? s2 C2 D2]; subst. inversion D2 as [|? t3 ? s3 C3 D3]; subst. inversion D3 as [|? t4 ? s4 C4 D4]; subst. inversion D4 as [|? t5 ? s5 C5 D5]; subst. inversion D5; subst.
  apply last_time in C1, C2, C3, C4, C5. subst. split; [reflexivity|]. split; [reflexivity|]. unfold entries_of, left_to_right, camera_left_to_right_order. cbn [map combine fst snd].
  repeat (constructor; [cbn [e_camera e_time e_context e_pred]; repeat split; eauto|]). constructor.
Qed.
Lemma combine_app {A B} (a a' : list A) (b b' : list B) : List.length a = List.length b -> combine (a ++ a') (b ++ b') = combine a b ++ combine a' b'.
Proof. revert b. induction a as [|x a IH]; intros [|y b] H; cbn in *; try discriminate; [reflexivity|]. f_equal. apply IH. now injection H. Qed.
Lemma many_frames {I P} (infer : I -> P) name (fs : list (frame I)) : forall iss tss,
  mapM (fun f => in_order (images f)) fs = Ok iss -> mapM (fun f => in_order (map (fun p => (fst p, timestamp_micros f)) (images f))) fs = Ok tss ->
  exists per, Forall2 (entries_of infer name) fs per /\
    map (fun p => Entry name (snd (fst p)) (snd p) (fst (fst p))) (combine (combine (map infer (concat iss)) (concat tss)) (concat (map (fun _ => camera_left_to_right_order) fs))) = concat per.
Proof.
  induction fs as [|f fs IH]; intros iss tss H1 H2; cbn [mapM] in H1, H2.
  - apply Ok_inj in H1, H2. subst. exists []. split; [constructor|reflexivity].
  - apply bind_inv in H1 as (is & Hi & H1). apply bind_inv in H1 as (iss' & Hi' & H1). apply Ok_inj in H1. apply bind_inv in H2 as (ts & Ht & H2). apply bind_inv in H2 as (tss' & Ht' & H2). apply Ok_inj in H2. subst iss tss.
    destruct (one_frame infer name f is ts Hi Ht) as (L1 & L2 & E). destruct (IH _ _ Hi' Ht') as (per & F & Q). eexists. split; [constructor; [exact E|exact F]|]. cbn [concat map]. rewrite <- Q, map_app.
    rewrite combine_app by (rewrite map_length; congruence). rewrite combine_app; [now rewrite map_app|]. rewrite combine_length, map_length, L1, L2. reflexivity.
Qed.
Lemma entries_unique {I P} (infer : I -> P) name (f : frame I) es es' : entries_of infer name f es -> entries_of infer name f es' -> es = es'.
Proof.
  unfold entries_of. revert es es'. induction left_to_right as [|c cs IH]; intros es es' H H'; inversion H as [|? e ? r A B]; inversion H' as [|? e' ? r' A' B']; subst; [reflexivity|].
  f_equal; [|now apply IH]. destruct e, e'. cbn in *. destruct A as (-> & -> & -> & i & Li & ->). destruct A' as (-> & -> & -> & i' & Li' & ->). now rewrite (last_unique _ _ _ _ Li Li').
Qed.
Lemma submission_exact {I P} (infer : I -> P) times frames out : generate_predictions infer times frames = Ok out <->
  exists name gs per, sequence_name frames name /\ chosen times frames gs /\ Forall2 (entries_of infer name) gs per /\ out = concat per.
Proof.
  unfold generate_predictions. rewrite load_spec. cbn [app]. split.
  - intros H. apply bind_inv in H as (iss & Hi & H). apply bind_inv in H as (tss & Ht & H). cbv zeta in H. apply Ok_inj in H.
    destruct (many_frames infer (first_name frames "") _ _ _ Hi Ht) as (per & F & Q). exists (first_name frames ""), (filter (keep times) frames), per. split; [now apply first_name_iff|]. split; [now apply chosen_filter|]. split; [exact F|]. now rewrite <- H, Q.
  - intros (name & gs & per & N & C & F & ->). apply first_name_iff in N. apply chosen_filter in C. rewrite <- C, <- N. clear C N.
    assert (M : exists iss tss, mapM (fun f => in_order (images f)) gs = Ok iss /\ mapM (fun f => in_order (map (fun p => (fst p, timestamp_micros f)) (images f))) gs = Ok tss).
    { induction F as [|f es gs per Hf _ (iss & tss & I1 & I2)]; [exists [], []; auto|].
      assert (A : exists is, in_order (images f) = Ok is).
      { enough (G : exists is, Forall2 (last_image (images f)) left_to_right is) by (destruct G as (is & G); exists is; now apply order_exact). unfold entries_of in Hf. induction Hf as [|c e cs r Hc _ (is & IHc)]; [exists []; constructor|].
        destruct Hc as (_ & _ & _ & i & Hi & _). exists (i :: is). now constructor. }
      assert (B : exists ts, in_order (map (fun p => (fst p, timestamp_micros f)) (images f)) = Ok ts).
      { apply order_accepts. intros c Hc. destruct (proj1 (order_accepts (images f)) A c Hc) as (a & Ha). exists (timestamp_micros f). apply in_map_iff. exists (c, a). auto. }
      destruct A as (is & A). destruct B as (ts & B). exists (is :: iss), (ts :: tss). cbn [mapM]. rewrite A, B. cbn [bind]. rewrite I1, I2. auto. }
    destruct M as (iss & tss & M1 & M2). rewrite M1. cbn [bind]. rewrite M2. cbn [bind]. cbv zeta. destruct (many_frames infer name gs iss tss M1 M2) as (per' & F' & Q). f_equal. rewrite Q. f_equal.
    clear -F F'. revert per' F'. induction F as [|f es gs per Hf _ IH]; intros per' F'; inversion F' as [|? es' ? r Hf' F'']; subst; [reflexivity|]. f_equal; [now apply (entries_unique infer name f)|now apply IH].
Qed.
Lemma context_refuted : exists (frames : list (frame Z)) out e, generate_predictions (fun i => i) [2%Z] frames = Ok out /\ In e out /\ forall f, In f frames -> timestamp_micros f = e_time e -> context_name f <> e_context e.
Proof.
  exists [Frame "a" 1 []; Frame "b" 2 [(1, 10); (2, 20); (3, 30); (4, 40); (5, 50)]]%Z. eexists. exists (Entry "a" 2 4 40)%Z. split; [vm_compute; reflexivity|]. split; [now left|]. intros f [<-|[<-|[]]] H; cbn in *; discriminate.
Qed.
Lemma dummy_zero size r c v : (exists row, nth_error (dummy_inference size) r = Some row /\ nth_error row c = Some v) <-> (r < fst size)%nat /\ (c < snd size)%nat /\ v = 0%Z.
Proof.
  unfold dummy_inference.
  assert (R : forall A (x : A) n i, (i < n)%nat -> nth_error (repeat x n) i = Some x).
  { intros A x n. induction n as [|n IH]; intros i H; [lia|]. destruct i as [|i]; [reflexivity|]. cbn [repeat nth_error]. apply IH. lia. }
  assert (B : forall A (x : A) n i y, nth_error (repeat x n) i = Some y -> (i < n)%nat /\ y = x).
  { intros A x n i y H. split; [rewrite <- (repeat_length x n); apply nth_error_Some; congruence|]. now apply nth_error_In, repeat_spec in H. }
  split.
  - intros (row & H1 & H2). apply B in H1 as [H1 ->]. apply B in H2 as [H2 ->]. auto.
  - intros (H1 & H2 & ->). exists (repeat 0%Z (snd size)). split; now apply R.
Qed.
