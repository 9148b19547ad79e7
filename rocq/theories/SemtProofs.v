(** Proofs about the 3D semantic segmentation tutorial. *)
From Coq Require Import QArith String Sorting.Sorted Sorting.Permutation Lia Lqa.
From Verif Require Import Base ResultLib MonadLib ListLib SemtModel SemtSpec.
Open Scope list_scope.

(** * Images *)
Lemma entry_some {A} (d : per_laser A) laser l : entry d laser = Some l <->
  exists i, nth_error d i = Some (laser, l) /\ forall j m, (j < i)%nat -> nth_error d j = Some m -> fst m <> laser.
Proof.
  unfold entry. induction d as [|[n a] d IH]; cbn [find].
  - split; [discriminate|]. intros ([|i] & H & _); discriminate.
  - cbn [fst]. destruct (Z.eqb_spec n laser) as [E|E]; cbn [snd].
    + split.
      * intros H. injection H as <-. exists O. cbn. rewrite E. split; [reflexivity|]. intros j m Hj. lia.
      * intros ([|i] & H1 & H2); [cbn in H1; now injection H1 as _ <-|]. exfalso. apply (H2 O (n, a)); [lia|reflexivity|exact E].
    + rewrite IH. split.
      * intros (i & H1 & H2). exists (S i). split; [exact H1|]. intros [|j] m Hj Hm; [cbn in Hm; injection Hm as <-; exact E|]. apply (H2 j m); [lia|exact Hm].
      * intros ([|i] & H1 & H2); [cbn in H1; congruence|]. exists i. split; [exact H1|]. intros j m Hj Hm. apply (H2 (S j) m); [lia|exact Hm].
Qed.
Lemma entry_none {A} (d : per_laser A) laser : entry d laser = None <-> forall m, In m d -> fst m <> laser.
Proof.
  unfold entry. induction d as [|[n a] d IH]; cbn [find fst]; [split; [intros _ m []|reflexivity]|]. destruct (Z.eqb_spec n laser) as [E|E]; cbn [snd].
  - split; [discriminate|]. intros H. destruct (H (n, a) (or_introl eq_refl) E).
  - rewrite IH. split; [intros H m [<-|Hm]; [exact E|now apply H]|]. intros H m Hm. apply H. now right.
Qed.
Lemma image_at_iff {A} (d : per_laser A) laser k im : image_at d laser k = Ok im <-> image_of d laser k im.
Proof.
  unfold image_at, image_of. split.
  - destruct (entry d laser) as [l|] eqn:E; [|discriminate]. destruct (nth_error l k) as [a|] eqn:Ek; [|discriminate]. intros H. injection H as <-.
    exists l. split; [exact Ek|]. now apply entry_some.
  - intros (l & H1 & H2). apply entry_some in H2. now rewrite H2, H1.
Qed.
Lemma image_unique {A} (d : per_laser A) laser k im im' : image_of d laser k im -> image_of d laser k im' -> im = im'.
Proof. intros H H'. apply image_at_iff in H, H'. congruence. Qed.
Lemma pos_iff v : positive v = true <-> (0 < v)%Q.
Proof.
  unfold positive. destruct (Qle_bool v 0) eqn:E; cbn [negb].
  - apply Qle_bool_iff in E. split; [discriminate|]. intros H. lra.
  - split; [|reflexivity]. intros _. apply Qnot_le_lt. intros C. apply Qle_bool_iff in C. congruence.
Qed.
Lemma row_spec row : forall r c, StronglySorted before (where_row row r c) /\
  forall r' c', In (r', c') (where_row row r c) <-> r' = r /\ exists k v, c' = (c + k)%nat /\ nth_error row k = Some v /\ (0 < v)%Q.
Proof.
  induction row as [|v row IH]; intros r c; cbn [where_row].
  - split; [constructor|]. intros r' c'. split; [intros []|]. intros (_ & [|k] & v & _ & H & _); discriminate.
  - destruct (IH r (S c)) as [I1 I2].
    assert (T : forall r' c', In (r', c') (where_row row r (S c)) -> before (r, c) (r', c')).
    { intros r' c' H. apply I2 in H as (-> & k & w & -> & _). right. cbn. split; [reflexivity|lia]. }
    destruct (positive v) eqn:E; cbn [app].
    + apply pos_iff in E. split.
      * constructor; [exact I1|]. apply Forall_forall. intros [r' c'] H. now apply T.
      * intros r' c'. cbn [In]. rewrite I2. split.
        -- intros [H|(-> & k & w & -> & H)]; [injection H as <- <-; split; [reflexivity|]; exists O, v; split; [lia|auto]|].
           split; [reflexivity|]. exists (S k), w. split; [lia|exact H].
        -- intros (-> & [|k] & w & -> & H & P); [left; f_equal; lia|]. right. split; [reflexivity|]. exists k, w. split; [lia|auto].
    + assert (N : ~ (0 < v)%Q) by (intros C; apply pos_iff in C; congruence). split; [exact I1|]. intros r' c'. rewrite I2. split; intros (-> & k & w & -> & H & P); (split; [reflexivity|]).
      * exists (S k), w. split; [lia|auto].
      * destruct k as [|k]; [cbn in H; injection H as <-; contradiction|]. exists k, w. split; [lia|auto].
Qed.
Lemma sorted_app (l1 l2 : list (nat * nat)) : StronglySorted before l1 -> StronglySorted before l2 -> (forall p q, In p l1 -> In q l2 -> before p q) -> StronglySorted before (l1 ++ l2).
Proof.
  induction l1 as [|a l1 IH]; intros H1 H2 H; [exact H2|]. cbn [app]. inversion H1 as [|a' l' S F]; subst. constructor.
  - apply IH; [exact S|exact H2|]. intros p q Hp. apply H. now right.
  - apply Forall_app. split; [exact F|]. apply Forall_forall. intros q Hq. apply H; [now left|exact Hq].
Qed.
Lemma where_spec im : forall r, StronglySorted before (where_image im r) /\
  forall r' c, In (r', c) (where_image im r) <-> exists k v, r' = (r + k)%nat /\ at_pixel im k c v /\ (0 < v)%Q.
Proof.
  induction im as [|row im IH]; intros r; cbn [where_image].
  - split; [constructor|]. intros r' c. split; [intros []|]. intros ([|k] & v & _ & (row & H & _) & _); discriminate.
  - destruct (row_spec row r 0) as [R1 R2]. destruct (IH (S r)) as [I1 I2]. split.
    + apply sorted_app; [exact R1|exact I1|]. intros [pr pc] [qr qc] Hp Hq. apply R2 in Hp as (-> & _). apply I2 in Hq as (k & v & -> & _). left. cbn. lia.
    + intros r' c. rewrite in_app_iff, R2, I2. split.
      * intros [(-> & k & v & -> & H & P)|(k & v & -> & (row' & H1 & H2) & P)].
        -- exists O, v. split; [lia|]. split; [exists row; auto|exact P].
        -- exists (S k), v. split; [lia|]. split; [exists row'; auto|exact P].
      * intros ([|k] & v & -> & (row' & H1 & H2) & P).
        -- left. cbn in H1. injection H1 as <-. split; [lia|]. exists c, v. auto.
        -- right. exists k, v. split; [lia|]. split; [exists row'; auto|exact P].
Qed.
Lemma where_returns im : returns im (where_image im 0).
Proof.
  destruct (where_spec im 0) as [H1 H2]. split; [exact H1|]. intros r c. rewrite H2. split.
  - intros (k & v & -> & H). now exists v.
  - intros (v & H). exists r, v. auto.
Qed.
Lemma before_irrefl p : ~ before p p.
Proof. intros [H|[_ H]]; lia. Qed.
Lemma before_trans p q s : before p q -> before q s -> before p s.
Proof. unfold before. lia. Qed.
Lemma sorted_unique (l l' : list (nat * nat)) : StronglySorted before l -> StronglySorted before l' -> (forall p, In p l <-> In p l') -> l = l'.
Proof.
  revert l'. induction l as [|a l IH]; intros [|b l'] H H' E; [reflexivity|destruct (proj2 (E b) (or_introl eq_refl))|destruct (proj1 (E a) (or_introl eq_refl))|].
  inversion H as [|a' l1 S F]; subst. inversion H' as [|b' l2 S' F']; subst. rewrite Forall_forall in F, F'.
  assert (a = b).
  { destruct (proj1 (E a) (or_introl eq_refl)) as [X|X]; [now symmetry|]. destruct (proj2 (E b) (or_introl eq_refl)) as [Y|Y]; [exact Y|].
    exfalso. apply (before_irrefl a). eapply before_trans; [apply F; exact Y|]. apply F'. exact X. }
  subst b. f_equal. apply IH; [exact S|exact S'|]. intros p. split; intros Hp.
  - destruct (proj1 (E p) (or_intror Hp)) as [X|X]; [|exact X]. subst p. destruct (before_irrefl a). now apply F.
  - destruct (proj2 (E p) (or_intror Hp)) as [X|X]; [|exact X]. subst p. destruct (before_irrefl a). now apply F'.
Qed.
Lemma returns_unique im ps : returns im ps -> ps = where_image im 0.
Proof.
  intros [H1 H2]. destruct (where_returns im) as [W1 W2]. apply sorted_unique; [exact H1|exact W1|]. intros [r c]. now rewrite H2, W2.
Qed.

(** * Labels *)
Lemma pixel_iff {A} (im : image A) p a : pixel im p = Some a <-> at_pixel im (fst p) (snd p) a.
Proof.
  unfold pixel, at_pixel. split.
  - destruct (nth_error im (fst p)) as [row|]; [|discriminate]. intros H. exists row. auto.
  - intros (row & H1 & H2). now rewrite H1.
Qed.
Lemma gather_exact {A} (im : image A) ps : forall ls, gather_nd im ps = Ok ls <-> Forall2 (fun p l => at_pixel im (fst p) (snd p) l) ps ls.
Proof.
  unfold gather_nd. induction ps as [|p ps IH]; intros ls; cbn [mapM].
  - split; [intros H; injection H as <-; constructor|intros H; now inversion H].
  - split.
    + intros H. apply bind_inv in H as (a & Ha & H). apply bind_inv in H as (l & Hl & H). injection H as <-. destruct (pixel im p) as [a'|] eqn:E; [|discriminate].
      injection Ha as <-. constructor; [now apply pixel_iff|now apply IH].
    + intros H. inversion H as [|p' a ps' l Ha Hl]; subst. apply pixel_iff in Ha. rewrite Ha. cbn [bind]. apply IH in Hl. rewrite Hl. reflexivity.
Qed.
Lemma laser_exact ri seg k laser ls : laser_labels ri seg k laser = Ok ls <-> labels_of ri seg k laser ls.
Proof.
  unfold laser_labels, labels_of. split.
  - intros H. apply bind_inv in H as (im & Him & H). exists im, (where_image im 0). split; [now apply image_at_iff|]. split; [apply where_returns|]. cbv zeta in H.
    destruct (entry seg laser) as [l|] eqn:E.
    + left. apply bind_inv in H as (sl & Hsl & H). exists sl. split; [now apply image_at_iff|now apply gather_exact].
    + right. injection H as <-. split; [now apply entry_none|]. split; [apply repeat_length|]. intros l Hl. now apply repeat_spec in Hl.
  - intros (im & ps & Him & Hps & H). apply image_at_iff in Him. rewrite Him. cbn [bind]. cbv zeta. apply returns_unique in Hps. subst ps.
    destruct H as [(sl & Hsl & H)|(H1 & H2 & H3)].
    + destruct (entry seg laser) as [l|] eqn:E.
      * apply image_at_iff in Hsl. rewrite Hsl. cbn [bind]. now apply gather_exact.
      * destruct Hsl as (l & _ & i & Hi & _). apply entry_none with (m := (laser, l)) in E; [now destruct E|]. now apply nth_error_In in Hi.
    + apply entry_none in H1. rewrite H1. rewrite <- H2.
      assert (R : repeat (0, 0)%Z (List.length ls) = ls); [|now rewrite R].
      clear -H3. induction ls as [|l ls IH]; [reflexivity|]. cbn [List.length repeat].
      rewrite (H3 l (or_introl eq_refl)), IH; [reflexivity|]. intros x Hx. apply H3. now right.
Qed.
Lemma insert_perm c l : Permutation (insert c l) (c :: l).
Proof. induction l as [|d l IH]; [reflexivity|]. cbn [insert]. destruct (c <=? d)%Z; [reflexivity|]. rewrite IH. apply perm_swap. Qed.
Lemma insert_sorted c l : StronglySorted Z.le l -> StronglySorted Z.le (insert c l).
Proof.
  induction 1 as [|d l S IH F]; [repeat constructor|]. cbn [insert]. destruct (Z.leb_spec c d) as [E|E].
  - constructor; [now constructor|]. constructor; [exact E|]. eapply Forall_impl; [|exact F]. cbn. lia.
  - constructor; [exact IH|]. apply Forall_forall. intros x Hx. apply (Permutation_in _ (insert_perm c l)) in Hx as [<-|Hx]; [lia|]. rewrite Forall_forall in F. now apply F.
Qed.
Lemma sorted_names_ok l : Permutation (sorted_names l) l /\ StronglySorted Z.le (sorted_names l).
Proof.
  unfold sorted_names. induction l as [|c l [I1 I2]]; [split; constructor|]. cbn [fold_right]. split; [|now apply insert_sorted]. rewrite insert_perm. now constructor.
Qed.
Lemma sorted_perm_unique (l l' : list Z) : StronglySorted Z.le l -> StronglySorted Z.le l' -> Permutation l l' -> l = l'.
Proof.
  revert l'. induction l as [|a l IH]; intros l' H H' P; [now apply Permutation_nil in P|]. destruct l' as [|b l']; [apply Permutation_sym, Permutation_nil in P; discriminate|].
  inversion H as [|a' l1 S F]; subst. inversion H' as [|b' l2 S' F']; subst. rewrite Forall_forall in F, F'.
  assert (a = b).
  { assert (X : In a (b :: l')) by (apply (Permutation_in _ P); now left). assert (Y : In b (a :: l)) by (apply (Permutation_in _ (Permutation_sym P)); now left).
    destruct X as [X|X]; [now symmetry|]. destruct Y as [Y|Y]; [exact Y|]. specialize (F' a X). specialize (F b Y). lia. }
  subst b. f_equal. apply IH; [exact S|exact S'|]. now apply Permutation_cons_inv in P.
Qed.
Lemma labels_exact calibrations ri seg k lss : point_labels calibrations ri seg k = Ok lss <->
  exists names, Permutation names calibrations /\ StronglySorted Z.le names /\ Forall2 (labels_of ri seg k) names lss.
Proof.
  unfold point_labels.
  assert (M : forall names lss, mapM (laser_labels ri seg k) names = Ok lss <-> Forall2 (labels_of ri seg k) names lss).
  { induction names as [|n names IH]; intros l; cbn [mapM].
    - split; [intros H; injection H as <-; constructor|intros H; now inversion H].
    - split.
      + intros H. apply bind_inv in H as (a & Ha & H). apply bind_inv in H as (l' & Hl & H). injection H as <-. constructor; [now apply laser_exact|now apply IH].
      + intros H. inversion H as [|p' a ps' l' Ha Hl]; subst. apply laser_exact in Ha. rewrite Ha. cbn [bind]. apply IH in Hl. rewrite Hl. reflexivity. }
  destruct (sorted_names_ok calibrations) as [P S]. rewrite M. split.
  - intros H. exists (sorted_names calibrations). auto.
  - intros (names & P' & S' & H). assert (E : names = sorted_names calibrations); [|now rewrite <- E].
    apply sorted_perm_unique; [exact S'|exact S|]. now rewrite P', P.
Qed.

(** * Indices *)
Lemma grid_map rows cols ps : forall idx, mapM (grid_lookup rows cols) ps = Ok idx <->
  idx = map (fun p => (snd p, fst p)) ps /\ forall p, In p ps -> (fst p < rows)%nat /\ (snd p < cols)%nat.
Proof.
  assert (G : forall p q, grid_lookup rows cols p = Ok q <-> q = (snd p, fst p) /\ (fst p < rows)%nat /\ (snd p < cols)%nat).
  { intros p q. unfold grid_lookup. destruct (Nat.ltb_spec (fst p) rows) as [A|A]; destruct (Nat.ltb_spec (snd p) cols) as [B|B]; cbn [andb];
      (split; [intros H; try discriminate|intros (H1 & H2 & H3); try lia; now subst]). injection H as <-. auto. }
  induction ps as [|p ps IH]; intros idx; cbn [mapM].
  - split; [intros H; injection H as <-; split; [reflexivity|intros p []]|]. intros (-> & _). reflexivity.
  - split.
    + intros H. apply bind_inv in H as (q & Hq & H). apply bind_inv in H as (l & Hl & H). injection H as <-. apply G in Hq as (-> & B). apply IH in Hl as (-> & C).
      split; [reflexivity|]. intros p' [<-|H]; [exact B|now apply C].
    + intros (-> & B). cbn [map]. rewrite (proj2 (G p _) (conj eq_refl (B p (or_introl eq_refl)))). cbn [bind].
      rewrite (proj2 (IH (map (fun p => (snd p, fst p)) ps))); [reflexivity|]. split; [reflexivity|]. intros p' H. apply B. now right.
Qed.
Lemma index_general rows cols ri k idx : point_indexing rows cols ri k = Ok idx <-> exists im ps, image_of ri TOP k im /\ returns im ps /\
  idx = map (fun p => (snd p, fst p)) ps /\ forall p, In p ps -> (fst p < rows)%nat /\ (snd p < cols)%nat.
Proof.
  unfold point_indexing. split.
  - intros H. apply bind_inv in H as (im & Him & H). apply grid_map in H. exists im, (where_image im 0). split; [now apply image_at_iff|]. split; [apply where_returns|exact H].
  - intros (im & ps & Him & Hps & H). apply image_at_iff in Him. rewrite Him. cbn [bind]. apply returns_unique in Hps. subst ps. now apply grid_map.
Qed.
Lemma index_exact ri k idx : get_range_image_point_indexing ri k = Ok idx <-> exists im ps, image_of ri 1 k im /\ returns im ps /\
  idx = map (fun p => (snd p, fst p)) ps /\ forall p, In p ps -> (fst p < 64)%nat /\ (Z.of_nat (snd p) < 2650)%Z.
Proof.
  unfold get_range_image_point_indexing. rewrite index_general. unfold TOP, TOP_LIDAR_ROW_NUM, TOP_LIDAR_COL_NUM.
  split; intros (im & ps & H1 & H2 & H3 & H4); exists im, ps; (split; [exact H1|]; split; [exact H2|]; split; [exact H3|]); intros p Hp; specialize (H4 p Hp); lia.
Qed.
Lemma index_labels ri seg k sl idx ls : get_range_image_point_indexing ri k = Ok idx -> image_of seg 1 k sl -> laser_labels ri seg k 1 = Ok ls ->
  Forall2 (fun i l => at_pixel sl (snd i) (fst i) l) idx ls.
Proof.
  intros H1 H2 H3. apply index_general in H1 as (im & ps & Him & Hps & -> & _). apply laser_exact in H3 as (im' & ps' & Him' & Hps' & H).
  rewrite (image_unique _ _ _ _ _ Him' Him) in Hps'. apply returns_unique in Hps, Hps'. subst ps ps'.
  destruct H as [(sl' & Hsl & H)|(H & _)].
  - rewrite (image_unique _ _ _ _ _ Hsl H2) in H. clear -H. induction H as [|p l ps ls H1 H IH]; constructor; [exact H1|exact IH].
  - destruct H2 as (l & _ & i & Hi & _). apply nth_error_In in Hi. now destruct (H _ Hi).
Qed.

(** * The dummy submission *)
Lemma seq_nth_error n i : (i < n)%nat -> nth_error (seq 0 n) i = Some i.
Proof.
  intros H. rewrite (nth_error_nth' _ 0%nat) by (now rewrite seq_length). now rewrite seq_nth.
Qed.
Lemma assign_at rows cols idx cls r c : (r < rows)%nat -> (c < cols)%nat -> at_pixel (assign rows cols idx cls) r c (0%Z, if hit idx r c then cls else 0%Z).
Proof.
  intros Hr Hc. unfold assign. eexists. rewrite nth_error_map', (seq_nth_error rows r Hr). split; [reflexivity|]. rewrite nth_error_map', (seq_nth_error cols c Hc). reflexivity.
Qed.
Lemma assign_shape rows cols idx cls : List.length (assign rows cols idx cls) = rows /\ forall row, In row (assign rows cols idx cls) -> List.length row = cols.
Proof.
  unfold assign. rewrite map_length, seq_length. split; [reflexivity|]. intros row H. apply in_map_iff in H as (r & <- & _). now rewrite map_length, seq_length.
Qed.
Lemma hit_iff ps r c : hit (map (fun p => (snd p, fst p)) ps) r c = true <-> In (r, c) ps.
Proof.
  unfold hit. rewrite existsb_exists. split.
  - intros ([a b] & H1 & H2). apply in_map_iff in H1 as ([r' c'] & H1 & H3). injection H1 as <- <-. cbn in H2. apply andb_true_iff in H2 as [A B]. apply Nat.eqb_eq in A, B. now subst.
  - intros H. exists (c, r). split; [apply in_map_iff; exists (r, c); auto|]. cbn. now rewrite !Nat.eqb_refl.
Qed.
Definition dummy_of (rows cols : nat) (im : image Q) (cls : Z) (out : image label) : Prop :=
  List.length out = rows /\ (forall row, In row out -> List.length row = cols) /\
  forall r c, (r < rows)%nat -> (c < cols)%nat ->
    ((exists v, at_pixel im r c v /\ (0 < v)%Q) -> at_pixel out r c (0, cls)%Z) /\ (~ (exists v, at_pixel im r c v /\ (0 < v)%Q) -> at_pixel out r c (0, 0)%Z).
Lemma dummy_one rows cols ri k idx cls : point_indexing rows cols ri k = Ok idx -> exists im, image_of ri TOP k im /\ dummy_of rows cols im cls (assign rows cols idx cls).
Proof.
  intros H. apply index_general in H as (im & ps & Him & [_ Hps] & -> & _). exists im. split; [exact Him|]. destruct (assign_shape rows cols (map (fun p => (snd p, fst p)) ps) cls) as [S1 S2].
  split; [exact S1|]. split; [exact S2|]. intros r c Hr Hc. pose proof (assign_at rows cols (map (fun p => (snd p, fst p)) ps) cls r c Hr Hc) as A.
  rewrite <- Hps, <- hit_iff. destruct (hit _ r c); split; intros H; try exact A; [now destruct H|discriminate].
Qed.
Lemma dummy_exact ri cls a b : dummy_semseg_for_one_frame ri cls = Ok (a, b) ->
  forall k out, (k = 0%nat /\ out = a) \/ (k = 1%nat /\ out = b) -> exists im, image_of ri 1 k im /\
    List.length out = 64%nat /\ (forall row, In row out -> Z.of_nat (List.length row) = 2650%Z) /\
    forall r c, (r < 64)%nat -> (Z.of_nat c < 2650)%Z ->
      ((exists v, at_pixel im r c v /\ (0 < v)%Q) -> at_pixel out r c (0, cls)%Z) /\ (~ (exists v, at_pixel im r c v /\ (0 < v)%Q) -> at_pixel out r c (0, 0)%Z).
Proof.
  intros H k out Hk. unfold dummy_semseg_for_one_frame, dummy_images in H. apply bind_inv in H as (i1 & H1 & H). apply bind_inv in H as (i2 & H2 & H).
  apply Ok_inj in H. apply pair_equal_spec in H as [Ha Hb].
  assert (G : exists im, image_of ri TOP k im /\ dummy_of TOP_LIDAR_ROW_NUM TOP_LIDAR_COL_NUM im cls out).
  { destruct Hk as [[-> ->]|[-> ->]]; [rewrite <- Ha; now apply (dummy_one _ _ ri 0)|rewrite <- Hb; now apply (dummy_one _ _ ri 1)]. }
  clear -G. destruct G as (im & G1 & G2 & G3 & G4). exists im. unfold TOP, TOP_LIDAR_ROW_NUM, TOP_LIDAR_COL_NUM in *. split; [exact G1|]. split; [exact G2|].
  split; [intros row Hr; rewrite (G3 row Hr); now rewrite Z2Nat.id|]. intros r c Hr Hc. apply G4; [exact Hr|lia].
Qed.
Lemma dummy_accepts ri cls : (exists a b, dummy_semseg_for_one_frame ri cls = Ok (a, b)) <->
  forall k, (k < 2)%nat -> exists im, image_of ri 1 k im /\ forall r c v, at_pixel im r c v -> (0 < v)%Q -> (r < 64)%nat /\ (Z.of_nat c < 2650)%Z.
Proof.
  assert (G : forall k, (exists idx, point_indexing TOP_LIDAR_ROW_NUM TOP_LIDAR_COL_NUM ri k = Ok idx) <->
                exists im, image_of ri 1 k im /\ forall r c v, at_pixel im r c v -> (0 < v)%Q -> (r < 64)%nat /\ (Z.of_nat c < 2650)%Z).
  { intros k. change (point_indexing TOP_LIDAR_ROW_NUM TOP_LIDAR_COL_NUM ri k) with (get_range_image_point_indexing ri k). split.
    - intros (idx & H). apply index_exact in H as (im & ps & Him & [_ Hps] & _ & H). exists im. split; [exact Him|]. intros r c v Hv P.
      apply (H (r, c)). apply Hps. now exists v.
    - intros (im & Him & H). eexists. apply index_exact. exists im, (where_image im 0). split; [exact Him|]. pose proof (where_returns im) as W. split; [exact W|].
      split; [reflexivity|]. intros [r c] Hp. apply W in Hp as (v & Hv & P). now apply (H r c v). }
  unfold dummy_semseg_for_one_frame, dummy_images. split.
  - intros (a & b & H) k Hk. apply bind_inv in H as (i1 & H1 & H). apply bind_inv in H as (i2 & H2 & H). apply G. destruct k as [|[|k]]; [now exists i1|now exists i2|lia].
  - intros H. destruct (proj2 (G O) (H O ltac:(lia))) as (i1 & H1). destruct (proj2 (G 1%nat) (H 1%nat ltac:(lia))) as (i2 & H2). rewrite H1. cbn [bind]. rewrite H2. cbn [bind].
    do 2 eexists. reflexivity.
Qed.

(** * Frames *)
Lemma validation_exact frames : forall out, validation_frames frames = Ok out <->
  (forall f, In f frames -> lasers f <> []) /\ out = filter (fun f => match lasers f with (_, true) :: _ => true | _ => false end) frames.
Proof.
  induction frames as [|f frames IH]; intros out; cbn [validation_frames filter].
  - split; [intros H; injection H as <-; split; [intros f []|reflexivity]|]. now intros (_ & ->).
  - destruct (lasers f) as [|[n b] l] eqn:E.
    + split; [discriminate|]. intros (H & _). now destruct (H f (or_introl eq_refl)).
    + split.
      * intros H. apply bind_inv in H as (fs & Hfs & H). apply Ok_inj in H. apply IH in Hfs as (N & ->). split; [intros g [<-|Hg]; [congruence|now apply N]|]. rewrite <- H. now destruct b.
      * intros (N & ->). rewrite (proj2 (IH (filter (fun f => match lasers f with (_, true) :: _ => true | _ => false end) frames))); [cbn [bind]; now destruct b|].
        split; [|reflexivity]. intros g Hg. apply N. now right.
Qed.
Lemma validation_refuted : exists f out, In (1%Z, true) (lasers f) /\ validation_frames [f] = Ok out /\ ~ In f out.
Proof. exists (Frame "a" "1" [(2, false); (1, true)]%Z), []. split; [right; now left|]. split; [reflexivity|intros []]. Qed.
Lemma test_none lines frames : test_frames lines frames = [].
Proof.
  unfold test_frames, wanted. induction frames as [|f frames IH]; [reflexivity|]. cbn [filter].
  assert (E : existsb (py_eq (PyTuple [context_name f; timestamp f])) (map PyList lines) = false); [|now rewrite E].
  clear. induction lines as [|l lines IHl]; [reflexivity|]. cbn [map existsb py_eq]. exact IHl.
Qed.
Lemma test_refuted : exists lines frames f, In f frames /\ In [context_name f; timestamp f] lines /\ ~ In f (test_frames lines frames).
Proof.
  exists [["a"; "1"]%string], [Frame "a" "1" [(1, true)]%Z], (Frame "a" "1" [(1, true)]%Z). split; [now left|]. split; [now left|]. rewrite test_none. intros [].
Qed.
