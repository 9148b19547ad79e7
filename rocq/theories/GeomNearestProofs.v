(** The distance to the nearest object over a scene. *)
From Coq Require Import Reals Lra Psatz List Lia Permutation Bool.
From Verif Require Import Base ResultLib MonadLib GeomModel GeomSpec GeomSceneSpec GeomBase GeomDistProofs GeomBoxProofs.
Import ListNotations.
Open Scope R_scope.

Lemma box_distance_ok factor a b : exists d, box_distance factor a b = Ok d.
Proof.
  unfold box_distance.
  destruct (signed_distance_boundary (0, 0) (minkowski_sum (box_corners (core factor a)) (neg_quad (box_corners (core factor b)))))
    as [m [E _]].
  - unfold minkowski_sum. destruct (minkowski_condition _ _); discriminate.
  - rewrite E. eexists. reflexivity.
Qed.
Lemma masked_ok factor s e o : exists d, masked_distance factor s e o = Ok d.
Proof.
  unfold masked_distance. destruct (box_distance_ok factor (fst e) (fst o)) as [d ->]. cbn [bind]. eexists. reflexivity.
Qed.

(** ** Selection *)
Lemma select_map {A B} (f : A -> B) mask : forall l, select mask (map f l) = map f (select mask l).
Proof.
  unfold select. induction mask as [|m mask IH]; intros [|x l]; cbn [combine filter map]; try reflexivity.
  destruct m; cbn [fst snd map]; now rewrite IH.
Qed.
Lemma select_perm {A} mask : forall l : list A, length mask = length l ->
  Permutation (select mask l ++ select (map negb mask) l) l.
Proof.
  unfold select. induction mask as [|m mask IH]; intros [|x l] H; try discriminate; [constructor|].
  injection H as H. specialize (IH l H). cbn [combine filter map fst]. destruct m; cbn [negb fst map snd app].
  - now constructor.
  - eapply perm_trans; [symmetry; apply Permutation_middle|]. now constructor.
Qed.
Lemma select_nth {A} mask : forall (l : list A) g x, nth_error mask g = Some true -> nth_error l g = Some x ->
  nth_error (select mask l) (row_of mask g) = Some x.
Proof.
  unfold select, row_of. induction mask as [|m mask IH]; intros [|y l] [|g] x H1 H2; try discriminate.
  - cbn in H1, H2. injection H1 as ->. injection H2 as ->. reflexivity.
  - cbn [nth_error] in H1, H2. specialize (IH l g x H1 H2). cbn [combine filter firstn fst].
    destruct m; cbn [map snd count_occ]; destruct (bool_dec _ _) as [E|E]; try discriminate; try (now contradiction E);
      cbn [nth_error]; exact IH.
Qed.
Lemma map_nth_seq {A} (l : list A) d : l = map (fun i => nth i l d) (seq 0 (length l)).
Proof.
  apply nth_ext with d d; [now rewrite map_length, seq_length|]. intros i Hi.
  rewrite (nth_indep (map _ _) d (nth 0 l d)) by (now rewrite map_length, seq_length).
  rewrite (map_nth (fun i => nth i l d)), seq_nth by assumption. reflexivity.
Qed.
Lemma select_length {A} mask : forall l : list A, length mask = length l ->
  length (select mask l) = count_occ bool_dec mask true.
Proof.
  unfold select. induction mask as [|m mask IH]; intros [|x l] H; try discriminate; [reflexivity|].
  injection H as H. cbn [combine filter count_occ fst]. destruct m; destruct (bool_dec _ _); try discriminate; try congruence;
    cbn [map length]; now rewrite IH.
Qed.
Lemma indexed_nth {A} (l : list A) i x : nth_error l i = Some x -> nth_error (indexed l) i = Some (i, x).
Proof.
  unfold indexed. intros H. assert (L : (i < length l)%nat) by (apply nth_error_Some; congruence).
  assert (G : forall s (l : list A) i x, nth_error l i = Some x -> nth_error (combine (seq s (length l)) l) i = Some ((s + i)%nat, x)).
  { clear. intros s l. revert s. induction l as [|y l IH]; intros s [|i] x H; try discriminate; cbn in *.
    - injection H as ->. now rewrite Nat.add_0_r.
    - rewrite (IH (S s) i x H). f_equal. f_equal. lia. }
  exact (G 0%nat l i x H).
Qed.
Lemma indexed_in {A} (l : list A) p : In p (indexed l) -> nth_error l (fst p) = Some (snd p).
Proof.
  unfold indexed. assert (G : forall s (l : list A) p, In p (combine (seq s (length l)) l) -> exists k, fst p = (s + k)%nat /\ nth_error l k = Some (snd p)).
  { clear. intros s l. revert s. induction l as [|y l IH]; intros s p H; [destruct H|]. cbn in H. destruct H as [<-|H].
    - exists 0%nat. split; [cbn; lia|reflexivity].
    - destruct (IH (S s) p H) as [k [E1 E2]]. exists (S k). split; [lia|exact E2]. }
  intros H. destruct (G 0%nat l p H) as [k [E1 E2]]. cbn in E1. now rewrite E1.
Qed.
Lemma indexed_length {A} (l : list A) : length (indexed l) = length l.
Proof. unfold indexed. rewrite combine_length, seq_length. lia. Qed.

Lemma fold_min l : forall a, fold_left Rmin l a <= a /\ (forall x, In x l -> fold_left Rmin l a <= x) /\
  (fold_left Rmin l a = a \/ In (fold_left Rmin l a) l).
Proof.
  induction l as [|y l IH]; intros a; cbn [fold_left].
  - split; [lra|]. split; [intros x []|]. now left.
  - destruct (IH (Rmin a y)) as [H1 [H2 H3]]. assert (M1 := Rmin_l a y). assert (M2 := Rmin_r a y).
    split; [lra|]. split.
    + intros x [<-|H]; [lra|now apply H2].
    + destruct H3 as [H3|H3]; [|right; now right]. rewrite H3. unfold Rmin. destruct (Rle_dec a y); [now left|right; now left].
Qed.
Lemma minimum_ok l m : minimum l = Ok m -> In m l /\ forall x, In x l -> m <= x.
Proof.
  destruct l as [|a l]; [discriminate|]. cbn [minimum]. intros H. apply Ok_inj in H. subst m.
  destruct (fold_min l a) as [H1 [H2 H3]]. split.
  - destruct H3 as [H3|H3]; [left; now symmetry|now right].
  - intros x [<-|Hx]; [assumption|now apply H2].
Qed.
Lemma step_of_ok {A} t (row : list A) c : step_of t row = Ok c <-> nth_error row t = Some c.
Proof.
  unfold step_of. destruct (nth_error row t); split; intros H; try discriminate; [now apply Ok_inj in H; subst|now injection H as ->].
Qed.

(** ** One evaluated object at one step *)
Section Scene.
Variables (factor : R) (objects : list (list cell)) (mask : list bool).
Hypothesis Hlen : length mask = length objects.
Definition order : list nat :=
  select mask (seq 0 (length objects)) ++ select (map negb mask) (seq 0 (length objects)).
Definition row (k : nat) : list cell := nth k objects [].
Lemma objects_rows : objects = map row (seq 0 (length objects)).
Proof. apply map_nth_seq. Qed.
Lemma all_rows : select mask objects ++ select (map negb mask) objects = map row order.
Proof.
  unfold order. rewrite map_app, <- !select_map, <- objects_rows. reflexivity.
Qed.
Lemma order_perm : Permutation order (seq 0 (length objects)).
Proof. apply select_perm. now rewrite seq_length. Qed.
Lemma order_nodup : NoDup order.
Proof. eapply Permutation_NoDup; [symmetry; apply order_perm|apply seq_NoDup]. Qed.
Lemma order_in k : In k order <-> (k < length objects)%nat.
Proof.
  split; intros H.
  - eapply Permutation_in in H; [|apply order_perm]. apply in_seq in H. lia.
  - eapply Permutation_in; [symmetry; apply order_perm|]. apply in_seq. lia.
Qed.
Lemma order_row g : nth_error mask g = Some true -> nth_error order (row_of mask g) = Some g.
Proof.
  intros H. assert (L : (g < length objects)%nat) by (rewrite <- Hlen; apply nth_error_Some; congruence).
  assert (E : nth_error (select mask (seq 0 (length objects))) (row_of mask g) = Some g).
  { apply select_nth; [assumption|]. rewrite nth_error_nth' with (d := 0%nat) by (now rewrite seq_length).
    now rewrite seq_nth. }
  unfold order. rewrite nth_error_app1; [assumption|]. apply nth_error_Some. congruence.
Qed.
Lemma at_step_row g t : (g < length objects)%nat -> at_step objects g t = nth_error (row g) t.
Proof. intros L. unfold at_step, row. now rewrite nth_error_nth' with (d := []) by assumption. Qed.
Lemma at_step_bound g t c : at_step objects g t = Some c -> (g < length objects)%nat.
Proof. unfold at_step. destruct (nth_error objects g) eqn:E; [|discriminate]. intros _. apply nth_error_Some. congruence. Qed.

Lemma nearest_value g t m : nth_error mask g = Some true ->
  nearest_at factor (map row order) (row_of mask g) (row g) t = Ok m ->
  exists e, at_step objects g t = Some e /\
    (forall k, (k < length objects)%nat -> exists o d, at_step objects k t = Some o /\
       masked_distance factor (Nat.eqb g k) e o = Ok d /\ m <= d) /\
    exists k o, at_step objects k t = Some o /\ masked_distance factor (Nat.eqb g k) e o = Ok m.
Proof.
  intros Hg E. unfold nearest_at in E. dbind E e Ee. dbind E ds Eds.
  apply step_of_ok in Ee. assert (L : (g < length objects)%nat) by (rewrite <- Hlen; apply nth_error_Some; congruence).
  exists e. split; [now rewrite at_step_row|]. apply minimum_ok in E. destruct E as [Hin Hmin].
  apply mapM_inv in Eds.
  assert (Hpos : forall j k, nth_error order j = Some k -> Nat.eqb (row_of mask g) j = Nat.eqb g k).
  { intros j k Hj. assert (Hr := order_row g Hg). destruct (Nat.eqb_spec g k) as [<-|N].
    - apply Nat.eqb_eq. assert (ND := order_nodup). rewrite NoDup_nth_error in ND. apply ND; [apply nth_error_Some; congruence|congruence].
    - apply Nat.eqb_neq. intros C. rewrite C in Hr. congruence. }
  assert (Hall : Forall2 (fun jo d => exists k o, nth_error order (fst jo) = Some k /\ at_step objects k t = Some o /\
            masked_distance factor (Nat.eqb g k) e o = Ok d) (indexed (map row order)) ds).
  { assert (HI : Forall (fun jo => nth_error (map row order) (fst jo) = Some (snd jo)) (indexed (map row order))).
    { apply Forall_forall. intros p Hp. now apply indexed_in. }
    clear Hin Hmin. revert HI. induction Eds as [|[j r] d is ds' Hd _ IH]; intros HI; constructor.
    - inversion HI as [|? ? H1 H2]; subst. cbn [fst snd] in *. dbind Hd o Eo. apply step_of_ok in Eo.
      destruct (nth_error order j) as [k|] eqn:Ek.
      + rewrite (map_nth_error row _ _ Ek) in H1. injection H1 as <-. exists k, o. split; [reflexivity|].
        assert (Lk : (k < length objects)%nat) by (apply order_in; eapply nth_error_In; eassumption).
        split; [now rewrite at_step_row|]. now rewrite <- (Hpos j k Ek).
      + exfalso. assert (N : nth_error (map row order) j = None).
        { apply nth_error_None. rewrite map_length. now apply nth_error_None. } congruence.
    - apply IH. now inversion HI. }
  split.
  - intros k Lk. apply order_in in Lk. apply In_nth_error in Lk. destruct Lk as [j Ej].
    assert (Ei := indexed_nth _ _ _ (map_nth_error row _ _ Ej)).
    assert (G : forall (P : (nat * list cell) -> R -> Prop) l l' j x, Forall2 P l l' -> nth_error l j = Some x -> exists y, In y l' /\ P x y).
    { clear. intros P l l' j x H. revert j. induction H as [|a b l l' Hab _ IH]; intros [|j] E; try discriminate.
      - injection E as ->. exists b. split; [now left|assumption].
      - destruct (IH j E) as [y [Hy Hp]]. exists y. split; [now right|assumption]. }
    destruct (G _ _ _ _ _ Hall Ei) as [d [Hd [k' [o [Ek' [Ho Hm]]]]]]. cbn [fst] in Ek'.
    assert (k' = k) as -> by congruence. exists o, d. split; [assumption|]. split; [assumption|now apply Hmin].
  - assert (G : forall (P : (nat * list cell) -> R -> Prop) l l' y, Forall2 P l l' -> In y l' -> exists x, P x y).
    { clear. intros P l l' y H. induction H as [|a b l l' Hab _ IH]; intros E; [destruct E|].
      destruct E as [<-|E]; [exists a; assumption|now apply IH]. }
    destruct (G _ _ _ _ Hall Hin) as [[j r] [k [o [_ [Ho Hm]]]]]. exists k, o. now split.
Qed.
End Scene.

Section Whole.
Variables (factor : R) (num_steps : nat) (objects : list (list cell)) (mask : list bool).

Lemma whole_total : length mask = length objects -> (forall r, In r objects -> length r = num_steps) ->
  exists out, distance_to_nearest_object factor num_steps objects mask = Ok out /\
    length out = count_occ bool_dec mask true /\ Forall (fun r => length r = num_steps) out.
Proof.
  intros Hlen Hrows. unfold distance_to_nearest_object. rewrite Hlen, Nat.eqb_refl. cbn [negb].
  assert (Hin : forall m r, In r (select m objects) -> In r objects).
  { intros m r H. unfold select in H. apply in_map_iff in H. destruct H as [[x r'] [<- H]]. apply filter_In in H.
    destruct H as [H _]. now apply in_combine_r in H. }
  assert (Hstep : forall r t, In r objects -> (t < num_steps)%nat -> exists c, step_of t r = Ok c).
  { intros r t Hr Ht. destruct (nth_error r t) as [c|] eqn:E; [exists c; now apply step_of_ok|].
    apply nth_error_None in E. rewrite (Hrows r Hr) in E. lia. }
  set (all := select mask objects ++ select (map negb mask) objects).
  assert (Hall : forall r, In r all -> In r objects) by (intros r H; apply in_app_or in H; destruct H; eapply Hin; eassumption).
  assert (Hne : forall i r t, In r (select mask objects) -> (t < num_steps)%nat -> exists d, nearest_at factor all i r t = Ok d).
  { intros i r t Hr Ht. unfold nearest_at. destruct (Hstep r t (Hin _ _ Hr) Ht) as [e ->]. cbn [bind].
    assert (G : forall l, (forall p, In p l -> In (snd p) objects) -> exists ds,
       mapM (fun jo => do o <- step_of t (snd jo); masked_distance factor (Nat.eqb i (fst jo)) e o) l = Ok ds /\ length ds = length l).
    { induction l as [|p l IH]; intros H; [exists []; split; reflexivity|]. cbn [mapM].
      destruct (Hstep (snd p) t (H p (or_introl eq_refl)) Ht) as [o ->]. cbn [bind].
      destruct (masked_ok factor (Nat.eqb i (fst p)) e o) as [d ->]. cbn [bind].
      destruct IH as [ds [-> L]]; [intros q Hq; apply H; now right|]. cbn [bind]. exists (d :: ds). split; [reflexivity|cbn; now rewrite L]. }
    destruct (G (indexed all)) as [ds [-> L]].
    { intros p Hp. apply indexed_in in Hp. apply nth_error_In in Hp. now apply Hall. }
    cbn [bind]. destruct ds as [|d ds]; [|eexists; reflexivity]. exfalso. rewrite indexed_length in L.
    assert (In r all) by (apply in_or_app; now left). destruct all; [contradiction|discriminate]. }
  assert (G1 : forall i r l, In r (select mask objects) -> (forall t, In t l -> (t < num_steps)%nat) ->
     exists ds, mapM (nearest_at factor all i r) l = Ok ds /\ length ds = length l).
  { intros i r l Hr. induction l as [|t l IH]; intros H; [exists []; split; reflexivity|]. cbn [mapM].
    destruct (Hne i r t Hr (H t (or_introl eq_refl))) as [d ->]. cbn [bind].
    destruct IH as [ds [-> L]]; [intros q Hq; apply H; now right|]. cbn [bind]. exists (d :: ds). split; [reflexivity|cbn; now rewrite L]. }
  assert (G2 : forall l, (forall p, In p l -> In (snd p) (select mask objects)) -> exists out,
     mapM (fun ie => mapM (nearest_at factor all (fst ie) (snd ie)) (seq 0 num_steps)) l = Ok out /\
     length out = length l /\ Forall (fun r => length r = num_steps) out).
  { induction l as [|p l IH]; intros H; [exists []; split; [reflexivity|split; [reflexivity|constructor]]|]. cbn [mapM].
    destruct (G1 (fst p) (snd p) (seq 0 num_steps)) as [ds [-> L]];
      [apply H; now left|intros t Ht; apply in_seq in Ht; lia|]. cbn [bind].
    destruct IH as [out [-> [L1 L2]]]; [intros q Hq; apply H; now right|]. cbn [bind]. exists (ds :: out).
    split; [reflexivity|]. split; [cbn; now rewrite L1|]. constructor; [now rewrite L, seq_length|assumption]. }
  destruct (G2 (indexed (select mask objects))) as [out [-> [L1 L2]]].
  { intros p Hp. apply indexed_in in Hp. now apply nth_error_In in Hp. }
  exists out. split; [reflexivity|]. split; [|assumption]. now rewrite L1, indexed_length, select_length.
Qed.

Variable out : list (list R).
Hypothesis Hout : distance_to_nearest_object factor num_steps objects mask = Ok out.
Lemma whole_len : length mask = length objects.
Proof.
  unfold distance_to_nearest_object in Hout. destruct (Nat.eqb_spec (length mask) (length objects)); [assumption|discriminate].
Qed.
Lemma whole_entry g t : nth_error mask g = Some true -> (t < num_steps)%nat ->
  exists m, entry out (row_of mask g) t = Some m /\
    nearest_at factor (map (row objects) (order objects mask)) (row_of mask g) (row objects g) t = Ok m.
Proof.
  intros Hg Ht. assert (Hlen := whole_len). unfold distance_to_nearest_object in Hout. rewrite Hlen, Nat.eqb_refl in Hout.
  cbn [negb] in Hout. rewrite (all_rows objects mask) in Hout.
  assert (L : (g < length objects)%nat) by (rewrite <- Hlen; apply nth_error_Some; congruence).
  assert (E : nth_error (select mask objects) (row_of mask g) = Some (row objects g)).
  { apply select_nth; [assumption|]. unfold row. now apply nth_error_nth'. }
  apply indexed_nth in E. apply mapM_inv in Hout.
  assert (G : forall {X Y} (f : X -> result Y) l l' j x, Forall2 (fun x y => f x = Ok y) l l' -> nth_error l j = Some x ->
    exists y, nth_error l' j = Some y /\ f x = Ok y).
  { clear. intros X Y f l l' j x H. revert j. induction H as [|a b l l' Hab _ IH]; intros [|j] E; try discriminate.
    - injection E as ->. exists b. now split.
    - now apply IH. }
  destruct (G _ _ _ _ _ _ _ Hout E) as [rw [Er Ew]]. cbn [fst snd] in Ew. apply mapM_inv in Ew.
  assert (Es : nth_error (seq 0 num_steps) t = Some t).
  { rewrite nth_error_nth' with (d := 0%nat) by (now rewrite seq_length). now rewrite seq_nth. }
  destruct (G _ _ _ _ _ _ _ Ew Es) as [m [Em Hm]]. exists m. split; [|exact Hm]. unfold entry. now rewrite Er.
Qed.

Hypothesis Hf : 0 <= factor < 1.
Hypothesis Hsz : sized objects.

Lemma shape_rounded b : box_shape factor b = rounded factor b. Proof. reflexivity. Qed.
Lemma pair_spec b b' : 0 < blength b -> 0 < bwidth b -> 0 < blength b' -> 0 < bwidth b' ->
  exists d, box_distance factor b b' = Ok d /\ (d < 0 <-> overlap factor b b') /\ (0 <= d -> gap factor b b' d).
Proof.
  intros H1 H2 H3 H4. destruct (box_distance_negative factor b b' Hf H1 H2 H3 H4) as [d [E HN]].
  exists d. split; [assumption|]. split; [exact HN|]. intros Hd. apply (box_distance_positive factor b b' Hf H1 H2 H3 H4 d E Hd).
Qed.

Lemma whole_value g t b : nth_error mask g = Some true -> (t < num_steps)%nat -> valid_at objects g t b ->
  exists m, entry out (row_of mask g) t = Some m /\
    (forall g' b', g' <> g -> valid_at objects g' t b' -> exists d, box_distance factor b b' = Ok d /\ m <= d) /\
    (10000000000 - bwidth b <= m \/
     exists g' b', g' <> g /\ valid_at objects g' t b' /\ box_distance factor b b' = Ok m).
Proof.
  intros Hg Ht Hb. destruct (whole_entry g t Hg Ht) as [m [Em Hm]]. exists m. split; [assumption|].
  destruct (nearest_value factor objects mask whole_len g t m Hg Hm) as [e [Ee [Hall [k [o [Ho Hk]]]]]].
  unfold valid_at in Hb. rewrite Hb in Ee. injection Ee as <-. split.
  - intros g' b' N Hb'. unfold valid_at in Hb'. assert (L := at_step_bound objects _ _ _ Hb').
    destruct (Hall g' L) as [o' [d [Ho' [Hd Hle]]]]. rewrite Hb' in Ho'. injection Ho' as <-.
    unfold masked_distance in Hd. cbn [fst snd andb] in Hd. dbind Hd d' Ed'. rewrite (proj2 (Nat.eqb_neq g g')) in Hd by auto.
    apply Ok_inj in Hd. exists d'. split; [assumption|]. lra.
  - unfold masked_distance in Hk. cbn [fst snd andb] in Hk. dbind Hk d Ed. apply Ok_inj in Hk.
    destruct (Hsz g t b Hb) as [H1 [H2 H3]]. destruct o as [b' v]. cbn [snd] in Hk. destruct v.
    + destruct (Nat.eqb_spec g k) as [<-|N].
      * left. rewrite Hb in Ho. injection Ho as <-. cbn [fst] in Ed.
        destruct (self_distance factor b Hf H1 H2) as [d' [E' Hd']]. rewrite Ed in E'. apply Ok_inj in E'. subst d'.
        unfold EXTREMELY_LARGE_DISTANCE in Hk. lra.
      * right. exists k, b'. split; [auto|]. split; [exact Ho|]. cbn [fst] in Ed. rewrite Ed. f_equal. lra.
    + left. unfold EXTREMELY_LARGE_DISTANCE in Hk. lra.
Qed.
Lemma whole_invalid g t b : nth_error mask g = Some true -> (t < num_steps)%nat -> at_step objects g t = Some (b, false) ->
  entry out (row_of mask g) t = Some 10000000000.
Proof.
  intros Hg Ht Hb. destruct (whole_entry g t Hg Ht) as [m [Em Hm]]. rewrite Em. f_equal.
  destruct (nearest_value factor objects mask whole_len g t m Hg Hm) as [e [Ee [_ [k [o [_ Hk]]]]]].
  rewrite Hb in Ee. injection Ee as <-. unfold masked_distance in Hk. dbind Hk d Ed. cbn [snd andb] in Hk. now apply Ok_inj in Hk.
Qed.
Lemma whole_defined g t : nth_error mask g = Some true -> (t < num_steps)%nat ->
  exists b v m, at_step objects g t = Some (b, v) /\ entry out (row_of mask g) t = Some m.
Proof.
  intros Hg Ht. destruct (whole_entry g t Hg Ht) as [m [Em Hm]].
  destruct (nearest_value factor objects mask whole_len g t m Hg Hm) as [[b v] [Ee _]]. exists b, v, m. now split.
Qed.

Lemma whole_collision g t : nth_error mask g = Some true -> (t < num_steps)%nat ->
  exists m, entry out (row_of mask g) t = Some m /\
    (is_colliding m = true <-> exists b g' b', valid_at objects g t b /\ g' <> g /\ valid_at objects g' t b' /\ overlap factor b b').
Proof.
  intros Hg Ht. destruct (whole_defined g t Hg Ht) as [b [v [m [Hb Em]]]]. exists m. split; [assumption|].
  unfold is_colliding. rewrite rltb_iff. unfold COLLISION_DISTANCE_THRESHOLD. destruct v.
  - destruct (whole_value g t b Hg Ht Hb) as [m' [Em' [Hle Hat]]]. assert (m' = m) as -> by congruence.
    destruct (Hsz g t b Hb) as [H1 [H2 H3]]. split.
    + intros Hm. destruct Hat as [H|[g' [b' [N [Hb' E]]]]]; [lra|].
      destruct (Hsz g' t b' Hb') as [H1' [H2' H3']].
      exists b, g', b'. split; [assumption|]. split; [assumption|]. split; [assumption|].
      destruct (pair_spec b b' H1 H2 H1' H2') as [d [E' [HN _]]]. apply HN. replace d with m by congruence. exact Hm.
    + intros [b0 [g' [b' [Hb0 [N [Hb' Ho]]]]]]. unfold valid_at in Hb0. assert (b0 = b) as -> by congruence.
      destruct (Hsz g' t b' Hb') as [H1' [H2' H3']].
      destruct (Hle g' b' N Hb') as [d [E Hd]]. destruct (pair_spec b b' H1 H2 H1' H2') as [d' [E' [HN _]]].
      apply HN in Ho. rewrite E in E'. apply Ok_inj in E'. lra.
  - assert (E := whole_invalid g t b Hg Ht Hb). assert (m = 10000000000) as -> by congruence. split; [lra|].
    intros [b0 [g' [b' [Hb0 _]]]]. unfold valid_at in Hb0. congruence.
Qed.
Lemma whole_distance g t b m : nth_error mask g = Some true -> (t < num_steps)%nat -> valid_at objects g t b ->
  entry out (row_of mask g) t = Some m -> 0 <= m ->
  (forall g' b' p q, g' <> g -> valid_at objects g' t b' -> box_shape factor b p -> box_shape factor b' q -> m <= dist p q) /\
  (10000000000 - bwidth b <= m \/ exists g' b', g' <> g /\ valid_at objects g' t b' /\ gap factor b b' m).
Proof.
  intros Hg Ht Hb Em Hm. destruct (whole_value g t b Hg Ht Hb) as [m' [Em' [Hle Hat]]]. assert (m' = m) as -> by congruence.
  destruct (Hsz g t b Hb) as [H1 [H2 H3]]. split.
  - intros g' b' p q N Hb' Hp Hq. destruct (Hsz g' t b' Hb') as [H1' [H2' H3']].
    destruct (Hle g' b' N Hb') as [d [E Hd]]. destruct (pair_spec b b' H1 H2 H1' H2') as [d' [E' [_ HG]]].
    rewrite E in E'. apply Ok_inj in E'. subst d'. destruct HG as [_ HG]; [lra|]. specialize (HG p q Hp Hq). lra.
  - destruct Hat as [H|[g' [b' [N [Hb' E]]]]]; [now left|]. right. destruct (Hsz g' t b' Hb') as [H1' [H2' H3']].
    exists g', b'. split; [assumption|]. split; [assumption|].
    destruct (pair_spec b b' H1 H2 H1' H2') as [d' [E' [_ HG]]]. rewrite E in E'. apply Ok_inj in E'. subst d'. now apply HG.
Qed.
End Whole.
