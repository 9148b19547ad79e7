From Coq Require Import String Permutation Sorted.
From Coq Require Lqa.
From Verif Require Import Base ResultLib HungarianSpec MatcherModel MatcherSpec MatcherProofs ToolModel ToolSpec ToolProofs CompareModel CompareSpec.
Open Scope list_scope.
Open Scope Z_scope.

(** ** Keys *)
Lemma camera_code_inj a b : camera_code a = camera_code b -> a = b.
Proof. destruct a, b; cbn; intros H; try reflexivity; discriminate. Qed.
Lemma strict_tuple : strict tuple_ltb.
Proof.
  destruct strict_pair as (I & T & E). unfold tuple_ltb. split; [|split].
  - intros [a x]. cbn [fst snd]. rewrite I, Z.ltb_irrefl. reflexivity.
  - intros [a x] [b y] [c z]. cbn [fst snd]. rewrite !orb_true_iff, !andb_true_iff, !negb_true_iff, !Z.ltb_lt. intros [H1|[H1 L1]] [H2|[H2 L2]].
    + left. exact (T _ _ _ H1 H2).
    + left. destruct (pair_ltb b c) eqn:Q; [exact (T _ _ _ H1 Q)|]. rewrite <- (E b c Q H2). exact H1.
    + left. destruct (pair_ltb a b) eqn:Q; [exact (T _ _ _ Q H2)|]. rewrite (E a b Q H1). exact H2.
    + destruct (pair_ltb a c) eqn:Q; [left; reflexivity|]. right. split; [|lia].
      destruct (pair_ltb c a) eqn:Q'; [|reflexivity]. exfalso.
      destruct (pair_ltb a b) eqn:R; [rewrite (T _ _ _ Q' R) in H2; discriminate|]. pose proof (E a b R H1). subst b. congruence.
  - intros [a x] [b y]. cbn [fst snd]. rewrite !orb_false_iff, !andb_false_iff, !negb_false_iff, !Z.ltb_ge.
    intros [H1 H2] [H3 H4]. pose proof (E a b H1 H3). subst b. f_equal. rewrite I in H2, H4. destruct H2; [discriminate|]. destruct H4; [discriminate|]. apply camera_code_inj. lia.
Qed.
Lemma get_in {K V} (ltb : K -> K -> bool) (O : strict ltb) k (v : V) m : StronglySorted (fun a b => ltb a b = true) (map fst m) -> In (k, v) m -> get ltb k m = Some v.
Proof.
  induction m as [|[k' v'] m IH]; cbn [get map fst]; intros S0 I; [destruct I|]. inversion S0 as [|? ? S1 F]; subst. destruct I as [E|I].
  - injection E as -> ->. rewrite (proj1 O). reflexivity.
  - rewrite Forall_forall in F. assert (L : ltb k' k = true) by (apply F; apply (in_map fst) in I; exact I).
    destruct (ltb k k') eqn:A; [pose proof (proj1 (proj2 O) _ _ _ A L) as C; rewrite (proj1 O) in C; discriminate|]. rewrite L. apply IH; assumption.
Qed.
Lemma in_get {K V} (ltb : K -> K -> bool) (O : strict ltb) k (v : V) m : get ltb k m = Some v -> In (k, v) m.
Proof.
  induction m as [|[k' v'] m IH]; cbn [get]; [discriminate|]. destruct (ltb k k') eqn:A; [discriminate|]. destruct (ltb k' k) eqn:C; [intros H; right; auto|].
  intros E. injection E as <-. rewrite (proj2 (proj2 O) _ _ A C). left. reflexivity.
Qed.

Section Compare.
Context {B : Type}.
Notation obj := (object (label B)).
(** ** One frame *)
Section Frame.
Variables (overlap : bool -> B -> B -> Q) (d3 : bool) (threshold : Q) (l f : list obj).
Hypothesis P : proper (overlap d3) threshold l f.
Let cfg := get_config overlap d3 threshold.
Let fr : frame B := {| preds := map to_match l; gts := map to_match f |}.
Lemma frame_is_ok : frame_ok cfg fr.
Proof.
  destruct P as (T & K & O). split; [|split].
  - intros p I. apply in_map_iff in I as (a & <- & I). cbn. apply K. exact I.
  - intros p g Ip Ig _. apply in_map_iff in Ip as (a & <- & Ia). apply in_map_iff in Ig as (b & <- & Ib). cbn. apply O; assumption.
  - intros g E. discriminate.
Qed.
Lemma subset_seq (l0 : list obj) : subset_ok (map to_match l0) (seq 0 (length l0)).
Proof. apply Forall_forall. intros i I. apply in_seq in I. rewrite map_length. lia. Qed.
Lemma selected_seq (l0 : list obj) i : selected (map to_match l0) (seq 0 (length l0)) i = option_map to_match (nth_error l0 i).
Proof.
  unfold selected. destruct (Nat.lt_ge_cases i (length l0)) as [L|L].
  - rewrite (nth_error_nth' _ 0%nat) by (rewrite seq_length; exact L). rewrite seq_nth by exact L. cbn [Nat.add]. rewrite nth_error_map. reflexivity.
  - rewrite (proj2 (nth_error_None (seq 0 (length l0)) i)) by (rewrite seq_length; exact L). rewrite (proj2 (nth_error_None l0 i) L). reflexivity.
Qed.
Lemma ok_same i j : pair_ok cfg fr (seq 0 (length l)) (seq 0 (length f)) i j <->
  exists a b, nth_error l i = Some a /\ nth_error f j = Some b /\ same_detection (overlap d3) threshold a b.
Proof.
  unfold pair_ok. cbn [preds gts fr]. rewrite !selected_seq. split.
  - intros (p & g & Ep & Eg & A & _). destruct (nth_error l i) as [a|] eqn:Ea; [|discriminate]. destruct (nth_error f j) as [b|] eqn:Eb; [|discriminate].
    injection Ep as <-. injection Eg as <-. exists a, b. split; [reflexivity|]. split; [reflexivity|].
    assert (TH : nth (otype (to_match a)) (thresholds cfg) 0%Q = threshold).
    { cbn [to_match otype cfg get_config thresholds]. destruct P as (_ & K & _). specialize (K a (nth_error_In _ _ Ea)).
      destruct (kind (label_box a)) as [|[|[|[|[|n]]]]]; try reflexivity; lia. }
    rewrite TH in A. unfold pair_iou in A. cbn [to_match otype obox cfg get_config iou_fn] in A. destruct (Nat.eqb_spec (kind (label_box a)) (kind (label_box b))) as [E|N]; [split; assumption|].
    destruct P as (T & _). destruct (Qlt_not_le _ _ T A).
  - intros (a & b & Ea & Eb & E & A). rewrite Ea, Eb. exists (to_match a), (to_match b). split; [reflexivity|]. split; [reflexivity|]. split.
    + assert (TH : nth (otype (to_match a)) (thresholds cfg) 0%Q = threshold).
      { cbn [to_match otype cfg get_config thresholds]. destruct P as (_ & K & _). specialize (K a (nth_error_In _ _ Ea)).
        destruct (kind (label_box a)) as [|[|[|[|[|n]]]]]; try reflexivity; lia. }
      rewrite TH. unfold pair_iou. cbn [to_match otype obox cfg get_config iou_fn]. rewrite E, Nat.eqb_refl. exact A.
    + cbn. discriminate.
Qed.
Lemma weight_gain i j : pair_weight cfg fr (seq 0 (length l)) (seq 0 (length f)) i j = gain (overlap d3) l f i j.
Proof.
  unfold pair_weight, gain. cbn [preds gts fr]. rewrite !selected_seq. destruct (nth_error l i) as [a|]; [|reflexivity]. destruct (nth_error f j) as [b|]; [|reflexivity]. cbn [option_map].
  unfold objective, pair_iou, pair_affinity. cbn [to_match otype obox cfg get_config iou_fn affinity_fn].
  destruct (Nat.eqb (kind (label_box a)) (kind (label_box b))); [|reflexivity]. apply Qfloor_comp. ring.
Qed.
Lemma weight_same mu : assignment_weight (length l) (pair_weight cfg fr (seq 0 (length l)) (seq 0 (length f))) mu = assignment_weight (length l) (gain (overlap d3) l f) mu.
Proof. unfold assignment_weight. f_equal. apply map_ext. intros i. destruct (nth i mu None); [apply weight_gain|reflexivity]. Qed.
Lemma agree_sum mu (s : list nat) : fold_right Z.add 0 (map (fun i => if agrees l f mu i then 0 else 1) s) = Z.of_nat (length s) - Z.of_nat (length (filter (agrees l f mu) s)).
Proof. induction s as [|i s IH]; [reflexivity|]. cbn [map fold_right filter]. rewrite IH. destruct (agrees l f mu i); cbn [length]; lia. Qed.
Lemma filter_le {A} (p : A -> bool) s : (length (filter p s) <= length s)%nat.
Proof. induction s as [|x s IH]; cbn; [lia|]. destruct (p x); cbn; lia. Qed.
Theorem frame_result : exists mu, best (overlap d3) threshold l f mu /\
  (compare_frame cfg l f = Ok tt <-> tolerated l f mu).
Proof.
  destruct (hungarian_match_correct cfg fr frame_is_ok (seq 0 (length l)) (seq 0 (length f)) (subset_seq l) (subset_seq f)) as (pm & gm & E & _ & V & O).
  rewrite !seq_length in V, O. exists pm.
  assert (V' : pairing (overlap d3) threshold l f pm) by (unfold pairing; apply (valid_assignment_iff _ _ _ _ pm ok_same); exact V).
  split.
  - split; [exact V'|]. intros mu' M. rewrite <- !weight_same. apply O. apply (valid_assignment_iff _ _ _ _ mu' ok_same). exact M.
  - unfold compare_frame. fold fr. rewrite E. cbn [bind fst].
    rewrite (mapM_ok _ (fun i => if agrees l f pm i then 0 else 1)).
    2:{ intros i I. apply in_seq in I. destruct V' as (L & V1 & _). unfold mismatch, nth_result, agrees. rewrite (nth_error_nth' pm None) by lia. cbn [bind].
        destruct (nth_error l i) as [a|] eqn:Ea; [|apply nth_error_None in Ea; lia].
        destruct (nth i pm None) as [j|] eqn:Ej; [|reflexivity]. destruct (V1 i j Ej) as (_ & _ & a' & b & _ & Eb & _). rewrite Eb. cbn [bind]. unfold Qlt_bool.
        destruct (Qle_bool (Qabs.Qabs (score a - score b)) (1 # 20)); reflexivity. }
    cbn [bind]. rewrite agree_sum, seq_length. fold (agreements l f pm). pose proof (filter_le (agrees l f pm) (seq 0 (length l))) as FL. rewrite seq_length in FL. fold (agreements l f pm) in FL.
    unfold tolerated, Qlt_bool.
    set (u := Z.of_nat (length f - length l) + (Z.of_nat (length l) - Z.of_nat (agreements l f pm))).
    assert (U : u = Z.of_nat (Nat.max (length l) (length f)) - Z.of_nat (agreements l f pm)) by (unfold u; lia). rewrite <- U.
    destruct (Qle_bool (inject_Z u) ((1 # 20) * inject_Z (Z.of_nat (length l)))) eqn:Q; cbn [negb].
    + split; [intros _|reflexivity]. apply Qle_bool_iff in Q. unfold Qle, Qmult, inject_Z in Q. cbn [Qnum Qden] in Q. lia.
    + split; [discriminate|]. intros H. assert (C : (inject_Z u <= (1 # 20) * inject_Z (Z.of_nat (length l)))%Q) by (unfold Qle, Qmult, inject_Z; cbn [Qnum Qden]; lia).
      apply Qle_bool_iff in C. congruence.
Qed.
End Frame.
(** Identical lists. *)
Section Same.
Variables (overlap : B -> B -> Q) (threshold : Q) (l f : list obj).
Hypothesis P : proper overlap threshold l f.
Hypothesis perm : Permutation l f.
Hypothesis self : forall a, In a l -> (overlap (shape (label_box a)) (shape (label_box a)) == 1)%Q.
Hypothesis low : (threshold <= 1)%Q.
Hypothesis clear : forall a b, In a l -> In b l -> kind (label_box a) = kind (label_box b) ->
  (1 - (1 # 2000000) <= overlap (shape (label_box a)) (shape (label_box b)))%Q -> close a b.
Lemma floor_one q : (q == 1)%Q -> Qfloor (q * 1000000 + (1 # 2)) = 1000000.
Proof. intros E. transitivity (Qfloor (1 * 1000000 + (1 # 2))); [|reflexivity]. apply Qfloor_comp. rewrite E. reflexivity. Qed.
Lemma gain_le i j : (i < length l)%nat -> (j < length f)%nat -> gain overlap l f i j <= 1000000.
Proof.
  intros Li Lj. unfold gain. destruct (nth_error l i) as [a|] eqn:Ea; [|lia]. destruct (nth_error f j) as [b|] eqn:Eb; [|lia]. destruct (Nat.eqb _ _); [|lia].
  destruct P as (_ & _ & O). destruct (O a b (nth_error_In _ _ Ea) (nth_error_In _ _ Eb)) as [_ U].
  change 1000000 with (Qfloor (1 * 1000000 + (1 # 2))) at 2. apply Qfloor_resp_le. apply Qplus_le_l. apply Qmult_le_compat_r; [exact U|discriminate].
Qed.
Lemma gain_full i j a b : nth_error l i = Some a -> nth_error f j = Some b -> gain overlap l f i j = 1000000 -> close a b.
Proof.
  intros Ea Eb G. unfold gain in G. rewrite Ea, Eb in G. destruct (Nat.eqb_spec (kind (label_box a)) (kind (label_box b))) as [K|]; [|discriminate].
  apply clear; [eapply nth_error_In; exact Ea|eapply Permutation_in; [symmetry; exact perm|eapply nth_error_In; exact Eb]|exact K|].
  pose proof (Qfloor_le (overlap (shape (label_box a)) (shape (label_box b)) * 1000000 + (1 # 2))) as L. rewrite G in L.
  change (inject_Z 1000000) with (1000000 # 1)%Q in L. Lqa.lra.
Qed.
Lemma sum_bound (g : nat -> Z) c (s : list nat) : (forall i, In i s -> g i <= c) -> Zsum (map g s) <= c * Z.of_nat (length s).
Proof. induction s as [|i s IH]; intros H; cbn [map length]; [cbn; lia|]. pose proof (H i (or_introl eq_refl)). specialize (IH (fun j I => H j (or_intror I))). cbn [Zsum fold_right] in *. unfold Zsum in *. cbn [fold_right]. lia. Qed.
Lemma sum_tight (g : nat -> Z) c (s : list nat) : (forall i, In i s -> g i <= c) -> c * Z.of_nat (length s) <= Zsum (map g s) -> forall i, In i s -> g i = c.
Proof.
  induction s as [|i s IH]; intros H L x I; [destruct I|]. pose proof (H i (or_introl eq_refl)) as Hi. pose proof (sum_bound g c s (fun j J => H j (or_intror J))) as Hs.
  unfold Zsum in *. cbn [map fold_right length] in *. destruct I as [<-|I]; [lia|]. apply IH; [intros j J; apply H; right; exact J|lia|exact I].
Qed.
Lemma identical_best mu : best overlap threshold l f mu -> agreements l f mu = length l.
Proof.
  intros [(Lm & Vm & Im) Om]. pose proof (Permutation_length perm) as Len.
  destruct l as [|d0 l0] eqn:El; [reflexivity|]. rewrite <- El in *. 
  destruct (proj1 (Permutation_nth f l d0) (Permutation_sym perm)) as (_ & g & Gb & Gi & Gn).
  assert (W : assignment_weight (length l) (gain overlap l f) (map (fun i => Some (g i)) (seq 0 (length l))) = 1000000 * Z.of_nat (length l)).
  { unfold assignment_weight. rewrite (map_ext_in _ (fun _ => 1000000)).
    - rewrite <- (seq_length (length l) 0) at 2. generalize (seq 0 (length l)). intros s. induction s as [|i s IH]; [reflexivity|]. unfold Zsum in *. cbn [map fold_right length]. lia.
    - intros i I. apply in_seq in I. rewrite (nth_indep _ None (Some (g 0%nat))) by (rewrite map_length, seq_length; lia). rewrite (map_nth (fun i => Some (g i))), seq_nth by lia. cbn [Nat.add].
      assert (Bi : (i < length f)%nat) by lia. specialize (Gn i Bi). specialize (Gb i Bi). unfold gain.
      rewrite (nth_error_nth' l d0) by lia. rewrite (nth_error_nth' f d0) by exact Gb. rewrite <- Gn, Nat.eqb_refl. apply floor_one, self. apply nth_In. lia. }
  assert (V : pairing overlap threshold l f (map (fun i => Some (g i)) (seq 0 (length l)))).
  { split; [rewrite map_length, seq_length; reflexivity|].
    assert (N : forall i j, nth i (map (fun i => Some (g i)) (seq 0 (length l))) None = Some j -> (i < length l)%nat /\ j = g i).
    { intros i j E. destruct (Nat.lt_ge_cases i (length l)) as [Li|Li]; [|rewrite nth_overflow in E by (rewrite map_length, seq_length; exact Li); discriminate].
      rewrite (nth_indep _ None (Some (g 0%nat))) in E by (rewrite map_length, seq_length; lia). rewrite (map_nth (fun i => Some (g i))), seq_nth in E by lia. injection E as <-. split; [exact Li|reflexivity]. }
    split.
    - intros i j E. apply N in E as [Li ->]. assert (Bi : (i < length f)%nat) by lia. split; [exact Li|]. split; [apply Gb; exact Bi|].
      exists (nth i l d0), (nth (g i) f d0). split; [apply nth_error_nth'; exact Li|]. split; [apply nth_error_nth', Gb, Bi|]. rewrite <- (Gn i Bi). split; [reflexivity|].
      rewrite self by (apply nth_In; exact Li). exact low.
    - intros i i' j E E'. apply N in E as [Li ->]. apply N in E' as [Li' E']. apply Gi; lia. }
  specialize (Om _ V). rewrite W in Om. unfold assignment_weight in Om.
  set (h := fun i => match nth i mu None with Some j => gain overlap l f i j | None => 0 end) in *.
  assert (T : forall i, In i (seq 0 (length l)) -> h i = 1000000).
  { apply sum_tight; [|rewrite seq_length; exact Om]. intros i I. unfold h. destruct (nth i mu None) as [j|] eqn:Ej; [|lia]. destruct (Vm i j Ej) as (A & C & _). apply gain_le; assumption. }
  unfold agreements. rewrite <- (seq_length (length l) 0) at 2. f_equal. clear - T Vm P perm clear.
  assert (G : forall i, In i (seq 0 (length l)) -> agrees l f mu i = true).
  { intros i I. specialize (T i I). unfold h in T. unfold agrees. destruct (nth i mu None) as [j|] eqn:Ej; [|discriminate]. destruct (Vm i j Ej) as (_ & _ & a & b & Ea & Eb & _).
    rewrite Ea, Eb. apply Qle_bool_iff. exact (gain_full i j a b Ea Eb T). }
  generalize dependent (seq 0 (length l)). intros s _ G. induction s as [|i s IH]; [reflexivity|]. cbn [filter]. rewrite (G i (or_introl eq_refl)). f_equal. apply IH. intros j J. apply G. right. exact J.
Qed.
Lemma identical_tolerated mu : best overlap threshold l f mu -> tolerated l f mu.
Proof. intros H. unfold tolerated. rewrite (identical_best mu H). pose proof (Permutation_length perm) as Len. rewrite <- Len, Nat.max_id. lia. Qed.
End Same.
(** ** The whole comparison *)
Lemma considered_iff m (o : obj) : considered m o = true <-> (m <= score o)%Q /\ (0 < kind (label_box o))%nat.
Proof. unfold considered. rewrite andb_true_iff, Qle_bool_iff, Nat.ltb_lt. reflexivity. Qed.
Lemma selects_filter (p : obj -> bool) (P : obj -> Prop) l r : selects P (filter p l) r -> selects (fun o => p o = true /\ P o) l r.
Proof.
  revert r. induction l as [|o l IH]; cbn [filter]; intros r H; [inversion H; constructor|]. destruct (p o) eqn:E.
  - inversion H; subst; [constructor 2; [split; assumption|]|constructor 3; [intros [_ X]; contradiction|]]; apply IH; assumption.
  - constructor 3; [intros [X _]; congruence|]. apply IH; exact H.
Qed.
Lemma group_frame m k (l : list obj) : selects (in_frame m k) l (or_empty (get tuple_ltb k (keyed tuple_ltb tuple_key (filter (considered m) l)))).
Proof.
  eapply selects_iff; [|apply selects_filter, (keyed_get tuple_ltb strict_tuple)]. intros o. cbv beta. unfold in_frame. rewrite considered_iff. unfold tuple_key. intuition.
Qed.
Lemma keyed_ord (l : list obj) : StronglySorted (fun a b => tuple_ltb a b = true) (map fst (keyed tuple_ltb tuple_key l)).
Proof. apply (fold_ord tuple_ltb strict_tuple tuple_key append_to). constructor. Qed.
Lemma keyed_nonempty (l : list obj) k : get tuple_ltb k (keyed tuple_ltb tuple_key l) <> Some [].
Proof.
  intros E. assert (I : In k (map fst (keyed tuple_ltb tuple_key l))) by (apply (in_get tuple_ltb strict_tuple) in E; apply (in_map fst) in E; exact E).
  unfold keyed in I. apply (fold_keys tuple_ltb strict_tuple tuple_key append_to) in I as [[]|(o & Io & Ko)].
  pose proof (keyed_get tuple_ltb strict_tuple tuple_key k l) as S0. rewrite E in S0. cbn [or_empty] in S0. clear E. induction l as [|x l IH]; [destruct Io|].
  inversion S0; subst. destruct Io as [->|Io]; [contradiction|]. apply IH; assumption.
Qed.
Lemma selects_in {A} (P : A -> Prop) l r : selects P l r -> forall x, In x r -> In x l.
Proof. induction 1 as [|x l r p S0 IH|x l r p S0 IH]; intros y I; [destruct I| |right; auto]. destruct I as [<-|I]; [left; reflexivity|right; auto]. Qed.
Lemma selects_holds {A} (P : A -> Prop) l r : selects P l r -> forall x, In x r -> P x.
Proof. induction 1 as [|x l r p S0 IH|x l r p S0 IH]; intros y I; [destruct I| |auto]. destruct I as [<-|I]; auto. Qed.
Lemma fold_last (l : list obj) o u : fold_left (fun _ o => has_heading (label_box o)) (l ++ [o]) u = has_heading (label_box o).
Proof. rewrite fold_left_app. reflexivity. Qed.
Variables (overlap : bool -> B -> B -> Q) (uninitialised : bool) (threshold minimum : Q) (latency0 full : list obj) (last : obj).
Let latency := latency0 ++ [last].
Let d3 := has_heading (label_box last).
Hypothesis P : proper (overlap d3) threshold (filter (considered minimum) latency) full.
Lemma in_considered k a x : selects (in_frame minimum k) latency a -> In x a -> In x (filter (considered minimum) latency).
Proof.
  intros H I. apply filter_In. split; [exact (selects_in _ _ _ H x I)|]. apply considered_iff. destruct (selects_holds _ _ _ H x I) as (A & C & _). split; assumption.
Qed.
Lemma proper_frame k a b : selects (in_frame minimum k) latency a -> selects (in_frame minimum k) full b -> proper (overlap d3) threshold a b.
Proof.
  intros Ha Hb. destruct P as (T & K & O). split; [exact T|]. split.
  - intros x I. apply K. exact (in_considered k a x Ha I).
  - intros x y Ix Iy. apply O; [exact (in_considered k a x Ha Ix)|exact (selects_in _ _ _ Hb y Iy)].
Qed.
Lemma mapM_forall {A} (f : A -> result unit) l : (exists r, mapM f l = Ok r) <-> forall x, In x l -> f x = Ok tt.
Proof.
  induction l as [|x l IH]; cbn [mapM]; [split; [intros _ y []|intros _; exists []; reflexivity]|]. split.
  - intros [r H]. destruct (f x) as [[]|] eqn:E; [|discriminate]. cbn [bind] in H. destruct (mapM f l) as [r'|] eqn:E'; [|discriminate]. intros y [<-|I]; [exact E|]. apply (proj1 IH); [exists r'; reflexivity|exact I].
  - intros H. rewrite (H x (or_introl eq_refl)). cbn [bind]. destruct (proj2 IH (fun y I => H y (or_intror I))) as [r ->]. eexists. reflexivity.
Qed.
Lemma compare_frames : compare overlap uninitialised threshold minimum latency full = Ok tt <->
  forall k a b, selects (in_frame minimum k) latency a -> selects (in_frame minimum k) full b -> a <> [] ->
    b <> [] /\ compare_frame (get_config overlap d3 threshold) a b = Ok tt.
Proof.
  unfold compare. unfold latency at 1. rewrite fold_last. fold d3.
  set (lm := keyed tuple_ltb tuple_key (filter (considered minimum) latency)). set (fm := keyed tuple_ltb tuple_key (filter (considered minimum) full)).
  set (step := fun kv => _).
  assert (M : (do _ <- mapM step lm; Ok tt) = Ok tt <-> exists r, mapM step lm = Ok r).
  { destruct (mapM step lm) as [r|e]; cbn [bind]; split; try discriminate; [intros _; exists r; reflexivity|reflexivity|intros [r H]; discriminate]. }
  rewrite M, mapM_forall. clear M. split.
  - intros H k a b Ha Hb N. pose proof (selects_fun _ _ _ _ Ha (group_frame minimum k latency)) as Ea. pose proof (selects_fun _ _ _ _ Hb (group_frame minimum k full)) as Eb. fold lm in Ea. fold fm in Eb.
    destruct (get tuple_ltb k lm) as [v|] eqn:G; cbn [or_empty] in Ea; [|contradiction]. subst v.
    specialize (H (k, a) (in_get tuple_ltb strict_tuple _ _ _ G)). unfold step in H. cbn [fst snd] in H.
    destruct (get tuple_ltb k fm) as [w|] eqn:G'; [|discriminate]. cbn [or_empty] in Eb. subst w. split; [|exact H]. intros ->. exact (keyed_nonempty _ _ G').
  - intros H [k v] I. pose proof (get_in tuple_ltb strict_tuple k v lm (keyed_ord _) I) as G. unfold step. cbn [fst snd].
    pose proof (group_frame minimum k latency) as Ha. fold lm in Ha. rewrite G in Ha. cbn [or_empty] in Ha. pose proof (group_frame minimum k full) as Hb. fold fm in Hb.
    assert (N : v <> []) by (intros ->; exact (keyed_nonempty _ _ G)). destruct (H k v _ Ha Hb N) as [N' C]. destruct (get tuple_ltb k fm) as [w|]; [exact C|]. destruct N'. reflexivity.
Qed.
Theorem compare_sound : compare overlap uninitialised threshold minimum latency full = Ok tt ->
  forall k a b, selects (in_frame minimum k) latency a -> selects (in_frame minimum k) full b -> a <> [] ->
    b <> [] /\ exists mu, best (overlap d3) threshold a b mu /\ tolerated a b mu.
Proof.
  intros H k a b Ha Hb N. destruct (proj1 compare_frames H k a b Ha Hb N) as [N' C]. split; [exact N'|].
  destruct (frame_result overlap d3 threshold a b (proper_frame k a b Ha Hb)) as (mu & Bm & I). exists mu. split; [exact Bm|]. apply I. exact C.
Qed.
Theorem compare_complete :
  (forall k a b, selects (in_frame minimum k) latency a -> selects (in_frame minimum k) full b -> a <> [] ->
    b <> [] /\ forall mu, best (overlap d3) threshold a b mu -> tolerated a b mu) ->
  compare overlap uninitialised threshold minimum latency full = Ok tt.
Proof.
  intros H. apply compare_frames. intros k a b Ha Hb N. destruct (H k a b Ha Hb N) as [N' C]. split; [exact N'|].
  destruct (frame_result overlap d3 threshold a b (proper_frame k a b Ha Hb)) as (mu & Bm & I). apply I, C, Bm.
Qed.
Theorem compare_identical : (threshold <= 1)%Q ->
  (forall a, In a latency -> overlap d3 (shape (label_box a)) (shape (label_box a)) == 1)%Q ->
  (forall k a b, In a latency -> In b latency -> in_frame minimum k a -> in_frame minimum k b -> kind (label_box a) = kind (label_box b) ->
    (1 - (1 # 2000000) <= overlap d3 (shape (label_box a)) (shape (label_box b)))%Q -> close a b) ->
  (forall k a b, selects (in_frame minimum k) latency a -> selects (in_frame minimum k) full b -> a <> [] -> Permutation a b) ->
  compare overlap uninitialised threshold minimum latency full = Ok tt.
Proof.
  intros L S0 C H. apply compare_complete. intros k a b Ha Hb N. specialize (H k a b Ha Hb N). split; [intros ->; apply Permutation_sym, Permutation_nil in H; contradiction|].
  pose proof (selects_holds _ _ _ Ha) as F.
  apply (identical_tolerated (overlap d3) threshold a b (proper_frame k a b Ha Hb) H).
  - intros x I. apply S0. exact (selects_in _ _ _ Ha x I).
  - exact L.
  - intros x y Ix Iy. apply (C k); auto; eapply selects_in; eassumption.
Qed.
End Compare.
(** Boxes that overlap fully or not at all. *)
Definition exact_overlap (_ : bool) (a b : nat) : Q := if Nat.eqb a b then 1 else 0.
Definition detection (t : Z) (s : Q) (b : nat) : object (label nat) :=
  let x := {| kind := 1; shape := b; has_heading := true |} in
  {| context := "c"; stamp := t; camera := CAM_UNKNOWN; points := 0; top_points := 0; level := None; visible := None; label_box := x; synced_box := x; score := s |}.
Theorem order_matters : exists a b, a <> b /\
  CompareModel.compare exact_overlap true (9 # 10) 0 [a; b] [a; b] = Ok tt /\
  CompareModel.compare exact_overlap true (9 # 10) 0 [a; b] [b; a] = Err CheckFailed.
Proof. exists (detection 1 (9 # 10) 0), (detection 1 (1 # 2) 0). split; [discriminate|]. split; reflexivity. Qed.
Theorem missing_accepted : exists latency full, latency <> [] /\ (length full > 20 * length latency)%nat /\
  CompareModel.compare exact_overlap true (9 # 10) 0 latency (latency ++ full) = Ok tt.
Proof.
  exists [detection 1 1 0], (repeat (detection 2 1 0) 21). split; [discriminate|]. split; [cbn; lia|]. reflexivity.
Qed.
