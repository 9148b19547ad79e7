(** Proofs about the conversion of motion challenge submissions, and about the overlap rate. *)
From Coq Require Import Permutation Sorting.Sorted Lqa String.
From Verif Require Import Base ResultLib ListLib CutoffModel CutoffProofs MotionModel MotionApSpec MotionApProofs MotionSpec MotionProofs MotionStatsProofs
  MotionValidProofs MotionSubmissionModel MotionSubmissionSpec.
Open Scope Z_scope.

Lemma convert_traj_iff id p t : convert_traj id p = Ok t <-> t = {| tj_id := id; tj_x := po_x p; tj_y := po_y p |} /\ matched p.
Proof.
  unfold convert_traj, matched. destruct (Nat.eqb_spec (List.length (po_x p)) (List.length (po_y p))); cbn [negb].
  - split; [intros [= <-]; now split|intros [-> _]; reflexivity].
  - split; [discriminate|tauto].
Qed.
Lemma convert_single_iff l ms : convert_single l = Ok ms <-> ms = map single_image l /\ forall o s, In o l -> In s (sg_trajs o) -> matched (sd_traj s).
Proof.
  unfold convert_single. rewrite (mapM_iff _ single_image (fun o => forall s, In s (sg_trajs o) -> matched (sd_traj s))).
  - split; intros [-> H]; (split; [reflexivity|]); eauto.
  - intros o b. unfold single_image. apply mapM_iff. intros s j.
    destruct (convert_traj (sg_id o) (sd_traj s)) as [t|] eqn:E; cbn [bind].
    + apply convert_traj_iff in E. destruct E as [-> E]. split; [intros [= <-]; now split|intros [-> _]; reflexivity].
    + split; [discriminate|]. intros [_ H]. exfalso.
      pose proof (proj2 (convert_traj_iff (sg_id o) _ _) (conj eq_refl H)). congruence.
Qed.
Lemma convert_joint_iff l m : convert_joint l = Ok m <->
  m = map joint_image l /\ forall j, In j l -> List.length (sj_trajs j) = 2%nat /\ forall o, In o (sj_trajs j) -> matched (ob_traj o).
Proof.
  unfold convert_joint. apply mapM_iff. intros j b. destruct (Nat.eqb_spec (List.length (sj_trajs j)) 2) as [L|L]; cbn [negb]; [|split; [discriminate|tauto]].
  assert (M : forall ts, mapM (fun o => convert_traj (ob_id o) (ob_traj o)) (sj_trajs j) = Ok ts <->
     ts = map (fun o => {| tj_id := ob_id o; tj_x := po_x (ob_traj o); tj_y := po_y (ob_traj o) |}) (sj_trajs j) /\ forall o, In o (sj_trajs j) -> matched (ob_traj o)).
  { intros ts. apply mapM_iff. intros o t. apply convert_traj_iff. }
  unfold joint_image. destruct (mapM _ _) as [ts|] eqn:E; cbn [bind].
  - clear E. pose proof (proj1 (M ts) eq_refl) as [-> H]. split; [intros [= <-]; auto|intros [-> _]; reflexivity].
  - split; [discriminate|]. intros [_ [_ H]]. pose proof (proj2 (M _) (conj eq_refl H)). discriminate.
Qed.
Theorem convert_challenge_iff c p : convert_challenge c = Ok p <-> well_formed c /\ p = image c.
Proof.
  unfold convert_challenge, well_formed, image. destruct (ch_set c) as [l|l|].
  - destruct (convert_single l) as [ms|] eqn:E; cbn [bind].
    + apply convert_single_iff in E. destruct E as [-> E]. split; [intros [= <-]; auto|intros [_ ->]; reflexivity].
    + split; [discriminate|]. intros [H _]. pose proof (proj2 (convert_single_iff l _) (conj eq_refl H)). congruence.
  - destruct (convert_joint l) as [ms|] eqn:E; cbn [bind].
    + apply convert_joint_iff in E. destruct E as [-> E]. split; [intros [= <-]; auto|intros [_ ->]; reflexivity].
    + split; [discriminate|]. intros [H _]. pose proof (proj2 (convert_joint_iff l _) (conj eq_refl H)). congruence.
  - split; [discriminate|tauto].
Qed.
Theorem validate_challenge_iff p ty : validate_challenge p ty = Ok tt <->
  (ty = SMotion /\ forall m j, In m (pr_mms p) -> In j m -> List.length (jt_trajs j) = 1%nat) \/
  (ty = SInteraction /\ (List.length (pr_mms p) <= 1)%nat /\ forall m j, In m (pr_mms p) -> In j m -> List.length (jt_trajs j) = 2%nat).
Proof.
  assert (F : forall n, forallb (forallb (fun j => Nat.eqb (List.length (jt_trajs j)) n)) (pr_mms p) = true <->
     forall m j, In m (pr_mms p) -> In j m -> List.length (jt_trajs j) = n).
  { intros n. rewrite forallb_forall. split.
    - intros H m j Hm Hj. specialize (H m Hm). rewrite forallb_forall in H. now apply Nat.eqb_eq, H.
    - intros H m Hm. apply forallb_forall. intros j Hj. apply Nat.eqb_eq. eauto. }
  unfold validate_challenge. destruct ty; cbv zeta; cbn [andb].
  - split; [discriminate|]. intros [[? _]|[? _]]; discriminate.
  - specialize (F 1%nat). destruct (forallb _ _).
    + split; [intros _; left; split; [reflexivity|now apply F]|reflexivity].
    + split; [discriminate|]. intros [[_ H]|[? _]]; [|discriminate]. apply F in H. discriminate.
  - specialize (F 2%nat). destruct (Nat.ltb_spec 1 (List.length (pr_mms p))).
    + split; [discriminate|]. intros [[? _]|[_ [? _]]]; [discriminate|lia].
    + destruct (forallb _ _).
      * split; [intros _; right; split; [reflexivity|split; [lia|now apply F]]|reflexivity].
      * split; [discriminate|]. intros [[? _]|[_ [_ H']]]; [discriminate|]. apply F in H'. discriminate.
Qed.
Theorem converted_valid c p : convert_challenge c = Ok p ->
  match ch_set c with
  | SinglePreds _ => validate_challenge p SMotion = Ok tt
  | JointPred _ => validate_challenge p SInteraction = Ok tt
  | NoPreds => False
  end.
Proof.
  intros H. apply convert_challenge_iff in H. destruct H as [W ->]. unfold well_formed in W. destruct (ch_set c) as [l|l|] eqn:E; [| |tauto].
  - apply validate_challenge_iff. left. split; [reflexivity|]. unfold image. rewrite E. cbn [pr_mms]. intros m j Hm Hj.
    apply in_map_iff in Hm. destruct Hm as (o & <- & _). unfold single_image in Hj. apply in_map_iff in Hj. destruct Hj as (s & <- & _). reflexivity.
  - apply validate_challenge_iff. right. split; [reflexivity|]. unfold image. rewrite E. cbn [pr_mms]. split; [cbn [List.length]; lia|].
    intros m j [<-|[]] Hj. apply in_map_iff in Hj. destruct Hj as (s & <- & Hs). cbn [joint_image jt_trajs]. rewrite map_length. now apply W.
Qed.
(** ** The prediction judged by the overlap rate *)
Lemma nth_error_Some_lt {A} (l : list A) i a : nth_error l i = Some a -> (i < List.length l)%nat.
Proof. intros H. apply nth_error_Some. congruence. Qed.
Lemma nth_error_firstn' {A} (l : list A) : forall k i, (i < k)%nat -> nth_error (firstn k l) i = nth_error l i.
Proof. induction l as [|a l IH]; intros [|k] [|i] H; try lia; cbn [firstn nth_error]; auto. apply IH. lia. Qed.
Lemma argmax_spec l : forall pre best v, nth_error (pre ++ l) best = Some v -> (forall x, In x pre -> (x <= v)%Q) ->
  exists w, nth_error (pre ++ l) (argmax l (List.length pre) best v) = Some w /\ forall x, In x (pre ++ l) -> (x <= w)%Q.
Proof.
  induction l as [|y l IH]; intros pre best v Hv Hp; cbn [argmax].
  - exists v. rewrite app_nil_r in *. auto.
  - assert (E : pre ++ y :: l = (pre ++ [y]) ++ l) by now rewrite <- app_assoc. rewrite E in *.
    replace (S (List.length pre)) with (List.length (pre ++ [y])) by (rewrite app_length; cbn [List.length]; lia).
    destruct (Qlt_bool v y) eqn:El.
    + apply qlt_iff in El. apply IH.
      * rewrite nth_error_app1 by (rewrite app_length; cbn [List.length]; lia). rewrite nth_error_app2 by lia. now rewrite Nat.sub_diag.
      * intros x Hx. apply in_app_iff in Hx. destruct Hx as [Hx|[<-|[]]]; [specialize (Hp x Hx)|]; lra.
    + apply qlt_false in El. apply IH; [exact Hv|]. intros x Hx. apply in_app_iff in Hx. destruct Hx as [Hx|[<-|[]]]; [now apply Hp|exact El].
Qed.
Lemma max_element_spec l : l <> [] -> exists w, nth_error l (max_element l) = Some w /\ forall x, In x l -> (x <= w)%Q.
Proof.
  destruct l as [|x l]; [intros H; now elim H|]. intros _. apply (argmax_spec l [x] 0 x); [reflexivity|]. intros y [<-|[]]. lra.
Qed.
Lemma normalized_nth m i j : ~ (qsum (map jt_conf m) == 0)%Q -> nth_error m i = Some j ->
  nth_error (normalized_confidences m) i = Some (jt_conf j / qsum (map jt_conf m))%Q.
Proof.
  intros Hs Hj. unfold normalized_confidences. destruct m as [|j0 m]; [now destruct i|]. cbv zeta.
  destruct (Qeq_bool (qsum (map jt_conf (j0 :: m))) 0) eqn:E; [apply Qeq_bool_iff in E; tauto|].
  erewrite map_nth_error; [reflexivity|]. now apply map_nth_error.
Qed.
Lemma max_pick c m confs : 0 < max_preds c -> m <> [] -> ~ (qsum (map jt_conf m) == 0)%Q -> resize (normalized_confidences m) (max_preds c) = Ok confs ->
  exists j, nth_error m (max_element confs) = Some j /\ In j (firstn (Z.to_nat (max_preds c)) m) /\
    forall j', In j' (firstn (Z.to_nat (max_preds c)) m) -> (jt_conf j' / qsum (map jt_conf m) <= jt_conf j / qsum (map jt_conf m))%Q.
Proof.
  intros HK Hm Hs Hr. pose proof (max_index c m confs Hm Hr) as B. unfold resize in Hr. destruct (Z.ltb_spec (max_preds c) 0); [lia|].
  apply Ok_inj in Hr. set (k := Z.to_nat (max_preds c)) in *. pose proof (normalized_length m) as Hl.
  destruct (nth_error m (max_element confs)) as [j|] eqn:Ej; [|apply nth_error_None in Ej; lia]. exists j. split; [reflexivity|].
  assert (L : List.length confs = k).
  { subst confs. rewrite app_length, firstn_length, repeat_length. lia. }
  assert (Hc : confs <> []) by (intros E; rewrite E in L; cbn [List.length] in L; lia).
  destruct (max_element_spec confs Hc) as (w & Hw & Hmax).
  assert (Bk : (max_element confs < k)%nat) by (apply nth_error_Some_lt in Hw; lia).
  assert (N : forall i j', (i < k)%nat -> nth_error m i = Some j' -> nth_error confs i = Some (jt_conf j' / qsum (map jt_conf m))%Q).
  { intros i j' Hi Hj'. assert (i < List.length m)%nat by (apply nth_error_Some; congruence). subst confs.
    rewrite nth_error_app1 by (rewrite firstn_length; lia). rewrite nth_error_firstn' by exact Hi. now apply normalized_nth. }
  pose proof (N _ _ Bk Ej) as E1. rewrite E1 in Hw. injection Hw as Hw. split.
  - apply (nth_error_In _ (max_element confs)). now rewrite nth_error_firstn'.
  - intros j' Hj'. apply In_nth_error in Hj'. destruct Hj' as [i Hi].
    assert (i < k)%nat by (assert (i < List.length (firstn k m))%nat by (apply nth_error_Some; congruence); rewrite firstn_length in *; lia).
    rewrite nth_error_firstn' in Hi by assumption. pose proof (N i j' ltac:(assumption) Hi) as E2. apply nth_error_In in E2.
    specialize (Hmax _ E2). rewrite <- Hw in Hmax. exact Hmax.
Qed.
Theorem overlap_judges g c ids s n m a : 0 < max_preds c -> m <> [] -> ~ (qsum (map jt_conf m) == 0)%Q -> overlap_rate g c ids s n m = Ok a ->
  exists j trs o, In j (firstn (Z.to_nat (max_preds c)) m) /\ current_tracks c (sc_tracks s) = Ok trs /\
    overlap_trajs g c ids n trs (jt_trajs j) = Ok o /\ one a (if o then 1 else 0) /\
    ((0 < qsum (map jt_conf m))%Q -> forall j', In j' (firstn (Z.to_nat (max_preds c)) m) -> (jt_conf j' <= jt_conf j)%Q) /\
    ((qsum (map jt_conf m) < 0)%Q -> forall j', In j' (firstn (Z.to_nat (max_preds c)) m) -> (jt_conf j <= jt_conf j')%Q).
Proof.
  intros HK Hm Hs H. unfold overlap_rate in H. dbind H trs Et. dbind H confs Ec. dbind H j Ej. dbind H o Eo. apply Ok_inj in H.
  destruct (max_pick c m confs HK Hm Hs Ec) as (j' & N & I1 & I2). rewrite at_nat, N in Ej. injection Ej as ->.
  exists j, trs, o. split; [exact I1|]. split; [reflexivity|]. split; [exact Eo|]. split.
  { subst a. split; [reflexivity|]. cbn [acc_add acc0 a_total]. destruct o; lra. }
  set (S := qsum (map jt_conf m)) in *. split; intros HS k Hk; specialize (I2 k Hk).
  - apply (Qmult_le_compat_r _ _ S) in I2; [|lra]. rewrite !(Qmult_comm _ S), !Qmult_div_r in I2 by exact Hs. exact I2.
  - assert (P : (0 <= - S)%Q) by lra. apply (Qmult_le_compat_r _ _ (- S) I2) in P.
    setoid_replace (jt_conf k / S * - S)%Q with (- jt_conf k)%Q in P by (field; exact Hs).
    setoid_replace (jt_conf j / S * - S)%Q with (- jt_conf j)%Q in P by (field; exact Hs). lra.
Qed.

(** ** One true positive per prediction *)
Lemma answers_perm {A B} (f : A -> result B) l l' r : Permutation l l' -> answers f l r -> exists r', answers f l' r' /\ Permutation r r'.
Proof.
  intros P. revert r. induction P as [|x l l' _ IH|x y l|l l' l'' _ IH1 _ IH2]; intros r H.
  - exists r. split; [exact H|apply Permutation_refl].
  - inversion H as [|? b ? r0 Hb Hr]; subst. destruct (IH _ Hr) as (r' & R1 & R2). exists (b :: r'). split; [now constructor|now constructor].
  - inversion H as [|? b ? r0 Hb Hr]; subst. inversion Hr as [|? b' ? r1 Hb' Hr']; subst.
    exists (b' :: b :: r1). split; [constructor; [assumption|constructor; assumption]|apply perm_swap].
  - destruct (IH1 _ H) as (r1 & R1 & P1). destruct (IH2 _ R1) as (r2 & R2 & P2). exists r2. split; [exact R2|now rewrite P1].
Qed.
Lemma firstn_min {A} (l : list A) k : firstn (Z.to_nat (Z.min (Z.of_nat (List.length l)) k)) l = firstn (Z.to_nat k) l.
Proof.
  destruct (Z.min_spec (Z.of_nat (List.length l)) k) as [[H ->]|[H ->]]; [|reflexivity].
  rewrite Nat2Z.id, firstn_all. symmetry. apply firstn_all2. lia.
Qed.
Lemma some_true_in ms bs : map snd ms = bs -> (some_true ms = true <-> In (Some true) bs).
Proof.
  intros <-. unfold some_true. rewrite existsb_exists, in_map_iff. split.
  - intros ([j o] & I & H). exists (j, o). split; [|exact I]. cbn [snd] in *. destruct o as [[|]|]; congruence.
  - intros ([j o] & E & I). exists (j, o). split; [exact I|]. cbn [snd] in *. now subst o.
Qed.
Lemma some_measured_in ms bs : map snd ms = bs -> (some_measured ms = true <-> exists v, In (Some v) bs).
Proof.
  intros <-. unfold some_measured. rewrite existsb_exists. split.
  - intros ([j o] & I & H). cbn [snd] in *. destruct o as [v|]; [|discriminate]. exists v. apply in_map_iff. now exists (j, Some v).
  - intros (v & H). apply in_map_iff in H. destruct H as ([j o] & E & I). exists (j, o). split; [exact I|]. cbn [snd] in *. now subst o.
Qed.
Lemma nth_repeat {A} (a b : A) n k : nth_error (repeat a n) k = Some b -> b = a.
Proof. intros H. apply nth_error_In in H. now apply repeat_spec in H. Qed.
Theorem map_stats_one g c ids sc soft m l : map_stats g c ids sc soft m = Ok l ->
  (forall b, In b l -> b = ps0) \/
  exists k b bs, nth_error l k = Some b /\ (forall k' b', k' <> k -> nth_error l k' = Some b' -> b' = ps0) /\
    answers (is_match g c ids sc) (firstn (Z.to_nat (max_preds c)) m) bs /\
    (In (Some true) bs -> found (map snd (ps_samples b)) = 1) /\ (~ In (Some true) bs -> found (map snd (ps_samples b)) = 0) /\
    ((exists v, In (Some v) bs) -> ps_num b = 1 /\ ps_samples b <> []) /\ (~ (exists v, In (Some v) bs) -> b = ps0).
Proof.
  assert (E0 : forall l, Ok (repeat ps0 NUM_TYPES) = Ok l -> forall b, In b l -> b = ps0).
  { intros l' E b Hb. apply Ok_inj in E. subst l'. now apply repeat_spec in Hb. }
  unfold map_stats. destruct m as [|j0 m]; [intros H; left; now apply E0|].
  destruct (jt_trajs j0) as [|t ts]; [intros H; left; now apply E0|].
  intros H. dbind H ty Et. destruct ty as [ty|]; [|left; now apply E0].
  apply prediction_type_range in Et. dbind H ms Em. unfold considered in Em. rewrite firstn_min in Em.
  set (cs := firstn (Z.to_nat (max_preds c)) (j0 :: m)) in *.
  assert (A : answers (is_match g c ids sc) (sort_desc cs) (map snd ms)).
  { apply mapM_inv in Em. clear -Em. unfold answers. induction Em as [|j p l r Hp _ IH]; cbn [map]; constructor; [|exact IH].
    dbind Hp o Eo. apply Ok_inj in Hp. now subst p. }
  destruct (answers_perm _ _ _ _ (Permutation_sym (sort_desc_perm cs)) A) as (bs & B1 & B2).
  pose proof (sample_loop_found soft ms false) as F. pose proof (sample_loop_taken soft ms false) as T.
  pose proof (sample_loop_nonempty soft ms) as N.
  pose proof (some_true_in ms _ eq_refl) as T1. pose proof (some_measured_in ms _ eq_refl) as T2.
  destruct (sample_loop soft ms false) as [samples taken]. cbn [fst snd] in *. apply Ok_inj in H. subst l. right.
  assert (Hty : (Z.to_nat ty < NUM_TYPES)%nat) by (unfold NUM_TYPES; lia).
  assert (LF : List.length (firstn (Z.to_nat ty) (repeat ps0 NUM_TYPES)) = Z.to_nat ty) by (rewrite firstn_length, repeat_length; lia).
  eexists (Z.to_nat ty), _, bs. split; [rewrite nth_error_app2 by lia; rewrite LF, Nat.sub_diag; reflexivity|]. split.
  { intros k' b' Hk Hb'. destruct (Nat.lt_ge_cases k' (Z.to_nat ty)).
    - rewrite nth_error_app1 in Hb' by lia. apply nth_error_In, in_firstn in Hb'. now apply repeat_spec in Hb'.
    - rewrite nth_error_app2 in Hb' by lia. destruct (k' - _)%nat eqn:Ek; [lia|]. cbn [nth_error] in Hb'. apply nth_error_In in Hb'.
      apply (repeat_spec NUM_TYPES). rewrite <- (firstn_skipn (S (Z.to_nat ty)) (repeat ps0 NUM_TYPES)). apply in_or_app. now right. }
  split; [exact B1|]. cbn [ps_samples ps_num].
  assert (BT : In (Some true) bs <-> some_true ms = true).
  { rewrite T1. split; apply Permutation_in; [now apply Permutation_sym|exact B2]. }
  assert (BM : (exists v, In (Some v) bs) <-> some_measured ms = true).
  { rewrite T2. split; intros [v Hv]; exists v; revert Hv; apply Permutation_in; [now apply Permutation_sym|exact B2]. }
  rewrite BT, BM. split; [intros E; now rewrite F, E|]. split; [intros E; rewrite F; destruct (some_true ms); [now elim E|reflexivity]|].
  rewrite T. split.
  - intros E. rewrite E. split; [reflexivity|]. now apply N.
  - intros E. destruct (some_measured ms); [now elim E|]. destruct samples as [|s0 sm]; [reflexivity|].
    exfalso. assert (K : false = true) by (apply N; discriminate). discriminate.
Qed.
