(** The displacement error against its description, the features of the log and of the rollouts, generated scenes. *)
From Coq Require Import Reals Permutation Lra.
From Verif Require Import Base ResultLib ListLib MonadLib SimModel SimSpec SimProofs GeomModel TtcModel RoadModel.
From Verif Require Import MfeatModel MfeatSpec MfeatCore MfeatProofs MfeatRows MfeatInter MfeatScene.
Open Scope list_scope.
Open Scope R_scope.

(** * The displacement error is diluted by the history *)
Theorem displacement_diluted {S} (X : extractors S) (sc : full_scenario S) js (b : bool) f : scorable (agents sc) js -> listing X ->
  compute_metric_features X sc js SIM_AGENTS b = Ok f ->
  forall k id s tr, nth_error (f_object_id f) k = Some id -> In s js -> sim_id s = id ->
    In tr (tracks (agents sc)) -> track_id tr = id ->
    exists e, agent_entry (f_ade f) k (Some e) /\ 0 <= e /\
      (let future := skipn 11 (states tr) in
       let u := total_error (sim_x s) (sim_y s) (sim_z s) future in
       (number_valid future = 0%nat -> e = 0) /\
       ((1 <= number_valid future)%nat -> e <= u / INR (number_valid future)) /\
       ((1 <= number_valid future)%nat -> 0 < u -> e < u / INR (number_valid future))).
Proof.
  intros H HX E k id s tr Hk Hs Es Ht Et.
  destruct (displacement_rows X sc js b f H HX E k id s tr Hk Hs Es Ht Et) as (Hv & Hentry).
  set (u := total_error (sim_x s) (sim_y s) (sim_z s) (skipn 11 (states tr))) in *.
  assert (0 <= u) as Hu by apply total_error_nonneg.
  set (h := number_valid (firstn 11 (states tr))) in *. set (m := number_valid (skipn 11 (states tr))) in *.
  exists (u / INR (h + m)). split; [exact Hentry|].
  assert (0 < INR (h + m)) as Hp by (apply lt_0_INR; lia).
  split; [apply Rmult_le_pos; [exact Hu|left; now apply Rinv_0_lt_compat]|].
  cbv zeta. fold m. split; [|split].
  - intros Hm. assert (u = 0) as ->; [|unfold Rdiv; ring].
    unfold u, m in *. clear -Hm. revert Hm. generalize (sim_x s) (sim_y s) (sim_z s) (skipn 11 (states tr)). intros x y z log. revert y z log.
    induction x as [|a x IH]; intros [|b y] [|c z] [|q log]; cbn [total_error]; intros Hm; try reflexivity.
    unfold number_valid in Hm. cbn [filter] in Hm. destruct (s_valid q); [discriminate|]. rewrite (IH y z log Hm). lra.
  - intros Hm. now apply future_mean_bound.
  - intros Hm Hlt. apply Rmult_lt_compat_l; [exact Hlt|]. assert (0 < INR m) as Hm' by (apply lt_0_INR; lia).
    apply Rinv_lt_contravar; [now apply Rmult_lt_0_compat|]. apply lt_INR. lia.
Qed.

Lemma log_error (l : list (state R)) : total_error (map center_x l) (map center_y l) (map center_z l) l = 0.
Proof. pose proof (total_history l [] [] [] []) as H. rewrite !app_nil_r in H. exact H. Qed.

Theorem log_displacement {S} (X : extractors S) (sc : full_scenario S) f : loggable (agents sc) -> listing X ->
  compute_metric_features X sc (map (logged_trajectory SIM_AGENTS) (filter valid_now (tracks (agents sc)))) SIM_AGENTS true = Ok f ->
  f_ade f = [repeat (Some 0) (length (f_object_id f))].
Proof.
  intros Hl HX E. destruct (refused X sc _ true f HX (logged_acceptable _ SIM_AGENTS Hl) E) as (H & _).
  destruct (ids_listed X sc _ true f H HX E) as (_ & Hin & _ & _ & (rows & Erows & Lrows) & _).
  rewrite Erows. f_equal. rewrite <- Lrows.
  assert (forall k a, nth_error rows k = Some a -> a = Some 0) as Q.
  { intros k a Ha. assert (k < length (f_object_id f))%nat as Lk by (rewrite <- Lrows; apply nth_error_Some; congruence).
    destruct (nth_error (f_object_id f) k) as [id|] eqn:Ek; [|apply nth_error_Some in Lk; congruence].
    pose proof (nth_error_In _ _ Ek) as He. apply Hin in He. apply H in He.
    destruct He as (tr & st & Htr & Et & Hc & Hv).
    assert (In tr (filter valid_now (tracks (agents sc)))) as Hf by (apply filter_In; split; [exact Htr|]; unfold valid_now; now rewrite Hc).
    destruct (displacement_rows X sc _ true f H HX E k id (logged_trajectory SIM_AGENTS tr) tr Ek) as (_ & rows' & Er' & Hr'); try assumption.
    { now apply in_map. }
    assert (rows' = rows) as -> by congruence. rewrite Ha in Hr'.
    unfold logged_trajectory in Hr'. cbn [sim_x sim_y sim_z simulated_part] in Hr'. rewrite log_error in Hr'.
    injection Hr' as ->. f_equal. unfold Rdiv. ring. }
  clear -Q. induction rows as [|a rows IH]; [reflexivity|]. cbn [length repeat]. rewrite (Q 0%nat a eq_refl). f_equal. apply IH.
  intros k b Hb. exact (Q (Datatypes.S k) b Hb).
Qed.

(** * Rollouts *)
Definition single (f : features) : Prop :=
  exists ty v a s1 s2 s3 s4 d c t r o e, f = {| f_object_id := f_object_id f; f_object_type := [ty]; f_valid := [v]; f_ade := [a];
    f_speed := [s1]; f_accel := [s2]; f_turn := [s3]; f_turn_accel := [s4]; f_distance := [d]; f_collision := [c]; f_ttc := [t];
    f_road := [r]; f_offroad := [o]; f_red := [e] |}.
Lemma compute_single {S} (X : extractors S) sc js ct b f : compute_metric_features X sc js ct b = Ok f -> single f.
Proof.
  unfold compute_metric_features. intros H. db H a1 E1. db H a2 E2. db H a3 E3. db H a4 E4. db H a5 E5. db H a6 E6. db H a7 E7. db H a8 E8.
  db H a9 E9. db H a10 E10. db H a11 E11. db H a12 E12. db H a13 E13. db H a14 E14. apply Ok_inj in H. subst f.
  repeat eexists.
Qed.

Lemma rollout_loop {S} (X : extractors S) sc ct ids l : forall acc r,
  foldM (add_rollout X sc ct ids) l acc = Ok r <->
  exists fs, mapM (fun js => compute_metric_features X sc js ct false) l = Ok fs /\ (forall f, In f fs -> f_object_id f = ids) /\ r = acc ++ fs.
Proof.
  assert (forall a b, any_different a b = false <-> b = a) as D.
  { induction a as [|x a IH]; intros [|y b]; cbn [any_different]; try (split; [discriminate|congruence]); [tauto|].
    rewrite orb_false_iff, negb_false_iff, Z.eqb_eq, IH. split; [intros (-> & ->); reflexivity|intros [= -> ->]; auto]. }
  induction l as [|js l IH]; intros acc r; cbn [foldM mapM].
  - split.
    + intros Q. apply Ok_inj in Q. subst r. exists []. split; [reflexivity|]. split; [intros f []|now rewrite app_nil_r].
    + intros (fs & Q & _ & ->). apply Ok_inj in Q. subst fs. now rewrite app_nil_r.
  - unfold add_rollout at 1. destruct (compute_metric_features X sc js ct false) as [f|e]; cbn [bind].
    2:{ split; [discriminate|]. intros (fs & Q & _). discriminate. }
    destruct (any_different ids (f_object_id f)) eqn:A; cbn [bind].
    + split; [discriminate|]. intros (fs & Q & Hids & _). apply dbind_ok in Q. destruct Q as (fs' & _ & Q). apply Ok_inj in Q. subst fs.
      assert (any_different ids (f_object_id f) = false) by (apply D, Hids; now left). congruence.
    + apply D in A. rewrite IH. split.
      * intros (fs & -> & Hids & ->). cbn [bind]. exists (f :: fs). split; [reflexivity|]. split; [intros g [<-|Hg]; auto|now rewrite <- app_assoc].
      * intros (fs & Q & Hids & ->). apply dbind_ok in Q. destruct Q as (fs' & E' & Q). apply Ok_inj in Q. subst fs.
        exists fs'. split; [exact E'|]. split; [intros g Hg; apply Hids; now right|now rewrite <- app_assoc].
Qed.

Lemma concat_single {A B} (g : A -> list B) l : (forall f, In f l -> exists a, g f = [a]) ->
  forall i f, nth_error l i = Some f -> nth_error (concat (map g l)) i = nth_error (g f) 0.
Proof.
  induction l as [|f0 l IH]; intros H [|i] f E; try discriminate.
  - injection E as <-. cbn [map concat]. destruct (H f0 (or_introl eq_refl)) as (a & ->). reflexivity.
  - cbn [map concat]. destruct (H f0 (or_introl eq_refl)) as (a & ->). apply IH; [|exact E]. intros f' Hf'. apply H. now right.
Qed.
Lemma concat_single_length {A B} (g : A -> list B) l : (forall f, In f l -> exists a, g f = [a]) -> length (concat (map g l)) = length l.
Proof.
  induction l as [|f0 l IH]; intros H; [reflexivity|]. cbn [map concat length]. destruct (H f0 (or_introl eq_refl)) as (a & ->). cbn [app length]. f_equal.
  apply IH. intros f' Hf'. apply H. now right.
Qed.

Lemma same_increasing l : increasing l -> forall l', increasing l' -> (forall i, In i l <-> In i l') -> l = l'.
Proof.
  induction 1 as [|a l Ha H IH]; intros l' H' E.
  - destruct l' as [|b l']; [reflexivity|]. destruct (proj2 (E b) (or_introl eq_refl)).
  - inversion H' as [Q|b l2 Hb H2 Q]; subst l'.
    + destruct (proj1 (E a) (or_introl eq_refl)).
    + assert (a = b) as ->.
      { destruct (proj1 (E a) (or_introl eq_refl)) as [|Q1]; [now symmetry|]. destruct (proj2 (E b) (or_introl eq_refl)) as [|Q2]; [assumption|].
        specialize (Ha _ Q2). specialize (Hb _ Q1). lia. }
      f_equal. apply IH; [exact H2|]. intros i. specialize (E i). cbn [In] in E. split; intros Q.
      * destruct (proj1 E (or_intror Q)) as [->|]; [|assumption]. specialize (Ha _ Q). lia.
      * destruct (proj2 E (or_intror Q)) as [->|]; [|assumption]. specialize (Hb _ Q). lia.
Qed.

(** All the acceptable scenes of a scenario have the same ids and steps. *)
Lemma common {S} (X : extractors S) (sc : full_scenario S) js js' (b b' : bool) f f' : listing X ->
  acceptable js (agents sc) SIM_AGENTS -> acceptable js' (agents sc) SIM_AGENTS ->
  compute_metric_features X sc js SIM_AGENTS b = Ok f -> compute_metric_features X sc js' SIM_AGENTS b' = Ok f' ->
  f_object_id f = f_object_id f' /\ feature_steps f = feature_steps f'.
Proof.
  intros HX Ha Ha' E E'. destruct (refused X sc js b f HX Ha E) as (H & _), (refused X sc js' b' f' HX Ha' E') as (H' & _).
  destruct (ids_listed X sc js b f H HX E) as (I1 & M1 & _), (ids_listed X sc js' b' f' H' HX E') as (I2 & M2 & _).
  split; [apply same_increasing; [assumption..|]; intros i; now rewrite M1, M2|].
  assert (forall js (b : bool) f, scorable (agents sc) js -> compute_metric_features X sc js SIM_AGENTS b = Ok f -> feature_steps f = 80%nat) as Q.
  { clear - HX. intros js b f H E. destruct (ids_listed X sc js b f H HX E) as (_ & M & _ & (rows & Er & Lr) & _).
    destruct (av_required _ _ _ H) as (id & He). pose proof (proj2 (M id) He) as Hin. destruct H as (Hu & Ha & Hrest).
    assert (In id (map sim_id js)) as Hid by (apply Ha; now apply Hrest). assert (scorable (agents sc) js) as H by (split; [exact Hu|]; split; [exact Ha|exact Hrest]).
    destruct (f_object_id f) as [|id0 ids] eqn:Eids; [destruct Hin|].
    assert (In id0 (map sim_id js)) as Hid0 by (apply Ha; apply H; apply M; now left).
    destruct (agent_exists _ _ _ b _ H Hid0) as (o & tr & Hag).
    destruct (own_rows X sc js b f H HX E 0%nat id0 o tr) as (_ & (rows' & Er' & Hr) & _); [now rewrite Eids|exact Hag|].
    unfold feature_steps. rewrite Er'. cbn [concat app]. rewrite app_nil_r. destruct rows' as [|r rows']; [discriminate|]. cbn [last_dim].
    cbn [nth_error] in Hr. assert (r = (if b then map s_valid (skipn 11 (states tr)) else repeat true 80)) as -> by congruence.
    destruct (agent_lengths _ _ _ _ _ _ _ H Hag) as (_ & _ & _ & _ & _ & _ & _ & _ & L). destruct b; [rewrite map_length, skipn_length, L|rewrite repeat_length]; reflexivity. }
  now rewrite (Q _ _ _ H E), (Q _ _ _ H' E').
Qed.

Theorem rollouts_samples {S} (X : extractors S) (sc : full_scenario S) r log all : listing X ->
  (forall js, In js (joint_scenes r) -> acceptable js (agents sc) SIM_AGENTS) ->
  compute_scenario_rollouts_features X sc r SIM_AGENTS = Ok (log, all) ->
  loggable (agents sc) /\
  compute_metric_features X sc (map (logged_trajectory SIM_AGENTS) (filter valid_now (tracks (agents sc)))) SIM_AGENTS true = Ok log /\
  joint_scenes r <> [] /\ f_object_id all = f_object_id log /\
  (let n := length (joint_scenes r) in
   length (f_object_type all) = n /\ length (f_valid all) = n /\ length (f_ade all) = n /\ length (f_speed all) = n /\
   length (f_accel all) = n /\ length (f_turn all) = n /\ length (f_turn_accel all) = n /\ length (f_distance all) = n /\
   length (f_collision all) = n /\ length (f_ttc all) = n /\ length (f_road all) = n /\ length (f_offroad all) = n /\ length (f_red all) = n) /\
  forall i js, nth_error (joint_scenes r) i = Some js ->
    exists f, compute_metric_features X sc js SIM_AGENTS false = Ok f /\ f_object_id f = f_object_id log /\ sample_is all i f.
Proof.
  intros HX Ha H. unfold compute_scenario_rollouts_features in H. db H scene E1.
  pose proof (to_joint_scene_inv _ _ _ E1) as Hl. rewrite (to_joint_scene_ok _ SIM_AGENTS Hl) in E1. apply Ok_inj in E1. subst scene.
  db H lf E2. db H l E3. db H sf E4. assert (lf = log /\ sf = all) as (-> & ->) by (apply Ok_inj in H; split; congruence).
  apply rollout_loop in E3. destruct E3 as (fs & Efs & Hids & ->). cbn [app] in E4.
  pose proof (mapM_length _ _ _ Efs) as Lfs. apply mapM_inv in Efs.
  assert (forall f, In f fs -> single f) as Hs.
  { intros f Hf. apply In_nth_error in Hf. destruct Hf as (i & Hi). destruct (Forall2_nth_r _ _ _ Efs _ _ Hi) as (js & _ & E).
    eapply compute_single; eassumption. }
  unfold concat_samples in E4. destruct fs as [|f0 fs']; [discriminate|]. destruct (negb _); [discriminate|]. apply Ok_inj in E4.
  set (fs := f0 :: fs') in *. subst all. cbn [f_object_id f_object_type f_valid f_ade f_speed f_accel f_turn f_turn_accel f_distance f_collision f_ttc f_road f_offroad f_red].
  split; [exact Hl|]. split; [exact E2|]. split; [intros Q; rewrite Q in Lfs; discriminate|]. split; [reflexivity|].
  assert (forall B (g : features -> list B), (forall f, single f -> exists a, g f = [a]) -> forall f, In f fs -> exists a, g f = [a]) as W by auto.
  split.
  - cbv zeta. repeat split; (rewrite concat_single_length; [exact Lfs|]); apply W; intros f (a1 & a2 & a3 & a4 & a5 & a6 & a7 & a8 & a9 & a10 & a11 & a12 & a13 & ->); eexists; reflexivity.
  - intros i js Hi. destruct (Forall2_nth _ _ _ Efs _ _ Hi) as (f & Hf & E). exists f. split; [exact E|].
    split; [apply Hids; eapply nth_error_In; eassumption|].
    unfold sample_is. cbn [f_object_id f_object_type f_valid f_ade f_speed f_accel f_turn f_turn_accel f_distance f_collision f_ttc f_road f_offroad f_red].
    repeat split; apply concat_single; try exact Hf; apply W; intros f1 (a1 & a2 & a3 & a4 & a5 & a6 & a7 & a8 & a9 & a10 & a11 & a12 & a13 & ->); eexists; reflexivity.
Qed.

Theorem rollouts_outcome {S} (X : extractors S) (sc : full_scenario S) r : listing X ->
  (forall js, In js (joint_scenes r) -> acceptable js (agents sc) SIM_AGENTS) ->
  (exists p, compute_scenario_rollouts_features X sc r SIM_AGENTS = Ok p) <->
  joint_scenes r <> [] /\ loggable (agents sc) /\
  (exists f, compute_metric_features X sc (map (logged_trajectory SIM_AGENTS) (filter valid_now (tracks (agents sc)))) SIM_AGENTS true = Ok f) /\
  forall js, In js (joint_scenes r) -> exists f, compute_metric_features X sc js SIM_AGENTS false = Ok f.
Proof.
  intros HX Ha. split.
  - intros ((log & all) & H). destruct (rollouts_samples X sc r log all HX Ha H) as (Hl & E & Hne & _ & _ & Hall).
    split; [exact Hne|]. split; [exact Hl|]. split; [eauto|]. intros js Hjs. apply In_nth_error in Hjs. destruct Hjs as (i & Hi).
    destruct (Hall i js Hi) as (f & Ef & _). eauto.
  - intros (Hne & Hl & (log & Elog) & Hall). unfold compute_scenario_rollouts_features. rewrite (to_joint_scene_ok _ SIM_AGENTS Hl). cbn [bind]. rewrite Elog. cbn [bind].
    assert (exists fs, mapM (fun js => compute_metric_features X sc js SIM_AGENTS false) (joint_scenes r) = Ok fs) as (fs & Efs).
    { revert Hall. clear. induction (joint_scenes r) as [|js l IH]; intros Hall; [eexists; reflexivity|]. cbn [mapM]. destruct (Hall js (or_introl eq_refl)) as (f & ->). cbn [bind].
      destruct IH as (fs & ->); [intros js' Hj; apply Hall; now right|]. eexists. reflexivity. }
    assert (forall f, In f fs -> exists js, In js (joint_scenes r) /\ compute_metric_features X sc js SIM_AGENTS false = Ok f) as Hfs.
    { intros f Hf. pose proof (mapM_inv _ _ _ Efs) as Q. apply In_nth_error in Hf. destruct Hf as (i & Hi). destruct (Forall2_nth_r _ _ _ Q _ _ Hi) as (js & Hj & E).
      exists js. split; [eapply nth_error_In; eassumption|exact E]. }
    assert (foldM (add_rollout X sc SIM_AGENTS (f_object_id log)) (joint_scenes r) [] = Ok fs) as ->.
    { apply rollout_loop. exists fs. split; [exact Efs|]. split; [|reflexivity]. intros f Hf. destruct (Hfs f Hf) as (js & Hj & E).
      apply (common X sc js _ false true f log HX (Ha js Hj) (logged_acceptable _ SIM_AGENTS Hl) E Elog). }
    cbn [bind]. unfold concat_samples. destruct fs as [|f0 fs'].
    { pose proof (mapM_length _ _ _ Efs) as L. destruct (joint_scenes r); [contradiction|discriminate]. }
    assert (forallb (fun f => Nat.eqb (feature_steps f) (feature_steps f0)) (f0 :: fs') = true) as ->.
    { apply forallb_forall. intros f Hf. apply Nat.eqb_eq. destruct (Hfs f Hf) as (js & Hj & E), (Hfs f0 (or_introl eq_refl)) as (js0 & Hj0 & E0).
      apply (common X sc js js0 false false f f0 HX (Ha js Hj) (Ha js0 Hj0) E E0). }
    cbn [negb bind]. eauto.
Qed.

Theorem no_rollouts {S} (X : extractors S) (sc : full_scenario S) r f : joint_scenes r = [] -> loggable (agents sc) ->
  compute_metric_features X sc (map (logged_trajectory SIM_AGENTS) (filter valid_now (tracks (agents sc)))) SIM_AGENTS true = Ok f ->
  compute_scenario_rollouts_features X sc r SIM_AGENTS = Err ValueError.
Proof.
  intros Hr Hl E. unfold compute_scenario_rollouts_features. rewrite (to_joint_scene_ok _ SIM_AGENTS Hl). cbn [bind]. rewrite E. cbn [bind]. rewrite Hr. reflexivity.
Qed.

(** * Generated scenes *)
Lemma nth_error_ext {A} (l : list A) : forall l', (forall i, nth_error l i = nth_error l' i) -> l = l'.
Proof.
  induction l as [|a l IH]; intros [|b l'] H.
  - reflexivity.
  - specialize (H 0%nat). discriminate.
  - specialize (H 0%nat). discriminate.
  - f_equal; [specialize (H 0%nat); cbn in H; congruence|]. apply IH. intros i. exact (H (S i)).
Qed.
Theorem generated_rows {S} (X : extractors S) (sc : full_scenario S) js (b : bool) f : loggable (agents sc) -> acceptable js (agents sc) SCENARIO_GEN ->
  NoDup (map sim_id js) ->
  (forall s, In s js -> length (sim_length s) = 91%nat /\ length (sim_width s) = 91%nat /\ length (sim_height s) = 91%nat) -> listing X ->
  compute_metric_features X sc js SCENARIO_GEN b = Ok f ->
  f_object_id f = map track_id (filter valid_now (tracks (agents sc))) /\
  forall k tr s, nth_error (filter valid_now (tracks (agents sc))) k = Some tr -> In s js -> sim_id s = track_id tr ->
    agent_entry (f_object_type f) k (sim_type s) /\ agent_entry (f_ade f) k (Some 0) /\
    agent_entry (f_valid f) k (if b then map s_valid (states tr) else repeat true 91) /\
    exists kin, kinematic X (sim_x s) (sim_y s) (sim_z s) (sim_heading s) = Ok kin /\
      agent_entry (f_speed f) k (k_speed kin) /\ agent_entry (f_accel f) k (k_accel kin) /\
      agent_entry (f_turn f) k (k_turn kin) /\ agent_entry (f_turn_accel f) k (k_turn_accel kin).
Proof.
  intros Hl Ha N Hsz HX E. pose proof Hl as (Hu & (id0 & Hreq) & Ho). pose proof (loggable_reaches _ Hl) as Hr.
  assert (js <> []) as Hne by (intros ->; apply Ha in Hreq; destruct Hreq).
  destruct (generated_ok js (agents sc) 91 Hu Hr Ha Hne Hsz Ho) as (t & Et & Hn & Hobj).
  destruct (of_objs_exists _ t Hn) as (l & -> & Ll).
  assert (l = map generated_object js) as ->.
  { apply nth_error_ext. intros k. rewrite nth_error_map'. destruct (nth_error js k) as [s|] eqn:Es; cbn [option_map].
    - apply of_objs_nth. now apply Hobj.
    - apply nth_error_None. apply nth_error_None in Es. lia. }
  assert (map o_id (map generated_object js) = map sim_id js) as Hids by (rewrite map_map; reflexivity).
  set (ids := map track_id (filter valid_now (tracks (agents sc)))) in *.
  assert (forall id, In id ids <-> required (agents sc) id) as Hin by (intros id; apply in_sim_ids).
  assert (ids <> []) as Hnids by (intros Q; apply Hin in Hreq; rewrite Q in Hreq; destruct Hreq).
  assert (NoDup ids) as Nids.
  { unfold ids. assert (forall ts : list (track R), (forall id, In id (map track_id (filter valid_now ts)) -> occurs_once (map track_id ts) id) -> NoDup (map track_id (filter valid_now ts))) as Q.
    { induction ts as [|t ts IH]; intros Q; [constructor|]. cbn [filter map] in *.
      assert (forall id, In id (map track_id (filter valid_now ts)) -> occurs_once (map track_id ts) id) as Q'.
      { intros id Hid. assert (In id (map track_id (if valid_now t then t :: filter valid_now ts else filter valid_now ts))) as W by (destruct (valid_now t); [now right|exact Hid]).
        destruct (Q id W) as (i & Hi & Hu'). assert (In id (map track_id ts)) as Hm.
        { apply in_map_iff in Hid. destruct Hid as (u & <- & Hu1). apply in_map. now apply filter_In in Hu1. }
        apply In_nth_error in Hm. destruct Hm as (j & Hj). exists j. split; [exact Hj|]. intros j' Hj'.
        pose proof (Hu' (Datatypes.S j) Hj). pose proof (Hu' (Datatypes.S j') Hj'). lia. }
      destruct (valid_now t) eqn:V; [|now apply IH]. cbn [map]. constructor; [|now apply IH].
      intros Hm. apply in_map_iff in Hm. destruct Hm as (u & Eu & Hu1). apply filter_In in Hu1. destruct Hu1 as (Hu1 & _).
      destruct (Q (track_id t)) as (i & Hi & Hu'); [now left|]. pose proof (Hu' 0%nat eq_refl). subst i.
      assert (In (track_id t) (map track_id ts)) as Hm by (rewrite <- Eu; now apply in_map). apply In_nth_error in Hm. destruct Hm as (j & Hj).
      pose proof (Hu' (Datatypes.S j) Hj). lia. }
    apply Q. intros id Hid. apply Ho. now apply Hin. }
  destruct (core X sc js SCENARIO_GEN b (map generated_object js) (map track_object (tracks (agents sc))) ids HX Et (logged_table _ _ Hu))
    as (os & rest & logs & Ec & E1 & E2 & P & Hlogs & _).
  { intros id Hid. rewrite map_map. cbn [track_object o_id]. apply Ho, Ha. now rewrite <- Hids. }
  { cbn [get_evaluation_sim_agent_ids]. now apply sim_ids_ok. }
  { exact Hnids. }
  { exact Nids. }
  { intros id Hid. rewrite Hids. apply Ha. now apply Hin. }
  { now rewrite Hids. }
  rewrite E in Ec. symmetry in Ec. apply assemble_inv in Ec. destruct Ec as (kin & ds & ttc & road & red & ade & K1 & _ & _ & _ & _ & K6 & ->).
  cbn [f_object_id f_object_type f_ade f_valid f_speed f_accel f_turn f_turn_accel after_current]. split; [exact E1|].
  intros k tr s Hk Hs Es.
  assert (nth_error ids k = Some (track_id tr)) as Hik by (unfold ids; now rewrite nth_error_map', Hk).
  assert (nth_error os k = Some (generated_object s)) as Hok.
  { rewrite <- E1, nth_error_map' in Hik. destruct (nth_error os k) as [o|] eqn:Eo; [|discriminate]. cbn [option_map] in Hik. f_equal.
    apply (same_id (map generated_object js)); [now rewrite Hids| |now apply in_map|].
    - apply (Permutation_in _ P). apply in_app_iff. left. eapply nth_error_In; eassumption.
    - cbn [generated_object o_id]. congruence. }
  assert (nth_error logs k = Some (track_object tr)) as Hlk.
  { rewrite <- E2, nth_error_map' in Hik. destruct (nth_error logs k) as [o|] eqn:Eo; [|discriminate]. cbn [option_map] in Hik. f_equal.
    pose proof (Hlogs o (nth_error_In _ _ Eo)) as Q. apply in_map_iff in Q. destruct Q as (tr' & <- & Htr'). f_equal.
    apply nth_error_In, filter_In in Hk. destruct Hk as (Htr & Hv). cbn [track_object o_id] in Hik.
    apply (once_track (tracks (agents sc)) (track_id tr)); [|assumption|assumption|congruence|reflexivity].
    apply Ho, Hin. unfold ids. apply in_map. apply filter_In. auto. }
  assert (length os = length ids /\ length logs = length ids) as (Lo & Llg) by (split; [rewrite <- E1|rewrite <- E2]; now rewrite map_length).
  assert (k < length ids)%nat as Lk by (apply nth_error_Some; congruence).
  split; [|split; [|split]].
  - eexists. split; [reflexivity|]. now rewrite nth_error_map', Hok.
  - eexists. split; [reflexivity|]. rewrite K6. assert (length (if b then map o_valid logs else map o_valid os) = length ids) as -> by (destruct b; now rewrite map_length).
    clear - Lk. revert k Lk. induction (length ids) as [|n IH]; intros [|k] Lk; [lia..|reflexivity|]. cbn [repeat nth_error]. apply IH. lia.
  - eexists. split; [reflexivity|]. destruct b; rewrite nth_error_map'; [now rewrite Hlk|now rewrite Hok].
  - apply mapM_inv in K1. destruct (Forall2_nth _ _ _ K1 _ _ Hok) as (kk & Hkk & Ek). exists kk. split; [exact Ek|].
    repeat split; eexists; (split; [reflexivity|]); now rewrite nth_error_map', Hkk.
Qed.
