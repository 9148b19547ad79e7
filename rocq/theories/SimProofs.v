(** Proofs about the sim agents checks and conversions. *)
From Verif Require Import Base ResultLib ListLib MonadLib SimModel SimSpec.

Local Open Scope Z_scope.

(** * Ids to simulate *)

Lemma zmem_in z l : zmem z l = true <-> In z l.
Proof.
  unfold zmem. rewrite existsb_exists. split.
  - intros (x & Hx & E). apply Z.eqb_eq in E. now subst.
  - intros H. exists z. split; [exact H|apply Z.eqb_refl].
Qed.

Lemma cti ct : current_time_index (submission_config ct) = 10%nat.
Proof. now destruct ct. Qed.

Lemma nss ct : n_simulation_steps (submission_config ct) = steps ct.
Proof. now destruct ct. Qed.

Lemma is_valid_ok {F} ct (t : track F) : (10 < length (states t))%nat ->
  is_valid_sim_agent (submission_config ct) t = Ok (valid_now t).
Proof.
  intros H. unfold is_valid_sim_agent, valid_now. rewrite cti.
  destruct (nth_error (states t) 10) eqn:E; [reflexivity|].
  apply nth_error_None in E. lia.
Qed.

Lemma is_valid_short {F} ct (t : track F) : (length (states t) <= 10)%nat ->
  is_valid_sim_agent (submission_config ct) t = Err IndexError.
Proof.
  intros H. unfold is_valid_sim_agent. rewrite cti.
  apply nth_error_None in H. now rewrite H.
Qed.

Lemma sim_ids_loop {F} ct (l : list (track F)) : forall acc,
  (forall t, In t l -> (10 < length (states t))%nat) ->
  foldM (add_sim_agent (submission_config ct)) l acc =
  Ok (acc ++ map track_id (filter valid_now l)).
Proof.
  induction l as [|t l IH]; intros acc H; cbn [foldM filter map].
  - now rewrite app_nil_r.
  - unfold add_sim_agent at 1. rewrite is_valid_ok by (apply H; now left). cbn [bind].
    rewrite IH by (intros u Hu; apply H; now right).
    destruct (valid_now t); cbn [map]; [now rewrite <- app_assoc|reflexivity].
Qed.

Lemma sim_ids_short {F} ct (l : list (track F)) : forall acc t,
  In t l -> (length (states t) <= 10)%nat ->
  foldM (add_sim_agent (submission_config ct)) l acc = Err IndexError.
Proof.
  induction l as [|u l IH]; intros acc t [].
  - subst u. intros H. cbn [foldM]. unfold add_sim_agent. now rewrite is_valid_short.
  - intros Hs. cbn [foldM]. unfold add_sim_agent at 1.
    destruct (le_lt_dec (length (states u)) 10) as [Hu|Hu].
    + now rewrite is_valid_short.
    + rewrite is_valid_ok by exact Hu. cbn [bind]. eapply IH; eauto.
Qed.

Lemma sim_ids_ok {F} (sc : scenario F) ct : reaches_current sc ->
  get_sim_agent_ids sc ct = Ok (map track_id (filter valid_now (tracks sc))).
Proof. intros H. unfold get_sim_agent_ids. now rewrite sim_ids_loop. Qed.

Lemma sim_ids_fail {F} (sc : scenario F) ct : ~ reaches_current sc ->
  get_sim_agent_ids sc ct = Err IndexError.
Proof.
  intros H. unfold get_sim_agent_ids.
  destruct (existsb (fun t => (length (states t) <=? 10)%nat) (tracks sc)) eqn:E.
  - apply existsb_exists in E. destruct E as (t & Ht & E). apply Nat.leb_le in E.
    eapply sim_ids_short; eauto.
  - exfalso. apply H. intros t Ht. destruct (le_lt_dec (length (states t)) 10) as [L|L]; [|exact L].
    assert (existsb (fun t => (length (states t) <=? 10)%nat) (tracks sc) = true) as E'.
    { apply existsb_exists. exists t. split; [exact Ht|]. now apply Nat.leb_le. }
    congruence.
Qed.

Lemma valid_now_iff {F} (t : track F) :
  valid_now t = true <-> exists s, nth_error (states t) 10 = Some s /\ s_valid s = true.
Proof.
  unfold valid_now. destruct (nth_error (states t) 10) as [s|]; split.
  - intros H. exists s. auto.
  - intros (s' & E & H). now injection E as <-.
  - discriminate.
  - intros (s' & E & H). discriminate.
Qed.

Lemma in_sim_ids {F} (sc : scenario F) id :
  In id (map track_id (filter valid_now (tracks sc))) <-> required sc id.
Proof.
  rewrite in_map_iff. split.
  - intros (t & E & H). apply filter_In in H. destruct H as (H & V).
    apply valid_now_iff in V. destruct V as (s & Hs & V). exists t, s. auto.
  - intros (t & s & H & E & Hs & V). exists t. split; [exact E|].
    apply filter_In. split; [exact H|]. apply valid_now_iff. exists s. auto.
Qed.

Lemma sim_ids_exact {F} (sc : scenario F) ct : reaches_current sc ->
  exists ids, get_sim_agent_ids sc ct = Ok ids /\ (forall id, In id ids <-> required sc id).
Proof. intros H. eexists. split; [now apply sim_ids_ok|]. apply in_sim_ids. Qed.

(** * Validation *)

Lemma wrong_length {A} (l : list A) n :
  raise_if_wrong_length l n = if Nat.eqb (length l) n then Ok tt else Err ValueError.
Proof. reflexivity. Qed.

Lemma check_trajectory_ok {F} ct ids acc (s : sim_trajectory F) :
  full_length (steps ct) s -> In (sim_id s) ids ->
  check_trajectory (submission_config ct) ids acc s = Ok (acc ++ [sim_id s]).
Proof.
  intros (Hx & Hy & Hz & Hh) Hid. unfold check_trajectory. rewrite !wrong_length, !nss.
  rewrite Hx, Hy, Hz, Hh, Nat.eqb_refl. cbn [bind].
  apply zmem_in in Hid. now rewrite Hid.
Qed.

Lemma check_trajectory_fail {F} ct ids acc (s : sim_trajectory F) :
  ~ (full_length (steps ct) s /\ In (sim_id s) ids) ->
  check_trajectory (submission_config ct) ids acc s = Err ValueError.
Proof.
  intros H. unfold check_trajectory. rewrite !wrong_length, !nss.
  destruct (Nat.eqb (length (sim_x s)) (steps ct)) eqn:Ex; cbn [bind]; [|reflexivity].
  destruct (Nat.eqb (length (sim_y s)) (steps ct)) eqn:Ey; cbn [bind]; [|reflexivity].
  destruct (Nat.eqb (length (sim_z s)) (steps ct)) eqn:Ez; cbn [bind]; [|reflexivity].
  destruct (Nat.eqb (length (sim_heading s)) (steps ct)) eqn:Eh; cbn [bind]; [|reflexivity].
  destruct (zmem (sim_id s) ids) eqn:E; [|reflexivity].
  exfalso. apply H. apply Nat.eqb_eq in Ex, Ey, Ez, Eh. apply zmem_in in E.
  unfold full_length. auto.
Qed.

Lemma check_loop_ok {F} ct ids (js : list (sim_trajectory F)) : forall acc,
  (forall s, In s js -> full_length (steps ct) s /\ In (sim_id s) ids) ->
  foldM (check_trajectory (submission_config ct) ids) js acc = Ok (acc ++ map sim_id js).
Proof.
  induction js as [|s js IH]; intros acc H; cbn [foldM map].
  - now rewrite app_nil_r.
  - destruct (H s (or_introl eq_refl)) as (Hl & Hi).
    rewrite check_trajectory_ok by assumption. cbn [bind].
    rewrite IH by (intros u Hu; apply H; now right). now rewrite <- app_assoc.
Qed.

Lemma check_loop_cases {F} ct ids (js : list (sim_trajectory F)) : forall acc,
  (forall s, In s js -> full_length (steps ct) s /\ In (sim_id s) ids) \/
  foldM (check_trajectory (submission_config ct) ids) js acc = Err ValueError.
Proof.
  induction js as [|s js IH]; intros acc.
  - left. intros s [].
  - assert ({full_length (steps ct) s /\ In (sim_id s) ids} +
            {~ (full_length (steps ct) s /\ In (sim_id s) ids)}) as [(Hl & Hi)|Hn].
    { unfold full_length.
      destruct (Nat.eq_dec (length (sim_x s)) (steps ct)); [|right; intuition].
      destruct (Nat.eq_dec (length (sim_y s)) (steps ct)); [|right; intuition].
      destruct (Nat.eq_dec (length (sim_z s)) (steps ct)); [|right; intuition].
      destruct (Nat.eq_dec (length (sim_heading s)) (steps ct)); [|right; intuition].
      destruct (in_dec Z.eq_dec (sim_id s) ids); [left|right]; intuition. }
    + destruct (IH (acc ++ [sim_id s])) as [H|H].
      * left. intros u [<-|Hu]; auto.
      * right. cbn [foldM]. rewrite check_trajectory_ok by assumption. exact H.
    + right. cbn [foldM]. now rewrite check_trajectory_fail.
Qed.

Lemma filter_nil {A} (f : A -> bool) l : filter f l = [] <-> forall a, In a l -> f a = false.
Proof.
  induction l as [|a l IH]; cbn [filter].
  - split; [intros _ b []|reflexivity].
  - destruct (f a) eqn:E; split.
    + discriminate.
    + intros H. specialize (H a (or_introl eq_refl)). congruence.
    + intros H b [<-|Hb]; [exact E|]. now apply IH.
    + intros H. apply IH. intros b Hb. apply H. now right.
Qed.

Lemma validate_cases {F} (js : list (sim_trajectory F)) sc ct : reaches_current sc ->
  (acceptable js sc ct /\ validate_joint_scene js sc ct = Ok tt) \/
  (~ acceptable js sc ct /\ validate_joint_scene js sc ct = Err ValueError).
Proof.
  intros H. unfold validate_joint_scene. rewrite sim_ids_ok by exact H. cbn [bind].
  destruct (check_loop_cases ct (map track_id (filter valid_now (tracks sc))) js []) as [G|G].
  - rewrite check_loop_ok by exact G. cbn [bind app].
    destruct (filter (fun i => negb (zmem i (map sim_id js)))
                     (map track_id (filter valid_now (tracks sc)))) as [|m ms] eqn:E.
    + left. split; [|reflexivity]. split.
      * intros s Hs. now apply G.
      * intros id. split.
        -- intros Hid. apply in_map_iff in Hid. destruct Hid as (s & <- & Hs).
           apply in_sim_ids. now apply G.
        -- intros Hr. apply in_sim_ids in Hr.
           pose proof (proj1 (filter_nil _ _) E id Hr) as Q.
           apply negb_false_iff in Q. now apply zmem_in.
    + right. split; [|reflexivity]. intros (_ & A).
      assert (In m (m :: ms)) as Hm by now left. rewrite <- E in Hm.
      apply filter_In in Hm. destruct Hm as (Hm & Q). apply negb_true_iff in Q.
      apply in_sim_ids in Hm. apply A in Hm. apply zmem_in in Hm. congruence.
  - right. rewrite G. split; [|reflexivity]. intros (A & B).
    rewrite check_loop_ok in G; [discriminate|].
    intros s Hs. split; [now apply A|]. apply in_sim_ids. apply B. now apply in_map.
Qed.

Lemma validate_short {F} (js : list (sim_trajectory F)) sc ct : ~ reaches_current sc ->
  validate_joint_scene js sc ct = Err IndexError.
Proof. intros H. unfold validate_joint_scene. now rewrite sim_ids_fail. Qed.

Lemma reaches_dec {F} (sc : scenario F) : reaches_current sc \/ ~ reaches_current sc.
Proof.
  unfold reaches_current. induction (tracks sc) as [|t l IH].
  - left. intros t [].
  - destruct (le_lt_dec (length (states t)) 10) as [L|L].
    + right. intros H. specialize (H t (or_introl eq_refl)). lia.
    + destruct IH as [IH|IH].
      * left. intros u [<-|Hu]; auto.
      * right. intros H. apply IH. intros u Hu. apply H. now right.
Qed.

Lemma validate_exact {F} (js : list (sim_trajectory F)) sc ct :
  (validate_joint_scene js sc ct = Ok tt <-> reaches_current sc /\ acceptable js sc ct) /\
  (validate_joint_scene js sc ct = Err IndexError <-> ~ reaches_current sc) /\
  (validate_joint_scene js sc ct = Err ValueError <-> reaches_current sc /\ ~ acceptable js sc ct).
Proof.
  destruct (reaches_dec sc) as [H|H].
  - destruct (validate_cases js sc ct H) as [(A & E)|(A & E)]; rewrite E;
      (split; [|split]); split; intros Q; try discriminate; try tauto.
  - rewrite validate_short by exact H.
    (split; [|split]); split; intros Q; try discriminate; try tauto.
Qed.

Lemma foldM_unit {A} (f : A -> result unit) l :
  foldM (fun _ a => f a) l tt = Ok tt <-> forall a, In a l -> f a = Ok tt.
Proof.
  induction l as [|a l IH]; cbn [foldM].
  - split; [intros _ a []|reflexivity].
  - destruct (f a) as [[]|e] eqn:E; cbn [bind].
    + rewrite IH. split; intros H.
      * intros b [<-|Hb]; auto.
      * intros b Hb. apply H. now right.
    + split; [discriminate|]. intros H. specialize (H a (or_introl eq_refl)). congruence.
Qed.

Lemma validate_rollouts_exact {F} (r : rollouts F) sc ct :
  validate_scenario_rollouts r sc ct = Ok tt <->
  (exists id, rollouts_id r = Some id) /\ length (joint_scenes r) = 32%nat /\
  reaches_current sc /\ forall js, In js (joint_scenes r) -> acceptable js sc ct.
Proof.
  unfold validate_scenario_rollouts.
  destruct (rollouts_id r) as [id|]; [|split; [discriminate|intros ((id & E) & _); discriminate]].
  replace (n_rollouts (submission_config ct)) with 32%nat by now destruct ct.
  destruct (Nat.eqb (length (joint_scenes r)) 32) eqn:E; cbn [negb].
  - apply Nat.eqb_eq in E. rewrite foldM_unit. split.
    + intros H. split; [now exists id|]. split; [exact E|]. split.
      * destruct (joint_scenes r) as [|js l]; [discriminate|].
        apply (proj1 (proj1 (validate_exact js sc ct)) (H js (or_introl eq_refl))).
      * intros js Hjs. apply (proj1 (proj1 (validate_exact js sc ct)) (H js Hjs)).
    + intros (_ & _ & R & A) js Hjs. apply validate_exact. auto.
  - split; [discriminate|]. intros (_ & L & _). apply Nat.eqb_neq in E. contradiction.
Qed.

Lemma validate_rollouts_errors {F} (r : rollouts F) sc ct e :
  validate_scenario_rollouts r sc ct = Err e -> reaches_current sc -> e = ValueError.
Proof.
  unfold validate_scenario_rollouts. intros H R.
  destruct (rollouts_id r); [|congruence].
  destruct (negb _); [congruence|].
  induction (joint_scenes r) as [|js l IH]; cbn [foldM] in H; [discriminate|].
  destruct (validate_cases js sc ct R) as [(_ & E)|(_ & E)]; rewrite E in H; cbn [bind] in H.
  - auto.
  - congruence.
Qed.

(** * Evaluated agents *)

Lemma set_add_in z l y : In y (set_add z l) <-> y = z \/ In y l.
Proof.
  induction l as [|a l IH]; cbn [set_add].
  - split; intros [|]; auto; contradiction || (left; auto).
  - destruct (z <? a) eqn:E1; [cbn [In]; intuition|].
    destruct (z =? a) eqn:E2.
    + apply Z.eqb_eq in E2. subst a. cbn [In]. intuition.
    + cbn [In]. rewrite IH. intuition.
Qed.

Lemma set_add_increasing z l : increasing l -> increasing (set_add z l).
Proof.
  induction 1 as [|a l H Hl IH]; cbn [set_add].
  - constructor; [intros b []|constructor].
  - destruct (z <? a) eqn:E1.
    + apply Z.ltb_lt in E1. constructor.
      * intros b [<-|Hb]; [lia|]. specialize (H b Hb). lia.
      * constructor; auto.
    + apply Z.ltb_ge in E1. destruct (z =? a) eqn:E2; [constructor; auto|].
      apply Z.eqb_neq in E2. constructor; [|exact IH].
      intros b Hb. apply set_add_in in Hb. destruct Hb as [->|Hb]; [lia|auto].
Qed.

Lemma py_nth_iff {A} (l : list A) i a : py_nth l i = Ok a <->
  exists j, nth_error l j = Some a /\
    (i = Z.of_nat j \/ (i < 0 /\ i + Z.of_nat (length l) = Z.of_nat j)).
Proof.
  unfold py_nth. destruct (i <? 0) eqn:E.
  - apply Z.ltb_lt in E. destruct (i + Z.of_nat (length l) <? 0) eqn:E2.
    + apply Z.ltb_lt in E2. split; [discriminate|]. intros (j & _ & [H|(_ & H)]); lia.
    + apply Z.ltb_ge in E2.
      destruct (nth_error l (Z.to_nat (i + Z.of_nat (length l)))) eqn:N; split.
      * intros H. injection H as <-. eexists. split; [exact N|]. right. lia.
      * intros (j & Hj & [H|(_ & H)]); [lia|].
        replace (Z.to_nat (i + Z.of_nat (length l))) with j in N by lia. congruence.
      * discriminate.
      * intros (j & Hj & [H|(_ & H)]); [lia|].
        replace (Z.to_nat (i + Z.of_nat (length l))) with j in N by lia. congruence.
  - rewrite E. apply Z.ltb_ge in E.
    destruct (nth_error l (Z.to_nat i)) eqn:N; split.
    + intros H. injection H as <-. eexists. split; [exact N|]. left. lia.
    + intros (j & Hj & [H|(H & _)]); [|lia]. replace (Z.to_nat i) with j in N by lia. congruence.
    + discriminate.
    + intros (j & Hj & [H|(H & _)]); [|lia]. replace (Z.to_nat i) with j in N by lia. congruence.
Qed.

Lemma eval_loop {F} (ts : list (track F)) l : forall acc r,
  increasing acc ->
  foldM (fun ids i => do t <- py_nth ts i; Ok (set_add (track_id t) ids)) l acc = Ok r ->
  increasing r /\
  (forall id, In id r <-> In id acc \/ exists i t, In i l /\ py_nth ts i = Ok t /\ track_id t = id).
Proof.
  induction l as [|i l IH]; intros acc r Hi H; cbn [foldM] in H.
  - injection H as <-. split; [exact Hi|]. intros id. split; [auto|].
    intros [H|(i & t & [] & _)]; exact H.
  - dbind H acc' E. dbind E t Et. injection E as <-.
    apply IH in H; [|now apply set_add_increasing]. destruct H as (H1 & H2).
    split; [exact H1|]. intros id. rewrite H2, set_add_in. split.
    + intros [[->|H]|(j & u & Hj & Hu & Eu)].
      * right. exists i, t. split; [now left|auto].
      * now left.
      * right. exists j, u. split; [now right|auto].
    + intros [H|(j & u & [<-|Hj] & Hu & Eu)].
      * auto.
      * left. left. congruence.
      * right. exists j, u. auto.
Qed.

Lemma eval_ids_exact {F} (sc : scenario F) ids :
  get_evaluation_sim_agent_ids sc SIM_AGENTS = Ok ids ->
  increasing ids /\
  forall id, In id ids <->
    exists i t, (i = sdc_track_index sc \/ In i (tracks_to_predict sc)) /\
                track_at sc i t /\ track_id t = id.
Proof.
  unfold get_evaluation_sim_agent_ids. intros H. dbind H av E.
  apply eval_loop in H; [|apply set_add_increasing; constructor].
  destruct H as (H1 & H2). split; [exact H1|]. intros id. rewrite H2, set_add_in. split.
  - intros [[->|[]]|(i & t & Hi & Ht & Et)].
    + exists (sdc_track_index sc), av. split; [auto|]. split; [now apply py_nth_iff|reflexivity].
    + exists i, t. split; [auto|]. split; [now apply py_nth_iff|exact Et].
  - intros (i & t & [->|Hi] & Ht & Et); apply py_nth_iff in Ht.
    + left. left. congruence.
    + right. exists i, t. auto.
Qed.

Lemma eval_loop_total {F} (ts : list (track F)) l : forall acc,
  (forall i, In i l -> exists t, py_nth ts i = Ok t) ->
  exists r, foldM (fun ids i => do t <- py_nth ts i; Ok (set_add (track_id t) ids)) l acc = Ok r.
Proof.
  induction l as [|i l IH]; intros acc H; cbn [foldM].
  - now exists acc.
  - destruct (H i (or_introl eq_refl)) as (t & ->). cbn [bind].
    apply IH. intros j Hj. apply H. now right.
Qed.

Lemma eval_loop_inv {F} (ts : list (track F)) l : forall acc r,
  foldM (fun ids i => do t <- py_nth ts i; Ok (set_add (track_id t) ids)) l acc = Ok r ->
  forall i, In i l -> exists t, py_nth ts i = Ok t.
Proof.
  induction l as [|i l IH]; intros acc r H j Hj; [destruct Hj|]. cbn [foldM] in H.
  dbind H acc' E. dbind E t Et. destruct Hj as [<-|Hj]; [now exists t|]. eapply IH; eauto.
Qed.

Lemma eval_ids_total {F} (sc : scenario F) :
  (exists ids, get_evaluation_sim_agent_ids sc SIM_AGENTS = Ok ids) <->
  (forall i, i = sdc_track_index sc \/ In i (tracks_to_predict sc) -> exists t, track_at sc i t).
Proof.
  unfold get_evaluation_sim_agent_ids. split.
  - intros (ids & H) i Hi. dbind H av E.
    assert (exists t, py_nth (tracks sc) i = Ok t) as (t & Ht).
    { destruct Hi as [->|Hi]; [now exists av|]. eapply eval_loop_inv; eauto. }
    exists t. now apply py_nth_iff.
  - intros H. destruct (H (sdc_track_index sc) (or_introl eq_refl)) as (t & Ht).
    apply py_nth_iff in Ht. rewrite Ht. cbn [bind]. apply eval_loop_total.
    intros i Hi. destruct (H i (or_intror Hi)) as (u & Hu). exists u. now apply py_nth_iff.
Qed.

(** * Gathering *)

Definition occ (l : list Z) r := sumZ (bit_mask l r).

Lemma occ_nonneg l r : 0 <= occ l r.
Proof.
  unfold occ, bit_mask. induction l as [|a l IH]; cbn [map sumZ fold_right]; [lia|].
  unfold sumZ in IH. destruct (a =? r); lia.
Qed.

Lemma occ_cons a l r : occ (a :: l) r = (if a =? r then 1 else 0) + occ l r.
Proof. reflexivity. Qed.

Lemma occ_pos l r : 1 <= occ l r <-> In r l.
Proof.
  induction l as [|a l IH].
  - split; [unfold occ, bit_mask; cbn [map sumZ fold_right]; lia|intros []].
  - rewrite occ_cons. pose proof (occ_nonneg l r). destruct (a =? r) eqn:E.
    + apply Z.eqb_eq in E. split; [now left|lia].
    + apply Z.eqb_neq in E. rewrite Z.add_0_l, IH. cbn [In]. intuition.
Qed.

Lemma occ_once l r : occ l r = 1 <-> occurs_once l r.
Proof.
  split.
  - induction l as [|a l IH]; intros H.
    + discriminate H.
    + rewrite occ_cons in H. destruct (a =? r) eqn:E.
      * apply Z.eqb_eq in E. subst a. exists O. split; [reflexivity|].
        intros [|j] Hj; [reflexivity|]. cbn [nth_error] in Hj. apply nth_error_In in Hj.
        apply occ_pos in Hj. lia.
      * destruct IH as (i & Hi & Hu); [lia|]. exists (S i). split; [exact Hi|].
        intros [|j] Hj; cbn [nth_error] in Hj.
        -- injection Hj as Hj. apply Z.eqb_neq in E. contradiction.
        -- f_equal. now apply Hu.
  - induction l as [|a l IH]; intros (i & Hi & Hu).
    + destruct i; discriminate.
    + rewrite occ_cons. destruct (a =? r) eqn:E.
      * apply Z.eqb_eq in E. subst a.
        assert (O = i) as <- by (apply Hu; reflexivity).
        enough (~ 1 <= occ l r) by (pose proof (occ_nonneg l r); lia).
        rewrite occ_pos. intros H. apply In_nth_error in H. destruct H as (j & Hj).
        specialize (Hu (S j) Hj). discriminate.
      * destruct i as [|i]; cbn [nth_error] in Hi.
        -- injection Hi as Hi. apply Z.eqb_neq in E. contradiction.
        -- rewrite IH; [reflexivity|]. exists i. split; [exact Hi|].
           intros j Hj. specialize (Hu (S j) Hj). lia.
Qed.

Lemma mask_index_gen l r : forall k,
  sumZ (map (fun p => fst p * snd p) (combine (bit_mask l r) (map Z.of_nat (seq k (length l)))))
  = Z.of_nat k * occ l r
    + sumZ (map (fun p => fst p * snd p) (combine (bit_mask l r) (map Z.of_nat (seq 0 (length l))))).
Proof.
  induction l as [|a l IH]; intros k.
  - unfold occ. cbn [bit_mask map combine sumZ fold_right]. lia.
  - rewrite occ_cons. unfold bit_mask. cbn [length seq map combine sumZ fold_right fst snd].
    fold (bit_mask l r).
    pose proof (IH (S k)) as H1. pose proof (IH 1%nat) as H2. unfold sumZ in H1, H2.
    rewrite H1, H2. unfold sumZ. destruct (a =? r); lia.
Qed.

Lemma mask_index_once l r i : occ l r = 1 -> nth_error l i = Some r -> mask_index l r = Z.of_nat i.
Proof.
  unfold mask_index. revert i. induction l as [|a l IH]; intros i H Hi.
  - destruct i; discriminate.
  - rewrite occ_cons in H. unfold bit_mask. cbn [length seq map combine sumZ fold_right fst snd].
    fold (bit_mask l r).
    pose proof (mask_index_gen l r 1) as H2. unfold sumZ in H2. rewrite H2.
    destruct (a =? r) eqn:E.
    + assert (occ l r = 0) as Z0 by lia. rewrite Z0.
      destruct i as [|i].
      * assert (forall q, (forall x, In x q -> (x =? r) = false) ->
          fold_right Z.add 0 (map (fun p => fst p * snd p)
             (combine (bit_mask q r) (map Z.of_nat (seq 0 (length q))))) = 0) as G.
        { clear. intros q. generalize O as k. induction q as [|b q IH]; intros k H; [reflexivity|].
          unfold bit_mask. cbn [length seq map combine fold_right fst snd]. fold (bit_mask q r).
          rewrite (H b (or_introl eq_refl)). rewrite IH; [lia|]. intros x Hx. apply H. now right. }
        rewrite G; [lia|]. intros x Hx. apply Z.eqb_neq. intros ->.
        apply occ_pos in Hx. lia.
      * cbn [nth_error] in Hi. apply nth_error_In in Hi. apply occ_pos in Hi. lia.
    + destruct i as [|i]; cbn [nth_error] in Hi.
      * injection Hi as ->. apply Z.eqb_neq in E. contradiction.
      * assert (occ l r = 1) as H1 by lia.
        specialize (IH i H1 Hi). unfold sumZ in IH. rewrite IH, H1. lia.
Qed.

Lemma arg_gather_ok tensor reference :
  (forall r, In r reference -> occurs_once tensor r) ->
  arg_gather tensor reference = Ok (map (mask_index tensor) reference).
Proof.
  intros H. unfold arg_gather.
  destruct (existsb (fun r => sumZ (bit_mask tensor r) <? 1) reference) eqn:E1.
  { apply existsb_exists in E1. destruct E1 as (r & Hr & E). apply Z.ltb_lt in E.
    apply H, occ_once in Hr. unfold occ in Hr. lia. }
  destruct (existsb (fun r => 1 <? sumZ (bit_mask tensor r)) reference) eqn:E2; [|reflexivity].
  apply existsb_exists in E2. destruct E2 as (r & Hr & E). apply Z.ltb_lt in E.
  apply H, occ_once in Hr. unfold occ in Hr. lia.
Qed.

Lemma arg_gather_cases tensor reference :
  (forall r, In r reference -> occurs_once tensor r) \/
  ((exists r, In r reference /\ ~ occurs_once tensor r) /\
   arg_gather tensor reference = Err ValueError).
Proof.
  unfold arg_gather.
  destruct (existsb (fun r => sumZ (bit_mask tensor r) <? 1) reference) eqn:E1.
  - right. split; [|reflexivity].
    apply existsb_exists in E1. destruct E1 as (r & Hr & E). apply Z.ltb_lt in E.
    exists r. split; [exact Hr|]. intros O1. apply occ_once in O1. unfold occ in O1. lia.
  - destruct (existsb (fun r => 1 <? sumZ (bit_mask tensor r)) reference) eqn:E2.
    + right. split; [|reflexivity].
      apply existsb_exists in E2. destruct E2 as (r & Hr & E). apply Z.ltb_lt in E.
      exists r. split; [exact Hr|]. intros O1. apply occ_once in O1. unfold occ in O1. lia.
    + left. intros r Hr. apply occ_once. unfold occ.
      destruct (Z.lt_trichotomy (sumZ (bit_mask tensor r)) 1) as [L|[L|L]]; [|exact L|].
      * exfalso. assert (existsb (fun r => sumZ (bit_mask tensor r) <? 1) reference = true) as Q.
        { apply existsb_exists. exists r. split; [exact Hr|]. now apply Z.ltb_lt. }
        congruence.
      * exfalso. assert (existsb (fun r => 1 <? sumZ (bit_mask tensor r)) reference = true) as Q.
        { apply existsb_exists. exists r. split; [exact Hr|]. now apply Z.ltb_lt. }
        congruence.
Qed.

(** A table is the list of its objects. *)
Definition of_objs {F} (l : list (obj F)) : trajectories F :=
  {| tr_x := map o_x l; tr_y := map o_y l; tr_z := map o_z l; tr_heading := map o_heading l;
     tr_length := map o_length l; tr_width := map o_width l; tr_height := map o_height l;
     tr_valid := map o_valid l; tr_id := map o_id l; tr_type := map o_type l |}.

Lemma of_objs_exists {F} n : forall (t : trajectories F), n_objects t n ->
  exists l, t = of_objs l /\ length l = n.
Proof.
  unfold n_objects. induction n as [|n IH]; intros [x y z h l w ht v i ty];
    cbn [tr_x tr_y tr_z tr_heading tr_length tr_width tr_height tr_valid tr_id tr_type];
    intros (H1 & H2 & H3 & H4 & H5 & H6 & H7 & H8 & H9 & H10).
  - apply length_zero_iff_nil in H1, H2, H3, H4, H5, H6, H7, H8, H9, H10. subst.
    exists []. split; reflexivity.
  - destruct x as [|x1 x], y as [|y1 y], z as [|z1 z], h as [|h1 h], l as [|l1 l], w as [|w1 w],
      ht as [|ht1 ht], v as [|v1 v], i as [|i1 i], ty as [|ty1 ty]; try discriminate.
    cbn [length] in *.
    destruct (IH {| tr_x := x; tr_y := y; tr_z := z; tr_heading := h; tr_length := l;
                    tr_width := w; tr_height := ht; tr_valid := v; tr_id := i; tr_type := ty |})
      as (os & E & L).
    { cbn [tr_x tr_y tr_z tr_heading tr_length tr_width tr_height tr_valid tr_id tr_type].
      repeat split; lia. }
    exists (Obj x1 y1 z1 h1 l1 w1 ht1 v1 i1 ty1 :: os). split; [|cbn [length]; lia].
    unfold of_objs in *. injection E as -> -> -> -> -> -> -> -> -> ->. reflexivity.
Qed.

Lemma of_objs_n {F} (l : list (obj F)) : n_objects (of_objs l) (length l).
Proof. unfold n_objects, of_objs. cbn. rewrite !map_length. repeat split. Qed.

Lemma of_objs_nth {F} (l : list (obj F)) k o : nth_error l k = Some o <-> nth_object (of_objs l) k o.
Proof.
  unfold nth_object, of_objs.
  cbn [tr_x tr_y tr_z tr_heading tr_length tr_width tr_height tr_valid tr_id tr_type].
  rewrite !nth_error_map'. split.
  - intros ->. cbn [option_map]. repeat split.
  - destruct (nth_error l k) as [q|]; cbn [option_map].
    + intros (H1 & H2 & H3 & H4 & H5 & H6 & H7 & H8 & H9 & H10).
      destruct q, o. cbn in *. congruence.
    + intros (H1 & _). discriminate.
Qed.

Lemma gather_map {A B} (f : A -> B) (l : list A) is (os : list A) :
  Forall2 (fun i o => nth_error l i = Some o) is os ->
  gather (map f l) (map Z.of_nat is) = Ok (map f os).
Proof.
  intros H. unfold gather. induction H as [|i o is os Hio H IH]; cbn [map mapM]; [reflexivity|].
  rewrite (proj2 (Z.ltb_ge (Z.of_nat i) 0)) by lia.
  rewrite Nat2Z.id, nth_error_map', Hio. cbn [option_map bind]. rewrite IH. reflexivity.
Qed.

Lemma gather_objects_of {F} (l : list (obj F)) is os :
  Forall2 (fun i o => nth_error l i = Some o) is os ->
  gather_objects (of_objs l) (map Z.of_nat is) = Ok (of_objs os).
Proof.
  intros H. unfold gather_objects, of_objs.
  cbn [tr_x tr_y tr_z tr_heading tr_length tr_width tr_height tr_valid tr_id tr_type].
  rewrite !(gather_map _ _ _ _ H). reflexivity.
Qed.

Lemma gather_ids_of {F} (l : list (obj F)) ids :
  (forall id, In id ids -> occurs_once (map o_id l) id) ->
  exists os, gather_objects_by_id (of_objs l) ids = Ok (of_objs os) /\
             map o_id os = ids /\
             Forall2 (fun id o => In o l /\ o_id o = id) ids os.
Proof.
  intros H. unfold gather_objects_by_id. cbn [of_objs tr_id].
  rewrite arg_gather_ok by exact H. cbn [bind].
  assert (exists is, Forall2 (fun id i => nth_error (map o_id l) i = Some id) ids is) as (is & His).
  { apply Forall2_exists. intros id Hid. destruct (H id Hid) as (i & Hi & _). now exists i. }
  assert (map (mask_index (map o_id l)) ids = map Z.of_nat is) as E.
  { clear -H His. induction His as [|id i ids is Hi His IH]; cbn [map]; [reflexivity|].
    f_equal.
    - apply mask_index_once; [|exact Hi]. apply occ_once, H. now left.
    - apply IH. intros r Hr. apply H. now right. }
  rewrite E.
  assert (exists os, Forall2 (fun i o => nth_error l i = Some o) is os) as (os & Hos).
  { apply Forall2_exists. intros i Hi. clear E. apply In_nth_error in Hi. destruct Hi as (k & Hk).
    destruct (Forall2_nth_r _ _ _ His _ _ Hk) as (id & _ & Q). rewrite nth_error_map' in Q.
    destruct (nth_error l i) as [o|]; [now exists o|discriminate]. }
  exists os. split; [now apply gather_objects_of|].
  assert (Forall2 (fun id o => In o l /\ o_id o = id) ids os) as G.
  { clear -His Hos. revert os Hos. induction His as [|id i ids is Hi His IH]; intros os Hos.
    - inversion Hos. constructor.
    - inversion Hos as [|i' o is' os' Ho Hos' E1 E2]; subst. constructor; [|now apply IH].
      split; [now apply nth_error_In in Ho|]. rewrite nth_error_map', Ho in Hi. cbn in Hi. congruence. }
  split; [|exact G].
  clear -G. induction G as [|id o ids os (_ & E) G IH]; cbn [map]; congruence.
Qed.

Lemma occurs_once_objs {F} (l : list (obj F)) id o o' :
  occurs_once (map o_id l) id -> In o l -> In o' l -> o_id o = id -> o_id o' = id -> o = o'.
Proof.
  intros (i & Hi & Hu) Ho Ho' E E'.
  apply In_nth_error in Ho, Ho'. destruct Ho as (j & Hj), Ho' as (j' & Hj').
  assert (j = i) by (apply Hu; rewrite nth_error_map', Hj; cbn; congruence).
  assert (j' = i) by (apply Hu; rewrite nth_error_map', Hj'; cbn; congruence).
  congruence.
Qed.

Lemma gather_exact {F} (t : trajectories F) n ids : n_objects t n ->
  ((exists t', gather_objects_by_id t ids = Ok t') <->
   forall id, In id ids -> occurs_once (tr_id t) id) /\
  (forall e, gather_objects_by_id t ids = Err e -> e = ValueError) /\
  (forall t', gather_objects_by_id t ids = Ok t' ->
     n_objects t' (length ids) /\ tr_id t' = ids /\
     forall k i id o, nth_error ids k = Some id -> nth_error (tr_id t) i = Some id ->
       nth_object t i o -> nth_object t' k o).
Proof.
  intros Hn. destruct (of_objs_exists n t Hn) as (l & -> & Hl).
  destruct (arg_gather_cases (map o_id l) ids) as [H|(H & E)].
  - destruct (gather_ids_of l ids H) as (os & E & Eid & G). rewrite E.
    split; [|split].
    + split; [intros _; exact H|]. intros _. now exists (of_objs os).
    + discriminate.
    + intros t' Q. injection Q as <-. split; [|split].
      * rewrite (forall2_length _ _ _ G). apply of_objs_n.
      * exact Eid.
      * intros k i id o Hk Hi Ho. apply of_objs_nth in Ho. apply of_objs_nth.
        destruct (Forall2_nth _ _ _ G _ _ Hk) as (o' & Ho' & Hin & Eo').
        assert (o = o') as ->; [|exact Ho'].
        apply (occurs_once_objs l id).
        -- apply H. now apply nth_error_In in Hk.
        -- now apply nth_error_In in Ho.
        -- exact Hin.
        -- cbn [of_objs tr_id] in Hi. rewrite nth_error_map', Ho in Hi. cbn in Hi. congruence.
        -- exact Eo'.
  - assert (gather_objects_by_id (of_objs l) ids = Err ValueError) as G.
    { unfold gather_objects_by_id. cbn [of_objs tr_id]. rewrite E. reflexivity. }
    rewrite G. split; [|split].
    + split; [intros (t' & Q); discriminate|]. intros A. destruct H as (r & Hr & N).
      exfalso. apply N. now apply A.
    + intros e Q. congruence.
    + discriminate.
Qed.

(** * Conversions *)

Lemma to_tensor_ok {A} (rows : list (list A)) n :
  (forall r, In r rows -> length r = n) -> to_tensor rows = Ok rows.
Proof.
  intros H. destruct rows as [|r rs]; [reflexivity|]. cbn [to_tensor].
  replace (forallb (fun q => Nat.eqb (length q) (length r)) rs) with true; [reflexivity|].
  symmetry. apply forallb_forall. intros q Hq. apply Nat.eqb_eq.
  rewrite (H q) by now right. symmetry. apply H. now left.
Qed.

Lemma to_tensor_inv {A} (rows x : list (list A)) : to_tensor rows = Ok x ->
  x = rows /\ exists n, forall r, In r rows -> length r = n.
Proof.
  destruct rows as [|r rs]; cbn [to_tensor].
  - intros H. injection H as <-. split; [reflexivity|]. exists O. intros r [].
  - destruct (forallb _ rs) eqn:E; [|discriminate].
    intros H. injection H as <-. split; [reflexivity|]. exists (length r).
    intros q [<-|Hq]; [reflexivity|]. rewrite forallb_forall in E.
    specialize (E q Hq). now apply Nat.eqb_eq in E.
Qed.

Lemma from_scenario_ok {F} (sc : scenario F) n : uniform sc n ->
  from_scenario sc = Ok (of_objs (map track_object (tracks sc))).
Proof.
  intros (Hne & Hn & Hu). unfold from_scenario.
  replace (match tracks sc with [] => true | _ => false end) with false
    by (destruct (tracks sc); [contradiction|reflexivity]).
  replace (existsb (fun t => match states t with [] => true | _ => false end) (tracks sc)) with false.
  2:{ symmetry. apply not_true_is_false. intros E. apply existsb_exists in E.
      destruct E as (t & Ht & E). specialize (Hu t Ht). destruct (states t); [cbn in Hu; lia|discriminate]. }
  assert (forall A (f : state F -> A) r, In r (map (fun t => map f (states t)) (tracks sc)) -> length r = n) as G.
  { intros A f r Hr. apply in_map_iff in Hr. destruct Hr as (t & <- & Ht). rewrite map_length. auto. }
  cbv zeta. rewrite !(to_tensor_ok _ n) by apply G. cbn [bind].
  unfold of_objs. rewrite !map_map. reflexivity.
Qed.

Lemma from_scenario_inv {F} (sc : scenario F) t : from_scenario sc = Ok t -> exists n, uniform sc n.
Proof.
  unfold from_scenario. intros H.
  destruct (tracks sc) as [|t0 ts] eqn:Et; [discriminate|].
  destruct (existsb _ _) eqn:E; [discriminate|]. cbv zeta in H.
  dbind H x Ex. apply to_tensor_inv in Ex. destruct Ex as (_ & n & Hn).
  assert (forall t, In t (t0 :: ts) -> length (states t) = n) as G.
  { intros u Hu. rewrite <- (map_length center_x (states u)). apply Hn.
    apply in_map_iff. exists u. auto. }
  exists n. split; [|split].
  - rewrite Et. discriminate.
  - rewrite <- (G t0) by now left.
    destruct (states t0) eqn:S0; [|cbn [length]; lia].
    exfalso. cbn [existsb] in E. rewrite S0 in E. discriminate.
  - rewrite Et. exact G.
Qed.

Definition slice_obj {F} a b (o : obj F) : obj F :=
  {| o_x := py_slice a b (o_x o); o_y := py_slice a b (o_y o); o_z := py_slice a b (o_z o);
     o_heading := py_slice a b (o_heading o); o_length := py_slice a b (o_length o);
     o_width := py_slice a b (o_width o); o_height := py_slice a b (o_height o);
     o_valid := py_slice a b (o_valid o); o_id := o_id o; o_type := o_type o |}.

Lemma slice_time_of {F} (l : list (obj F)) a b :
  slice_time (of_objs l) a b = of_objs (map (slice_obj a b) l).
Proof. unfold slice_time, of_objs. cbn. rewrite !map_map. reflexivity. Qed.

(** Gathering from a table with one object per track. *)
Lemma gather_tracks {F} (h : track F -> obj F) ts ids :
  (forall t, o_id (h t) = track_id t) ->
  (forall id, In id ids -> occurs_once (map track_id ts) id) ->
  exists trs, gather_objects_by_id (of_objs (map h ts)) ids = Ok (of_objs (map h trs)) /\
    Forall2 (fun id t => In t ts /\ track_id t = id) ids trs.
Proof.
  intros Hh H. destruct (gather_ids_of (map h ts) ids) as (os & E & Eid & G).
  { intros id Hid. rewrite map_map. erewrite map_ext; [|apply Hh]. now apply H. }
  assert (exists trs, os = map h trs /\ Forall2 (fun id t => In t ts /\ track_id t = id) ids trs)
    as (trs & -> & Q).
  { clear E Eid H. induction G as [|id o ids os (Ho & Eo) G IH].
    - exists []. split; [reflexivity|constructor].
    - destruct IH as (trs & -> & Q). apply in_map_iff in Ho. destruct Ho as (t & <- & Ht).
      exists (t :: trs). split; [reflexivity|]. constructor; [|exact Q].
      split; [exact Ht|]. now rewrite <- Hh. }
  exists trs. auto.
Qed.

Lemma once_track {F} (ts : list (track F)) id t t' :
  occurs_once (map track_id ts) id -> In t ts -> In t' ts ->
  track_id t = id -> track_id t' = id -> t = t'.
Proof.
  intros (i & Hi & Hu) Ho Ho' E E'.
  apply In_nth_error in Ho, Ho'. destruct Ho as (j & Hj), Ho' as (j' & Hj').
  assert (j = i) by (apply Hu; rewrite nth_error_map', Hj; cbn; congruence).
  assert (j' = i) by (apply Hu; rewrite nth_error_map', Hj'; cbn; congruence).
  congruence.
Qed.

Lemma gathered_unique {F} (ts : list (track F)) ids trs trs' :
  (forall id, In id ids -> occurs_once (map track_id ts) id) ->
  Forall2 (fun id t => In t ts /\ track_id t = id) ids trs ->
  Forall2 (fun id t => In t ts /\ track_id t = id) ids trs' -> trs = trs'.
Proof.
  intros H G. revert trs'. induction G as [|id t ids trs (Ht & E) G IH]; intros trs' G'.
  - inversion G'. reflexivity.
  - inversion G' as [|id' t' ids' trs'' (Ht' & E') G'' E1 E2]; subst. f_equal.
    + eapply once_track; eauto. apply H. now left.
    + apply IH; [|exact G'']. intros i Hi. apply H. now right.
Qed.

Lemma concat_time_ok {A} (a b : list (list A)) : length a = length b ->
  exists c, concat_time a b = Ok c /\ length c = length a /\
    forall k u v, nth_error a k = Some u -> nth_error b k = Some v -> nth_error c k = Some (u ++ v).
Proof.
  intros H. unfold concat_time. rewrite (proj2 (Nat.eqb_eq _ _) H).
  eexists. split; [reflexivity|]. split.
  - rewrite map_length, combine_length. lia.
  - clear H. revert b. induction a as [|x a IH]; intros [|y b] [|k] u v Hu Hv; try discriminate.
    + cbn in *. congruence.
    + cbn [combine map nth_error] in *. eauto.
Qed.

Lemma firstn_snoc {A} (l : list A) n a : nth_error l n = Some a -> firstn (S n) l = firstn n l ++ [a].
Proof.
  revert l. induction n as [|n IH]; intros [|x l] H; try discriminate.
  - cbn in H. injection H as ->. reflexivity.
  - cbn [nth_error] in H. rewrite firstn_cons. rewrite IH by exact H. reflexivity.
Qed.

Lemma repeat_last_ok {F A} (f : state F -> A) trs curs n :
  Forall2 (fun t c => nth_error (states t) 10 = Some c) trs curs ->
  repeat_last (map (fun t => map f (firstn 11 (states t))) trs) n =
  Ok (map (fun c => repeat (f c) n) curs).
Proof.
  intros H. unfold repeat_last.
  assert (last_column (map (fun t : track F => map f (firstn 11 (states t))) trs) = Ok (map f curs)) as E.
  { unfold last_column. induction H as [|t c trs curs Htc H IH]; cbn [map mapM]; [reflexivity|].
    rewrite (firstn_snoc _ _ _ Htc), map_app, rev_app_distr. cbn [map rev app bind].
    rewrite IH. reflexivity. }
  rewrite E. cbn [bind]. now rewrite map_map.
Qed.

Lemma id_tensor_ok ids : ids <> [] -> id_tensor ids = Ok ids.
Proof. destruct ids; [contradiction|reflexivity]. Qed.

Lemma slice_history {F} (t : track F) :
  slice_obj 0 (Some 11%nat) (track_object t) =
  track_object (Track (track_id t) (track_type t) (firstn 11 (states t))).
Proof.
  unfold slice_obj, track_object, py_slice. cbn [o_x o_y o_z o_heading o_length o_width o_height o_valid o_id o_type states track_id track_type].
  rewrite !skipn_O, !firstn_map. reflexivity.
Qed.

Lemma slice_future {F} (t : track F) :
  slice_obj 11 None (track_object t) =
  track_object (Track (track_id t) (track_type t) (skipn 11 (states t))).
Proof.
  unfold slice_obj, track_object, py_slice. cbn [o_x o_y o_z o_heading o_length o_width o_height o_valid o_id o_type states track_id track_type].
  rewrite !skipn_map. reflexivity.
Qed.

Lemma joint_scene_ok {F} (js : list (sim_trajectory F)) sc n b :
  uniform sc n -> reaches_current sc -> acceptable js sc SIM_AGENTS -> js <> [] ->
  (forall id, required sc id -> occurs_once (map track_id (tracks sc)) id) ->
  exists t, joint_scene_to_trajectories js sc b = Ok t /\
    n_objects t (length js) /\ tr_id t = map sim_id js /\
    forall k s tr cur, nth_error js k = Some s -> In tr (tracks sc) ->
      track_id tr = sim_id s -> nth_error (states tr) 10 = Some cur ->
      nth_object t k (simulated_object tr cur s
        (if b then map s_valid (skipn 11 (states tr)) else repeat true 80)).
Proof.
  intros Hu Hr (Hlen & Hids) Hne Honce.
  assert (forall id, In id (map sim_id js) -> occurs_once (map track_id (tracks sc)) id) as Honce'.
  { intros id Hid. apply Honce. now apply Hids. }
  unfold joint_scene_to_trajectories. rewrite (from_scenario_ok sc n Hu). cbn [bind].
  cbn [submission_config current_time_index Nat.add].
  rewrite !slice_time_of, map_map.
  assert (forall (f : sim_trajectory F -> list F), (forall s, In s js -> length (f s) = 80%nat) ->
            forall r, In r (map f js) -> length r = 80%nat) as G.
  { intros f Hf r Hin. apply in_map_iff in Hin. destruct Hin as (s & <- & Hs). auto. }
  rewrite (to_tensor_ok (map sim_x js) 80), (to_tensor_ok (map sim_y js) 80),
    (to_tensor_ok (map sim_z js) 80), (to_tensor_ok (map sim_heading js) 80)
    by (apply G; intros s Hs; apply (Hlen s Hs)).
  cbn [bind]. rewrite id_tensor_ok by (destruct js; [contradiction|discriminate]). cbn [bind].
  destruct (gather_tracks (fun t => slice_obj 0 (Some 11%nat) (track_object t)) (tracks sc) (map sim_id js))
    as (trs & E1 & G1); [reflexivity|exact Honce'|].
  rewrite E1. cbn [bind].
  set (fv := map (fun q => if b then map s_valid (skipn 11 (states (fst q)))
                           else repeat true (length (sim_x (snd q)))) (combine trs js)).
  assert (length trs = length js) as Hl
    by (rewrite <- (forall2_length _ _ _ G1), map_length; reflexivity).
  match goal with |- context [bind (if b then ?u else ?v) ?k] =>
    assert ((if b then u else v) = Ok fv) as Ev end.
  { destruct b.
    - destruct (gather_tracks track_object (tracks sc) (map sim_id js))
        as (trs' & E2 & G2); [reflexivity|exact Honce'|].
      rewrite E2. cbn [bind]. rewrite slice_time_of.
      rewrite <- (gathered_unique _ _ _ _ Honce' G1 G2). cbn [of_objs tr_valid]. f_equal.
      rewrite !map_map. unfold fv. clear -Hl. revert js Hl.
      induction trs as [|t trs IH]; intros [|s js] Hl; try discriminate; [reflexivity|].
      cbn [map combine fst snd]. f_equal; [|apply IH; now injection Hl].
      rewrite slice_future. reflexivity.
    - f_equal. unfold fv. rewrite map_map. clear -Hl. revert js Hl.
      induction trs as [|t trs IH]; intros [|s js] Hl; try discriminate; [reflexivity|].
      cbn [map combine fst snd]. f_equal. apply IH. now injection Hl. }
  rewrite Ev. cbn [bind].
  assert (last_dim (map sim_x js) = 80%nat) as Ed.
  { destruct js as [|s js]; [contradiction|]. cbn [map last_dim]. apply (Hlen s). now left. }
  rewrite Ed.
  assert (exists curs, Forall2 (fun t c => nth_error (states t) 10 = Some c) trs curs) as (curs & Hc).
  { apply Forall2_exists. intros t Ht. apply In_nth_error in Ht. destruct Ht as (k & Hk).
    destruct (Forall2_nth_r _ _ _ G1 _ _ Hk) as (id & _ & Hin & _). specialize (Hr t Hin).
    destruct (nth_error (states t) 10) as [c|] eqn:E; [now exists c|]. apply nth_error_None in E. lia. }
  assert (map (fun t => slice_obj 0 (Some 11%nat) (track_object t)) trs =
          map (fun t => track_object (Track (track_id t) (track_type t) (firstn 11 (states t)))) trs) as Es
    by (apply map_ext; intros t; apply slice_history).
  rewrite Es. cbn [of_objs tr_x tr_y tr_z tr_heading tr_length tr_width tr_height tr_valid tr_id tr_type].
  rewrite !map_map.
  unfold track_object. cbn [o_x o_y o_z o_heading o_length o_width o_height o_valid o_id o_type states track_id track_type].
  rewrite !(repeat_last_ok _ trs curs 80 Hc). cbn [bind].
  pose proof (forall2_length _ _ _ Hc) as Hlc.
  edestruct (concat_time_ok (map (fun t => map center_x (firstn 11 (states t))) trs) (map sim_x js)) as (cx & -> & Lx & Nx);
    [now rewrite !map_length|]. cbn [bind].
  edestruct (concat_time_ok (map (fun t => map center_y (firstn 11 (states t))) trs) (map sim_y js)) as (cy & -> & Ly & Ny);
    [now rewrite !map_length|]. cbn [bind].
  edestruct (concat_time_ok (map (fun t => map center_z (firstn 11 (states t))) trs) (map sim_z js)) as (cz & -> & Lz & Nz);
    [now rewrite !map_length|]. cbn [bind].
  edestruct (concat_time_ok (map (fun t => map s_heading (firstn 11 (states t))) trs) (map sim_heading js)) as (ch & -> & Lh & Nh);
    [now rewrite !map_length|]. cbn [bind].
  edestruct (concat_time_ok (map (fun t => map s_length (firstn 11 (states t))) trs) (map (fun c => repeat (s_length c) 80) curs)) as (cl & -> & Ll & Nl);
    [rewrite !map_length; lia|]. cbn [bind].
  edestruct (concat_time_ok (map (fun t => map s_width (firstn 11 (states t))) trs) (map (fun c => repeat (s_width c) 80) curs)) as (cw & -> & Lw & Nw);
    [rewrite !map_length; lia|]. cbn [bind].
  edestruct (concat_time_ok (map (fun t => map s_height (firstn 11 (states t))) trs) (map (fun c => repeat (s_height c) 80) curs)) as (cht & -> & Lht & Nht);
    [rewrite !map_length; lia|]. cbn [bind].
  edestruct (concat_time_ok (map (fun t => map s_valid (firstn 11 (states t))) trs) fv) as (cv & -> & Lv & Nv);
    [unfold fv; rewrite !map_length, combine_length; lia|]. cbn [bind].
  rewrite map_length in Lx, Ly, Lz, Lh, Ll, Lw, Lht, Lv.
  eexists. split; [reflexivity|]. split; [|split; [reflexivity|]].
  - unfold n_objects. cbn [tr_x tr_y tr_z tr_heading tr_length tr_width tr_height tr_valid tr_id tr_type].
    rewrite !map_length. repeat split; lia.
  - intros k s tr cur Hk Htr Eid Hcur.
    assert (nth_error trs k = Some tr) as Hkt.
    { destruct (Forall2_nth _ _ _ G1 k (sim_id s)) as (tr' & Hk' & Hin & Eid').
      - now rewrite nth_error_map', Hk.
      - rewrite Hk'. f_equal. eapply once_track; eauto. apply Honce'.
        apply in_map. now apply nth_error_In in Hk. }
    assert (nth_error curs k = Some cur) as Hkc.
    { destruct (Forall2_nth _ _ _ Hc _ _ Hkt) as (c & Hkc & E). congruence. }
    assert (nth_error fv k = Some (if b then map s_valid (skipn 11 (states tr)) else repeat true 80)) as Hkv.
    { unfold fv. rewrite nth_error_map'.
      assert (nth_error (combine trs js) k = Some (tr, s)) as ->.
      { clear -Hk Hkt. revert trs js Hk Hkt. induction k as [|k IH]; intros [|t trs] [|u js] Hk Hkt;
          try discriminate; cbn in *; [congruence|auto]. }
      cbn [option_map fst snd]. destruct (Hlen s) as (-> & _); [now apply nth_error_In in Hk|]. reflexivity. }
    unfold nth_object, simulated_object.
    cbn [tr_x tr_y tr_z tr_heading tr_length tr_width tr_height tr_valid tr_id tr_type
         o_x o_y o_z o_heading o_length o_width o_height o_valid o_id o_type].
    repeat split.
    + apply Nx; now rewrite nth_error_map', ?Hkt, ?Hk.
    + apply Ny; now rewrite nth_error_map', ?Hkt, ?Hk.
    + apply Nz; now rewrite nth_error_map', ?Hkt, ?Hk.
    + apply Nh; now rewrite nth_error_map', ?Hkt, ?Hk.
    + apply Nl; now rewrite nth_error_map', ?Hkt, ?Hkc.
    + apply Nw; now rewrite nth_error_map', ?Hkt, ?Hkc.
    + apply Nht; now rewrite nth_error_map', ?Hkt, ?Hkc.
    + apply Nv; [now rewrite nth_error_map', ?Hkt|exact Hkv].
    + rewrite nth_error_map', Hk. cbn. congruence.
    + rewrite nth_error_map', Hkt. reflexivity.
Qed.

(** * The log as a submission *)

Lemma Forall2_ids {F} (ts l : list (track F)) : (forall t, In t l -> In t ts) ->
  Forall2 (fun id t => In t ts /\ track_id t = id) (map track_id l) l.
Proof.
  induction l as [|t l IH]; intros H; cbn [map]; constructor.
  - split; [apply H; now left|reflexivity].
  - apply IH. intros u Hu. apply H. now right.
Qed.

Definition sim_of_obj {F} (o : obj F) : sim_trajectory F :=
  {| sim_x := o_x o; sim_y := o_y o; sim_z := o_z o; sim_heading := o_heading o;
     sim_length := o_length o; sim_width := o_width o; sim_height := o_height o;
     sim_valid := o_valid o; sim_id := o_id o; sim_type := o_type o |}.

Lemma make_sim_of {F} (l : list (obj F)) k o : nth_error l k = Some o ->
  make_sim_trajectory (of_objs l) k = Ok (sim_of_obj o).
Proof.
  intros H. unfold make_sim_trajectory, row, of_objs.
  cbn [tr_x tr_y tr_z tr_heading tr_length tr_width tr_height tr_valid tr_id tr_type].
  rewrite !nth_error_map', H. reflexivity.
Qed.

Lemma make_all {F} (l : list (obj F)) :
  mapM (make_sim_trajectory (of_objs l)) (seq 0 (length (tr_id (of_objs l)))) = Ok (map sim_of_obj l).
Proof.
  cbn [of_objs tr_id]. rewrite map_length. apply mapM_Forall2.
  assert (forall pre post, pre ++ post = l ->
    Forall2 (fun k b => make_sim_trajectory (of_objs l) k = Ok b)
      (seq (length pre) (length post)) (map sim_of_obj post)) as G.
  { intros pre post. revert pre. induction post as [|o post IH]; intros pre E; cbn [length seq map].
    - constructor.
    - constructor.
      + apply make_sim_of. rewrite <- E, nth_error_app2 by lia. now rewrite Nat.sub_diag.
      + specialize (IH (pre ++ [o])). rewrite app_length in IH. cbn [length] in IH.
        rewrite Nat.add_1_r in IH. apply IH. now rewrite <- app_assoc. }
  now apply (G [] l).
Qed.

Lemma all_equal_of {F} (l : list (obj F)) : all_tensor_length_equal (of_objs l) = true.
Proof.
  unfold all_tensor_length_equal. cbn [of_objs tr_x tr_y tr_z tr_heading tr_length tr_width tr_height tr_valid tr_id tr_type].
  rewrite !map_length. cbn [forallb]. now rewrite Nat.eqb_refl.
Qed.

(** Common part of the conversion: everything before the step count check. *)
Lemma to_joint_scene_steps {F} (sc : scenario F) ct n :
  uniform sc n -> (10 < n)%nat -> (exists id, required sc id) ->
  (forall id, required sc id -> occurs_once (map track_id (tracks sc)) id) ->
  scenario_to_joint_scene sc ct =
  if negb (Nat.eqb (match ct with SIM_AGENTS => (n - 11)%nat | SCENARIO_GEN => n end) (steps ct))
  then Err ValueError
  else Ok (map (logged_trajectory ct) (filter valid_now (tracks sc))).
Proof.
  intros Hu Hn (id0 & Hex) Honce. unfold scenario_to_joint_scene.
  rewrite (from_scenario_ok sc n Hu). cbn [bind].
  assert (reaches_current sc) as Hr by (intros t Ht; destruct Hu as (_ & _ & Hu); rewrite Hu by exact Ht; exact Hn).
  rewrite sim_ids_ok by exact Hr. cbn [bind].
  assert (In id0 (map track_id (filter valid_now (tracks sc)))) as Hin by now apply in_sim_ids.
  rewrite id_tensor_ok by (intros E; rewrite E in Hin; destruct Hin). cbn [bind].
  destruct (gather_tracks track_object (tracks sc) (map track_id (filter valid_now (tracks sc))))
    as (trs & E & G); [reflexivity|intros id Hid; apply Honce; now apply in_sim_ids|].
  assert (trs = filter valid_now (tracks sc)) as ->.
  { eapply gathered_unique; [|exact G|].
    - intros id Hid. apply Honce. now apply in_sim_ids.
    - apply Forall2_ids. intros t Ht. now apply filter_In in Ht. }
  rewrite E. cbn [bind]. rewrite nss.
  destruct ct.
  - cbn [submission_config current_time_index Nat.add]. rewrite slice_time_of, map_map.
    set (l := filter valid_now (tracks sc)) in *.
    assert (last_dim (tr_valid (of_objs (map (fun x => slice_obj 11 None (track_object x)) l))) = (n - 11)%nat) as ->.
    { destruct l as [|t l'] eqn:El; [destruct Hin|].
      cbn [map of_objs tr_valid last_dim]. rewrite slice_future. cbn [track_object o_valid states].
      rewrite map_length, skipn_length. destruct Hu as (_ & _ & Hu). rewrite Hu; [reflexivity|].
      assert (In t (filter valid_now (tracks sc))) as Q by (fold l; rewrite El; now left).
      now apply filter_In in Q. }
    destruct (negb (Nat.eqb (n - 11) (steps SIM_AGENTS))); [reflexivity|].
    rewrite all_equal_of. cbn [negb]. rewrite make_all, map_map. f_equal. apply map_ext.
    intros t. rewrite slice_future. reflexivity.
  - set (l := filter valid_now (tracks sc)) in *.
    assert (last_dim (tr_valid (of_objs (map track_object l))) = n) as ->.
    { destruct l as [|t l'] eqn:El; [destruct Hin|].
      cbn [map of_objs tr_valid last_dim track_object o_valid].
      rewrite map_length. destruct Hu as (_ & _ & Hu). apply Hu.
      assert (In t (filter valid_now (tracks sc))) as Q by (fold l; rewrite El; now left).
      now apply filter_In in Q. }
    destruct (negb (Nat.eqb n (steps SCENARIO_GEN))); [reflexivity|].
    rewrite all_equal_of. cbn [negb]. rewrite make_all, map_map. reflexivity.
Qed.

Lemma to_joint_scene_ok {F} (sc : scenario F) ct : loggable sc ->
  scenario_to_joint_scene sc ct = Ok (map (logged_trajectory ct) (filter valid_now (tracks sc))).
Proof.
  intros (Hu & Hex & Honce). rewrite (to_joint_scene_steps sc ct 91 Hu ltac:(lia) Hex Honce).
  now destruct ct.
Qed.

Lemma to_joint_scene_inv {F} (sc : scenario F) ct js :
  scenario_to_joint_scene sc ct = Ok js -> loggable sc.
Proof.
  intros H. pose proof H as H0. unfold scenario_to_joint_scene in H.
  dbind H t Et. destruct (from_scenario_inv sc t Et) as (n & Hu).
  rewrite (from_scenario_ok sc n Hu) in Et. injection Et as <-.
  dbind H ids Ei.
  assert (reaches_current sc) as Hr.
  { destruct (reaches_dec sc) as [R|R]; [exact R|]. rewrite sim_ids_fail in Ei by exact R. discriminate. }
  rewrite sim_ids_ok in Ei by exact Hr. injection Ei as <-.
  dbind H ids' Ei.
  destruct (map track_id (filter valid_now (tracks sc))) as [|i l] eqn:El; [discriminate|].
  cbn [id_tensor] in Ei. injection Ei as <-.
  assert (exists id, required sc id) as Hex.
  { exists i. apply in_sim_ids. rewrite El. now left. }
  dbind H g Eg.
  assert (forall id, required sc id -> occurs_once (map track_id (tracks sc)) id) as Honce.
  { intros id Hid. apply in_sim_ids in Hid. rewrite El in Hid.
    destruct (gather_exact (of_objs (map track_object (tracks sc))) _ (i :: l) (of_objs_n _)) as (A & _).
    destruct A as (A & _). specialize (A (ex_intro _ _ Eg) id Hid).
    cbn [of_objs tr_id] in A. rewrite map_map in A. exact A. }
  assert (10 < n)%nat as Hn.
  { destruct Hu as (Hne & _ & Hu). destruct (tracks sc) as [|t ts] eqn:Ets; [contradiction|].
    rewrite <- (Hu t) by now left. apply Hr. rewrite Ets. now left. }
  rewrite (to_joint_scene_steps sc ct n Hu Hn Hex Honce) in H0.
  destruct (Nat.eqb (match ct with SIM_AGENTS => (n - 11)%nat | SCENARIO_GEN => n end) (steps ct)) eqn:E;
    [|discriminate]. apply Nat.eqb_eq in E.
  assert (n = 91%nat) as -> by (destruct ct; cbn [steps] in E; lia).
  split; [exact Hu|]. auto.
Qed.

Lemma to_joint_scene_wrong_steps {F} (sc : scenario F) ct n :
  uniform sc n -> (10 < n)%nat -> n <> 91%nat -> (exists id, required sc id) ->
  (forall id, required sc id -> occurs_once (map track_id (tracks sc)) id) ->
  scenario_to_joint_scene sc ct = Err ValueError.
Proof.
  intros Hu Hn Hd Hex Honce. rewrite (to_joint_scene_steps sc ct n Hu Hn Hex Honce).
  destruct (Nat.eqb _ _) eqn:E; [|reflexivity]. apply Nat.eqb_eq in E.
  destruct ct; cbn [steps] in E; lia.
Qed.

Lemma loggable_reaches {F} (sc : scenario F) : loggable sc -> reaches_current sc.
Proof. intros ((_ & _ & Hu) & _) t Ht. rewrite Hu by exact Ht. lia. Qed.

Lemma logged_ids {F} ct (l : list (track F)) :
  map sim_id (map (logged_trajectory ct) l) = map track_id l.
Proof. rewrite map_map. reflexivity. Qed.

Lemma simulated_part_length {F} (sc : scenario F) ct t : loggable sc -> In t (tracks sc) ->
  length (simulated_part ct t) = steps ct.
Proof.
  intros ((_ & _ & Hu) & _) Ht. specialize (Hu t Ht). unfold simulated_part.
  destruct ct; [rewrite skipn_length|]; cbn [steps]; lia.
Qed.

Lemma logged_acceptable {F} (sc : scenario F) ct : loggable sc ->
  acceptable (map (logged_trajectory ct) (filter valid_now (tracks sc))) sc ct.
Proof.
  intros HL. split.
  - intros s Hs. apply in_map_iff in Hs. destruct Hs as (t & <- & Ht).
    apply filter_In in Ht. destruct Ht as (Ht & _).
    unfold full_length, logged_trajectory. cbn [sim_x sim_y sim_z sim_heading].
    rewrite !map_length, (simulated_part_length sc) by assumption. auto.
  - intros id. rewrite logged_ids. apply in_sim_ids.
Qed.

Lemma logged_nonempty {F} (sc : scenario F) ct : loggable sc ->
  map (logged_trajectory ct) (filter valid_now (tracks sc)) <> [].
Proof.
  intros (_ & (id & Hid) & _). apply in_sim_ids in Hid.
  destruct (filter valid_now (tracks sc)); [destruct Hid|discriminate].
Qed.

Lemma log_round_trip {F} (sc : scenario F) : loggable sc ->
  exists js t, scenario_to_joint_scene sc SIM_AGENTS = Ok js /\
    validate_joint_scene js sc SIM_AGENTS = Ok tt /\
    joint_scene_to_trajectories js sc true = Ok t /\
    n_objects t (length (filter valid_now (tracks sc))) /\
    forall k tr cur, nth_error (filter valid_now (tracks sc)) k = Some tr ->
      nth_error (states tr) 10 = Some cur -> nth_object t k (logged_object tr cur).
Proof.
  intros HL. pose proof HL as (Hu & Hex & Honce).
  destruct (joint_scene_ok (map (logged_trajectory SIM_AGENTS) (filter valid_now (tracks sc))) sc 91 true
              Hu (loggable_reaches sc HL) (logged_acceptable sc SIM_AGENTS HL)
              (logged_nonempty sc SIM_AGENTS HL) Honce) as (t & E & Hn & _ & Ho).
  exists (map (logged_trajectory SIM_AGENTS) (filter valid_now (tracks sc))), t.
  split; [now apply to_joint_scene_ok|]. split.
  { apply validate_exact. split; [now apply loggable_reaches|now apply logged_acceptable]. }
  split; [exact E|]. split; [now rewrite map_length in Hn|].
  intros k tr cur Hk Hc.
  specialize (Ho k (logged_trajectory SIM_AGENTS tr) tr cur).
  rewrite nth_error_map', Hk in Ho.
  specialize (Ho eq_refl (proj1 (proj1 (filter_In _ _ _) (nth_error_In _ _ Hk))) eq_refl Hc).
  replace (logged_object tr cur) with
    (simulated_object tr cur (logged_trajectory SIM_AGENTS tr) (map s_valid (skipn 11 (states tr))));
    [exact Ho|].
  unfold simulated_object, logged_object, logged_trajectory, simulated_part.
  cbn [sim_x sim_y sim_z sim_heading].
  rewrite <- !map_app, !firstn_skipn. reflexivity.
Qed.

(** * Generated scenes *)

Lemma generated_ok {F} (js : list (sim_trajectory F)) sc n :
  uniform sc n -> reaches_current sc -> acceptable js sc SCENARIO_GEN -> js <> [] ->
  (forall s, In s js -> length (sim_length s) = 91%nat /\ length (sim_width s) = 91%nat /\
                        length (sim_height s) = 91%nat) ->
  (forall id, required sc id -> occurs_once (map track_id (tracks sc)) id) ->
  exists t, simulated_scenariogen_to_trajectories js sc SCENARIO_GEN = Ok t /\
    n_objects t (length js) /\
    forall k s, nth_error js k = Some s -> nth_object t k (generated_object s).
Proof.
  intros Hu Hr (Hlen & Hids) Hne Hsz Honce.
  assert (forall id, In id (map sim_id js) -> occurs_once (map track_id (tracks sc)) id) as Honce'.
  { intros id Hid. apply Honce. now apply Hids. }
  unfold simulated_scenariogen_to_trajectories.
  assert (forall (f : sim_trajectory F -> list F), (forall s, In s js -> length (f s) = 91%nat) ->
            forall r, In r (map f js) -> length r = 91%nat) as G.
  { intros f Hf r Hin. apply in_map_iff in Hin. destruct Hin as (s & <- & Hs). auto. }
  rewrite (to_tensor_ok (map sim_x js) 91), (to_tensor_ok (map sim_y js) 91),
    (to_tensor_ok (map sim_z js) 91), (to_tensor_ok (map sim_heading js) 91)
    by (apply G; intros s Hs; apply (Hlen s Hs)).
  rewrite (to_tensor_ok (map sim_length js) 91), (to_tensor_ok (map sim_width js) 91),
    (to_tensor_ok (map sim_height js) 91)
    by (apply G; intros s Hs; apply (Hsz s Hs)).
  cbn [bind]. rewrite (from_scenario_ok sc n Hu). cbn [bind].
  rewrite id_tensor_ok by (destruct js; [contradiction|discriminate]). cbn [bind].
  destruct (gather_tracks track_object (tracks sc) (map sim_id js)) as (trs & E & G1);
    [reflexivity|exact Honce'|].
  rewrite E. cbn [bind submission_config current_time_index].
  assert (mapM (fun r : list bool => row r 10) (tr_valid (of_objs (map track_object trs)))
          = Ok (map (fun _ => true) js)) as Ec.
  { cbn [of_objs tr_valid]. rewrite map_map.
    assert (forall t, In t trs -> exists id, In id (map sim_id js) /\ In t (tracks sc) /\ track_id t = id) as Q.
    { intros t Ht. apply In_nth_error in Ht. destruct Ht as (k & Hk).
      destruct (Forall2_nth_r _ _ _ G1 _ _ Hk) as (id & Hid & Q). apply nth_error_In in Hid. eauto. }
    replace (map (fun _ : sim_trajectory F => true) js) with (map (fun _ : track F => true) trs).
    - rewrite (mapM_ok _ (fun _ => true)).
      + rewrite map_map. reflexivity.
      + intros r Hin. apply in_map_iff in Hin. destruct Hin as (t & <- & Ht).
        destruct (Q t Ht) as (id & Hid & Htr & Et). apply Hids in Hid.
        pose proof (Honce id Hid) as H1. destruct Hid as (t' & s & Ht' & Et' & Hs & Hv).
        assert (t = t') as -> by (eapply once_track; eauto).
        unfold row. cbn [track_object o_valid]. rewrite nth_error_map', Hs. cbn [option_map].
        now rewrite Hv.
    - assert (length trs = length js) as Hl
        by (rewrite <- (forall2_length _ _ _ G1), map_length; reflexivity).
      clear -Hl. revert js Hl. induction trs as [|t trs IH]; intros [|s js] Hl; try discriminate; [reflexivity|].
      cbn [map]. f_equal. apply IH. now injection Hl. }
  rewrite Ec. cbn [bind].
  assert (last_dim (map sim_x js) = 91%nat) as Ed.
  { destruct js as [|s js]; [contradiction|]. cbn [map last_dim]. apply (Hlen s). now left. }
  rewrite Ed.
  eexists. split; [reflexivity|]. split.
  - unfold n_objects. cbn [tr_x tr_y tr_z tr_heading tr_length tr_width tr_height tr_valid tr_id tr_type].
    rewrite !map_length. repeat split.
  - intros k s Hk. unfold nth_object, generated_object.
    cbn [tr_x tr_y tr_z tr_heading tr_length tr_width tr_height tr_valid tr_id tr_type
         o_x o_y o_z o_heading o_length o_width o_height o_valid o_id o_type].
    rewrite !map_map, !nth_error_map', Hk. repeat split.
Qed.

Lemma repeated_agent_ambiguous {F} (js : list (sim_trajectory F)) sc n b i j s s' :
  uniform sc n -> reaches_current sc -> acceptable js sc SIM_AGENTS -> js <> [] ->
  (forall id, required sc id -> occurs_once (map track_id (tracks sc)) id) ->
  nth_error js i = Some s -> nth_error js j = Some s' -> i <> j -> sim_id s = sim_id s' ->
  exists t, joint_scene_to_trajectories js sc b = Ok t /\
            gather_objects_by_id t [sim_id s] = Err ValueError.
Proof.
  intros Hu Hr Ha Hne Honce Hi Hj Hd E.
  destruct (joint_scene_ok js sc n b Hu Hr Ha Hne Honce) as (t & Et & Hn & Hid & _).
  exists t. split; [exact Et|].
  destruct (gather_exact t _ [sim_id s] Hn) as (A & B & _).
  destruct (gather_objects_by_id t [sim_id s]) as [t'|e] eqn:Eg; [|now rewrite (B e eq_refl)].
  destruct A as (A & _). destruct (A (ex_intro _ t' eq_refl) (sim_id s) (or_introl eq_refl)) as (m & _ & Hm).
  rewrite Hid in Hm. exfalso. apply Hd.
  transitivity m; [|symmetry]; apply Hm; rewrite nth_error_map'; [rewrite Hi|rewrite Hj]; cbn; congruence.
Qed.

Lemma nth_error_skipn' {A} (n : nat) : forall (l : list A) j, nth_error (skipn n l) j = nth_error l (n + j).
Proof.
  induction n as [|n IH]; intros l j; [reflexivity|]. destruct l as [|a l].
  - rewrite skipn_nil. destruct j; reflexivity.
  - cbn [skipn Nat.add nth_error]. apply IH.
Qed.

Lemma nth_error_firstn' {A} (n : nat) : forall (l : list A) j v,
  nth_error (firstn n l) j = Some v <-> nth_error l j = Some v /\ (j < n)%nat.
Proof.
  induction n as [|n IH]; intros l j v.
  - rewrite firstn_O. destruct j; cbn; split; try discriminate; intros (_ & H); lia.
  - destruct l as [|a l].
    + rewrite firstn_nil. destruct j; cbn; split; try discriminate; intros (H & _); discriminate.
    + rewrite firstn_cons. destruct j as [|j]; cbn [nth_error].
      * split; [intros H; split; [exact H|lia]|tauto].
      * rewrite IH. split; intros (H & L); split; auto; lia.
Qed.

Lemma py_slice_sliced {A} start stop (rows : list (list A)) :
  sliced start stop rows (map (py_slice start stop) rows).
Proof.
  unfold sliced. induction rows as [|r rows IH]; cbn [map]; constructor; [|exact IH].
  intros j v. unfold py_slice. destruct stop as [e|].
  - rewrite nth_error_firstn', nth_error_skipn'. split; intros (H & L); split; auto; lia.
  - rewrite nth_error_skipn'. tauto.
Qed.

Lemma slice_time_spec {F} (t : trajectories F) start stop :
  let t' := slice_time t start stop in
  sliced start stop (tr_x t) (tr_x t') /\ sliced start stop (tr_y t) (tr_y t') /\
  sliced start stop (tr_z t) (tr_z t') /\ sliced start stop (tr_heading t) (tr_heading t') /\
  sliced start stop (tr_length t) (tr_length t') /\ sliced start stop (tr_width t) (tr_width t') /\
  sliced start stop (tr_height t) (tr_height t') /\ sliced start stop (tr_valid t) (tr_valid t') /\
  tr_id t' = tr_id t /\ tr_type t' = tr_type t.
Proof. cbn zeta. repeat split; apply py_slice_sliced. Qed.
