(** Proofs about the baseline of the sim agents tutorial. *)
From Coq Require Import Reals Lra.
From Verif Require Import Base ResultLib ListLib MonadLib SimModel SimSpec SimProofs ExtrapModel ExtrapSpec.
Open Scope list_scope.
Open Scope R_scope.

(** * Lists *)
Lemma some_inj {A} (a b : A) : Some a = Some b -> a = b.
Proof. congruence. Qed.
Lemma zip4_map {A B C} (f : A -> A -> A -> A -> B) a b c d (l : list C) :
  zip4 f (map a l) (map b l) (map c l) (map d l) = map (fun x => f (a x) (b x) (c x) (d x)) l.
Proof. induction l as [|x l IH]; cbn [map zip4]; [reflexivity|]. now rewrite IH. Qed.
Lemma zip2_nth {A B} (f : nat -> A -> B) l : forall s i, nth_error (zip2 f (seq s (length l)) l) i = option_map (f (s + i)%nat) (nth_error l i).
Proof.
  induction l as [|a l IH]; intros s i; cbn [length seq zip2].
  - now destruct i.
  - destruct i as [|i]; cbn [nth_error option_map]; [now rewrite Nat.add_0_r|]. rewrite IH. now replace (S s + i)%nat with (s + S i)%nat by lia.
Qed.
Lemma mapi_nth {A B} (f : nat -> A -> B) l i : nth_error (mapi f l) i = option_map (f i) (nth_error l i).
Proof. apply zip2_nth. Qed.
Lemma fold_mapi {A} (g : nat -> nat -> A -> A) ks : forall s i,
  nth_error (fold_left (fun s k => mapi (g k) s) ks s) i = option_map (fun a => fold_left (fun a k => g k i a) ks a) (nth_error s i).
Proof.
  induction ks as [|k ks IH]; intros s i; cbn [fold_left]; [now destruct (nth_error s i)|].
  rewrite IH, mapi_nth. now destruct (nth_error s i).
Qed.
Lemma ext_nth {A} (l l' : list A) : (forall i, nth_error l i = nth_error l' i) -> l = l'.
Proof.
  revert l'. induction l as [|a l IH]; intros [|b l'] H; [reflexivity|specialize (H O); discriminate|specialize (H O); discriminate|].
  f_equal; [specialize (H O); cbn in H; congruence|]. apply IH. intros i. exact (H (S i)).
Qed.
Lemma mapM_map {A B C} (f : B -> result C) (g : A -> B) l : mapM f (map g l) = mapM (fun a => f (g a)) l.
Proof. induction l as [|a l IH]; cbn [map mapM]; [reflexivity|]. now rewrite IH. Qed.
Lemma combine_map {A B C} (f : A -> B) (g : A -> C) l : combine (map f l) (map g l) = map (fun a => (f a, g a)) l.
Proof. induction l as [|a l IH]; cbn [map combine]; [reflexivity|]. now rewrite IH. Qed.
Lemma eleven {A} (l : list A) : (10 < length l)%nat -> exists p a b rest, length p = 9%nat /\ l = p ++ a :: b :: rest.
Proof.
  intros H. exists (firstn 9 l). destruct (skipn 9 l) as [|a [|b rest]] eqn:E.
  - apply (f_equal (@length A)) in E. rewrite skipn_length in E. cbn in E. lia.
  - apply (f_equal (@length A)) in E. rewrite skipn_length in E. cbn in E. lia.
  - exists a, b, rest. split; [rewrite firstn_length; lia|]. rewrite <- E. symmetry. apply firstn_skipn.
Qed.
Lemma first_eleven {A} (p : list A) a b rest : length p = 9%nat -> firstn 11 (p ++ a :: b :: rest) = p ++ [a; b].
Proof. intros H. rewrite firstn_app, H. rewrite firstn_all2 by lia. reflexivity. Qed.
Lemma back_0 {A} (p : list A) a b : from_end (p ++ [a; b]) 0 = Ok b.
Proof. unfold from_end. rewrite rev_app_distr. reflexivity. Qed.
Lemma back_1 {A} (p : list A) a b : from_end (p ++ [a; b]) 1 = Ok a.
Proof. unfold from_end. rewrite rev_app_distr. reflexivity. Qed.
Lemma nth_9 {A} (p : list A) a b rest : length p = 9%nat -> nth_error (p ++ a :: b :: rest) 9 = Some a.
Proof. intros H. rewrite nth_error_app2 by lia. now rewrite H. Qed.
Lemma nth_10 {A} (p : list A) a b rest : length p = 9%nat -> nth_error (p ++ a :: b :: rest) 10 = Some b.
Proof. intros H. rewrite nth_error_app2 by lia. now rewrite H. Qed.

Lemma map_constant {A B} (c : B) (l : list A) : map (fun _ => c) l = repeat c (length l).
Proof. induction l as [|a l IH]; cbn [map length repeat]; [reflexivity|]. now rewrite IH. Qed.

(** * One object *)
Definition vec_of (s : state R) : vec4 := V4 (center_x s) (center_y s) (center_z s) (s_heading s).
Definition velocity_of (t : track R) : vec4 := V4 (displacement center_x t) (displacement center_y t) (displacement center_z t) 0.
Definition start_of (t : track R) : vec4 := match nth_error (states t) 10 with Some s => vec_of s | None => zero4 end.
Lemma last_velocity_of t : (10 < length (states t))%nat ->
  last_velocity (map vec_of (firstn 11 (states t))) (map s_valid (firstn 11 (states t))) = Ok (velocity_of t).
Proof.
  intros H. destruct (eleven _ H) as (p & a & b & rest & L & E). unfold velocity_of, displacement.
  rewrite E, first_eleven, nth_9, nth_10 by exact L.
  rewrite !map_app. cbn [map]. unfold last_velocity. rewrite !back_0, !back_1. cbn [bind].
  destruct (s_valid a), (s_valid b); reflexivity.
Qed.
Lemma start_of_end t : (10 < length (states t))%nat -> from_end (map vec_of (firstn 11 (states t))) 0 = Ok (start_of t).
Proof.
  intros H. destruct (eleven _ H) as (p & a & b & rest & L & E). unfold start_of.
  rewrite E, first_eleven, nth_10 by exact L. rewrite map_app. cbn [map]. apply back_0.
Qed.
(** The state after [k] turns. *)
Definition at_turn (s v m : vec4) (noise : nat -> vec4) (k : nat) : vec4 :=
  V4 (qx s + INR k * qx v + qx m * sum_upto (fun i => qx (noise i)) k) (qy s + INR k * qy v + qy m * sum_upto (fun i => qy (noise i)) k)
     (qz s + INR k * qz v + qz m * sum_upto (fun i => qz (noise i)) k) (qh s + INR k * qh v + qh m * sum_upto (fun i => qh (noise i)) k).
Lemma history s v m noise n :
  fold_left (fun h k => h ++ [next_state v m (noise k) (last h zero4)]) (seq 0 n) [s] = map (at_turn s v m noise) (seq 0 (S n)).
Proof.
  induction n as [|n IH].
  - cbn [seq fold_left map]. unfold at_turn. cbn [sum_upto]. destruct s as [a b c d]. cbn [qx qy qz qh]. cbn [INR]. f_equal. f_equal; ring.
  - rewrite (seq_S n), fold_left_app, IH. cbn [fold_left]. rewrite (seq_S (S n)), map_app. cbn [map Nat.add]. f_equal. f_equal.
    rewrite (seq_S n), map_app. cbn [map Nat.add]. rewrite last_last. unfold next_state, add4, mul4, at_turn. cbn [qx qy qz qh].
    rewrite S_INR. cbn [sum_upto]. f_equal; ring.
Qed.
Lemma largest_fold l : forall a, In (fold_left Rmax l a) (a :: l) /\ forall x, In x (a :: l) -> x <= fold_left Rmax l a.
Proof.
  induction l as [|b l IH]; intros a; cbn [fold_left].
  - split; [now left|]. intros x [<-|[]]. lra.
  - destruct (IH (Rmax a b)) as [H1 H2]. split.
    + destruct H1 as [H1|H1]; [|now right; right]. rewrite <- H1. unfold Rmax. destruct (Rle_dec a b); [right; now left|now left].
    + intros x Hx. specialize (H2 (Rmax a b) (or_introl eq_refl)) as H3. pose proof (Rmax_l a b). pose proof (Rmax_r a b).
      destruct Hx as [<-|[<-|Hx]]; [lra|lra|]. apply H2. now right.
Qed.
Lemma largest_ok l : l <> [] -> largest (largest_of l) l.
Proof. destruct l as [|a l]; [congruence|]. intros _. apply largest_fold. Qed.
Lemma largest_zero {A} (l : list A) : largest_of (map (fun _ => 0) l) = 0.
Proof.
  destruct l as [|a l]; [reflexivity|]. cbn [map largest_of]. induction l as [|b l IH]; cbn [map fold_left]; [reflexivity|].
  rewrite Rmax_left by lra. exact IH.
Qed.
Lemma largest_unique m m' l : largest m l -> largest m' l -> m = m'.
Proof. intros [H1 H2] [H3 H4]. apply Rle_antisym; auto. Qed.

(** * The whole simulation *)
Definition max_of (sc : scenario R) : vec4 := max_action (map velocity_of (agents sc)).
Definition object_states (noise : nat -> nat -> nat -> vec4) (sc : scenario R) (r o : nat) (t : track R) : list vec4 :=
  map (fun k => at_turn (start_of t) (velocity_of t) (max_of sc) (fun i => noise r i o) (S k)) (seq 0 80).
Definition history_table (sc : scenario R) : trajectories R :=
  of_objs (map (fun t => slice_obj 0 (Some 11%nat) (track_object t)) (agents sc)).
Lemma simulable_reaches sc : simulable sc -> reaches_current sc.
Proof. intros ((n & Hn & _ & _ & Hu) & _) t Ht. now rewrite Hu. Qed.
Lemma agent_long sc t : simulable sc -> In t (agents sc) -> (10 < length (states t))%nat.
Proof. intros H Ht. apply (simulable_reaches sc H). now apply filter_In in Ht. Qed.
Lemma simulate_ok noise sc : simulable sc -> simulate noise sc =
  Ok (history_table sc, map (fun r => mapi (object_states noise sc r) (agents sc)) (seq 0 32)).
Proof.
  intros H. pose proof (simulable_reaches sc H) as Hr. pose proof (fun t => agent_long sc t H) as Hl.
  destruct H as ((n & Hn & Hu) & (id0 & Hex) & Honce).
  unfold simulate. rewrite (from_scenario_ok sc n Hu). cbn [bind]. rewrite sim_ids_ok by exact Hr. cbn [bind].
  assert (Hin : In id0 (map track_id (filter valid_now (tracks sc)))) by now apply in_sim_ids.
  rewrite id_tensor_ok by (intros E; rewrite E in Hin; destruct Hin). cbn [bind].
  destruct (gather_tracks track_object (tracks sc) (map track_id (filter valid_now (tracks sc))))
    as (trs & E & G); [reflexivity|intros id Hid; apply Honce; now apply in_sim_ids|].
  assert (trs = filter valid_now (tracks sc)) as ->.
  { eapply gathered_unique; [|exact G|].
    - intros id Hid. apply Honce. now apply in_sim_ids.
    - apply Forall2_ids. intros t Ht. now apply filter_In in Ht. }
  rewrite E. cbn [bind]. fold (agents sc) in *. cbn [submission_config current_time_index Nat.add n_rollouts n_simulation_steps].
  rewrite slice_time_of, map_map. fold (history_table sc). cbv zeta.
  assert (S : stacked (history_table sc) = map (fun t => map vec_of (firstn 11 (states t))) (agents sc)).
  { unfold stacked, history_table. cbn [of_objs tr_x tr_y tr_z tr_heading]. rewrite !map_map, zip4_map.
    apply map_ext. intros t. rewrite slice_history. cbn [track_object o_x o_y o_z o_heading states]. apply zip4_map. }
  assert (V : tr_valid (history_table sc) = map (fun t => map s_valid (firstn 11 (states t))) (agents sc)).
  { unfold history_table. cbn [of_objs tr_valid]. rewrite map_map. apply map_ext. intros t. now rewrite slice_history. }
  rewrite S, V, combine_map, !mapM_map.
  rewrite (mapM_ok _ velocity_of) by (intros t Ht; cbn [fst snd]; apply last_velocity_of; auto). cbn [bind].
  rewrite (mapM_ok _ start_of) by (intros t Ht; apply start_of_end; auto). cbn [bind]. f_equal. f_equal.
  apply ext_nth. intros r. rewrite !nth_error_map'. unfold turn. rewrite fold_mapi.
  destruct (Nat.lt_ge_cases r 32) as [L|L].
  2:{ rewrite (proj2 (nth_error_None _ _)) by (rewrite repeat_length; lia).
      rewrite (proj2 (nth_error_None _ _)) by (rewrite seq_length; lia). reflexivity. }
  rewrite nth_error_repeat by exact L. rewrite (nth_error_nth' (seq 0 32) O) by (rewrite seq_length; lia). rewrite seq_nth by exact L.
  cbn [option_map Nat.add]. f_equal. apply ext_nth. intros o. rewrite nth_error_map', fold_mapi, mapi_nth, map_map, nth_error_map'.
  destruct (nth_error (agents sc) o) as [t|] eqn:Eo; [|reflexivity]. cbn [option_map]. f_equal.
  rewrite (nth_error_nth _ _ zero4 (map_nth_error velocity_of _ _ Eo)).
  rewrite (history (start_of t) (velocity_of t) (max_action (map velocity_of (agents sc))) (fun k => noise r k o)).
  rewrite <- cons_seq. cbn [map skipn]. unfold object_states. rewrite <- seq_shift, map_map. reflexivity.
Qed.
Definition scene_of (noise : nat -> nat -> nat -> vec4) (sc : scenario R) (r : nat) : list (sim_trajectory R) :=
  mapi (fun o t => let row := object_states noise sc r o t in
    SimTrajectory (map qx row) (map qy row) (map qz row) (map qh row) [] [] [] [] (track_id t) 0) (agents sc).
Lemma mapM_seq {A B} (f : nat -> result B) (g : nat -> A -> B) (l : list A) :
  (forall i a, nth_error l i = Some a -> f i = Ok (g i a)) -> mapM f (seq 0 (length l)) = Ok (mapi g l).
Proof.
  unfold mapi. intros H. assert (G : forall l s, (forall i a, nth_error l i = Some a -> f (s + i)%nat = Ok (g (s + i)%nat a)) ->
    mapM f (seq s (length l)) = Ok (zip2 g (seq s (length l)) l)).
  { clear l H. induction l as [|a l IH]; intros s H; cbn [length seq mapM zip2]; [reflexivity|].
    pose proof (H O a eq_refl) as E. rewrite Nat.add_0_r in E. rewrite E. cbn [bind]. rewrite IH; [reflexivity|].
    intros i b Hb. replace (S s + i)%nat with (s + S i)%nat by lia. apply H. exact Hb. }
  apply G. exact H.
Qed.
Lemma rollouts_ok noise name sc : simulable sc -> tutorial_rollouts noise name sc = Ok (Rollouts (Some name) (map (scene_of noise sc) (seq 0 32))).
Proof.
  intros H. unfold tutorial_rollouts. rewrite simulate_ok by exact H. cbn [bind]. unfold scenario_rollouts_from_states. rewrite mapM_map.
  assert (I : tr_id (history_table sc) = map track_id (agents sc)).
  { unfold history_table. cbn [of_objs tr_id]. rewrite map_map. reflexivity. }
  rewrite I. rewrite (mapM_ok _ (scene_of noise sc)); [reflexivity|]. intros r _. unfold joint_scene_from_states, scene_of. rewrite map_length.
  apply mapM_seq. intros o t Ho. unfold row. rewrite mapi_nth, Ho, nth_error_map', Ho. reflexivity.
Qed.
(** * The theorems *)
Lemma rollouts_exact noise name sc : (exists r, tutorial_rollouts noise name sc = Ok r) <-> simulable sc.
Proof.
  split; [|intros H; eexists; now apply rollouts_ok]. intros [r H]. unfold tutorial_rollouts, simulate in H.
  destruct (from_scenario sc) as [t|e] eqn:Et; cbn [bind] in H; [|discriminate].
  destruct (from_scenario_inv sc t Et) as (n & Hu). rewrite (from_scenario_ok sc n Hu) in Et. injection Et as <-.
  assert (Hr : reaches_current sc).
  { destruct (reaches_dec sc) as [R|R]; [exact R|]. rewrite sim_ids_fail in H by exact R. discriminate. }
  rewrite sim_ids_ok in H by exact Hr. cbn [bind] in H.
  destruct (map track_id (filter valid_now (tracks sc))) as [|i l] eqn:El; [discriminate|]. cbn [id_tensor bind] in H.
  destruct (gather_objects_by_id _ _) as [g|e] eqn:Eg in H; cbn [bind] in H; [|discriminate].
  split; [|split].
  - exists n. split; [|exact Hu]. destruct Hu as (Hne & _ & Hu). destruct (tracks sc) as [|t ts] eqn:Ets; [contradiction|].
    rewrite <- (Hu t) by now left. apply Hr. rewrite Ets. now left.
  - exists i. apply in_sim_ids. rewrite El. now left.
  - intros id Hid. apply in_sim_ids in Hid. rewrite El in Hid.
    destruct (gather_exact (of_objs (map track_object (tracks sc))) _ (i :: l) (of_objs_n _)) as (A & _).
    destruct A as (A & _). specialize (A (ex_intro _ _ Eg) id Hid).
    cbn [of_objs tr_id] in A. rewrite map_map in A. exact A.
Qed.
(** What is submitted is always accepted. *)
Lemma rollouts_valid noise name sc r : tutorial_rollouts noise name sc = Ok r -> validate_scenario_rollouts r sc SIM_AGENTS = Ok tt.
Proof.
  intros E. assert (H : simulable sc) by (apply (rollouts_exact noise name); now exists r).
  rewrite rollouts_ok in E by exact H. apply Ok_inj in E. subst r. apply (proj2 (validate_rollouts_exact (Rollouts (Some name) (map (scene_of noise sc) (seq 0 32))) sc SIM_AGENTS)). cbn [rollouts_id joint_scenes].
  split; [now exists name|]. split; [now rewrite map_length, seq_length|]. split; [now apply simulable_reaches|].
  intros js Hjs. apply in_map_iff in Hjs as (i & <- & _). split.
  - intros s Hs. apply In_nth_error in Hs as (o & Ho). unfold scene_of in Ho. rewrite mapi_nth in Ho.
    destruct (nth_error (agents sc) o) as [t|]; [|discriminate]. apply some_inj in Ho. subst s. unfold full_length, object_states, steps.
    cbn [sim_x sim_y sim_z sim_heading]. now rewrite !map_length, seq_length.
  - intros id. rewrite <- in_sim_ids. fold (agents sc).
    assert (M : map sim_id (scene_of noise sc i) = map track_id (agents sc)).
    { apply ext_nth. intros o. rewrite !nth_error_map'. unfold scene_of. rewrite mapi_nth. now destruct (nth_error (agents sc) o). }
    now rewrite M.
Qed.
(** The trajectories: constant velocity plus noise scaled by the largest velocity; the heading does not change. *)
Lemma rollouts_value noise name sc r : tutorial_rollouts noise name sc = Ok r ->
  rollouts_id r = Some name /\ length (joint_scenes r) = 32%nat /\
  exists mx my mz, largest mx (map (displacement center_x) (agents sc)) /\ largest my (map (displacement center_y) (agents sc)) /\
    largest mz (map (displacement center_z) (agents sc)) /\
  forall i js, nth_error (joint_scenes r) i = Some js -> length js = length (agents sc) /\
  forall o t, nth_error (agents sc) o = Some t -> exists s tr, nth_error (states t) 10 = Some s /\ nth_error js o = Some tr /\
    sim_id tr = track_id t /\
    sim_x tr = drift (center_x s) (displacement center_x t) mx (fun k => qx (noise i k o)) /\
    sim_y tr = drift (center_y s) (displacement center_y t) my (fun k => qy (noise i k o)) /\
    sim_z tr = drift (center_z s) (displacement center_z t) mz (fun k => qz (noise i k o)) /\
    sim_heading tr = repeat (s_heading s) 80.
Proof.
  intros E. assert (H : simulable sc) by (apply (rollouts_exact noise name); now exists r).
  rewrite rollouts_ok in E by exact H. apply Ok_inj in E. subst r. cbn [rollouts_id joint_scenes].
  split; [reflexivity|]. split; [now rewrite map_length, seq_length|].
  assert (NE : agents sc <> []).
  { destruct H as (_ & (id & Hid) & _). apply in_sim_ids in Hid. fold (agents sc) in Hid. intros C. rewrite C in Hid. destruct Hid. }
  exists (qx (max_of sc)), (qy (max_of sc)), (qz (max_of sc)).
  unfold max_of, max_action. cbn [qx qy qz]. rewrite !map_map.
  assert (MM : forall f, map (fun x => displacement f x) (agents sc) = map (displacement f) (agents sc)) by reflexivity.
  split; [apply largest_ok; destruct (agents sc); [contradiction|discriminate]|].
  split; [apply largest_ok; destruct (agents sc); [contradiction|discriminate]|].
  split; [apply largest_ok; destruct (agents sc); [contradiction|discriminate]|].
  intros i js Hjs. rewrite nth_error_map' in Hjs. destruct (nth_error (seq 0 32) i) as [i'|] eqn:Ei; [|discriminate].
  assert (L : (i < 32)%nat) by (rewrite <- (seq_length 32 0); apply nth_error_Some; congruence).
  rewrite (nth_error_nth' (seq 0 32) O) in Ei by (rewrite seq_length; exact L). rewrite seq_nth in Ei by exact L. injection Ei as <-.
  cbn [option_map Nat.add] in Hjs. apply some_inj in Hjs. subst js. split.
  - unfold scene_of, mapi. clear. generalize (seq_length (length (agents sc)) 0). generalize (seq 0 (length (agents sc))). induction (agents sc) as [|a l IH]; intros [|b s]; cbn [zip2 length]; intros; try lia. rewrite IH; lia.
  - intros o t Ho. assert (Long : (10 < length (states t))%nat) by (apply (agent_long sc t H); now apply nth_error_In in Ho).
    destruct (nth_error (states t) 10) as [s|] eqn:Es; [|apply nth_error_None in Es; lia].
    exists s. unfold scene_of. rewrite mapi_nth, Ho. cbn [option_map]. eexists. split; [reflexivity|]. split; [reflexivity|].
    cbn [sim_id sim_x sim_y sim_z sim_heading]. unfold object_states. rewrite !map_map. unfold at_turn, start_of, drift. rewrite Es.
    unfold max_of, max_action, velocity_of. cbn [qx qy qz qh vec_of]. rewrite !map_map.
    split; [reflexivity|]. split; [reflexivity|]. split; [reflexivity|]. split; [reflexivity|].
    cbn [qh]. rewrite largest_zero.
    rewrite (map_ext _ (fun _ => s_heading s)) by (intros k; ring). apply (map_constant (s_heading s) (seq 0 80)).
Qed.
