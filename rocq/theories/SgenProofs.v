(** Proofs about the baseline of the scenario generation tutorial. *)
From Coq Require Import Reals Lra.
From Verif Require Import Base ResultLib ListLib MonadLib SimModel SimSpec SimProofs ExtrapModel ExtrapSpec ExtrapProofs SgenModel SgenSpec.
Open Scope list_scope.
Open Scope R_scope.

(** * Lists *)
Lemma map_mapi {A B C} (f : B -> C) (g : nat -> A -> B) l : map f (mapi g l) = mapi (fun i a => f (g i a)) l.
Proof. apply ext_nth. intros i. rewrite nth_error_map', !mapi_nth. now destruct (nth_error l i). Qed.
Lemma mapi_map {A B C} (f : A -> B) (g : nat -> B -> C) l : mapi g (map f l) = mapi (fun i a => g i (f a)) l.
Proof. apply ext_nth. intros i. rewrite !mapi_nth, nth_error_map'. now destruct (nth_error l i). Qed.
Lemma mapi_ext {A B} (f g : nat -> A -> B) l : (forall i a, f i a = g i a) -> mapi f l = mapi g l.
Proof. intros H. apply ext_nth. intros i. rewrite !mapi_nth. destruct (nth_error l i); cbn; [now rewrite H|reflexivity]. Qed.
Lemma mapi_const {A B} (f : A -> B) l : mapi (fun _ => f) l = map f l.
Proof. apply ext_nth. intros i. rewrite mapi_nth, nth_error_map'. reflexivity. Qed.
Lemma mapi_length {A B} (f : nat -> A -> B) l : length (mapi f l) = length l.
Proof. rewrite <- (map_length (fun _ => tt) (mapi f l)), map_mapi, (mapi_const (fun _ : A => tt)). apply map_length. Qed.
Lemma mapi_cons {A B} (f : nat -> A -> B) a l : mapi f (a :: l) = f 0%nat a :: mapi (fun i => f (S i)) l.
Proof. apply ext_nth. intros [|i]; rewrite mapi_nth; cbn [nth_error]; [reflexivity|]. now rewrite mapi_nth. Qed.
Lemma filter_map {A B} (p : B -> bool) (f : A -> B) l : filter p (map f l) = map f (filter (fun a => p (f a)) l).
Proof. induction l as [|a l IH]; cbn [map filter]; [reflexivity|]. rewrite IH. now destruct (p (f a)). Qed.
Lemma filter_ext' {A} (p q : A -> bool) l : (forall a, p a = q a) -> filter p l = filter q l.
Proof. intros H. induction l as [|a l IH]; cbn [filter]; [reflexivity|]. now rewrite H, IH. Qed.

(** * The stripped scenario *)
Definition kept (i k : nat) : bool := (i =? 0)%nat && (k <? 11)%nat.
Definition strip_state (i k : nat) (s : state R) : state R :=
  State (if kept i k then center_x s else 0) (if kept i k then center_y s else 0) (if kept i k then center_z s else 0)
    (if kept i k then s_heading s else 0) (if kept i k then s_length s else 0) (if kept i k then s_width s else 0)
    (if kept i k then s_height s else 0) (if kept i k || (k =? 10)%nat then s_valid s else false).
Definition strip_track (i : nat) (t : track R) : track R := Track (track_id t) (track_type t) (mapi (strip_state i) (states t)).
Definition stripped (sc : scenario R) : scenario R := Scenario (mapi strip_track (tracks sc)) (sdc_track_index sc) (tracks_to_predict sc).

Lemma strip_valid_now i t : valid_now (strip_track i t) = valid_now t.
Proof.
  unfold valid_now, strip_track. cbn [states]. rewrite mapi_nth. destruct (nth_error (states t) 10) as [s|]; [|reflexivity].
  cbn [option_map strip_state s_valid]. rewrite Nat.eqb_refl. now rewrite Bool.orb_true_r.
Qed.
Lemma strip_shape t0 ts : mapi strip_track (t0 :: ts) = strip_track 0 t0 :: map (strip_track 1) ts.
Proof. rewrite mapi_cons. f_equal. rewrite <- mapi_const. apply mapi_ext. intros i a. reflexivity. Qed.
Lemma stripped_agents sc : exists f, agents (stripped sc) = mapi f (agents sc) /\ forall o t, exists i, f o t = strip_track i t.
Proof.
  unfold agents, stripped. cbn [tracks]. destruct (tracks sc) as [|t0 ts].
  - exists strip_track. split; [reflexivity|]. intros o t. now exists o.
  - rewrite strip_shape. cbn [filter]. rewrite strip_valid_now, filter_map.
    rewrite (filter_ext' _ valid_now) by (intros a; apply strip_valid_now).
    destruct (valid_now t0).
    + exists strip_track. rewrite strip_shape. split; [reflexivity|]. intros o t. now exists o.
    + exists (fun _ => strip_track 1). rewrite mapi_const. split; [reflexivity|]. intros o t. now exists 1%nat.
Qed.
Lemma stripped_ids sc : map track_id (tracks (stripped sc)) = map track_id (tracks sc).
Proof. unfold stripped. cbn [tracks]. rewrite map_mapi, <- mapi_const. now apply mapi_ext. Qed.
Lemma stripped_agent_ids sc : map track_id (agents (stripped sc)) = map track_id (agents sc).
Proof.
  destruct (stripped_agents sc) as (f & -> & H). rewrite map_mapi, <- mapi_const. apply mapi_ext. intros o t. destruct (H o t) as (i & ->). reflexivity.
Qed.
Lemma stripped_agent_types sc : map track_type (agents (stripped sc)) = map track_type (agents sc).
Proof.
  destruct (stripped_agents sc) as (f & -> & H). rewrite map_mapi, <- mapi_const. apply mapi_ext. intros o t. destruct (H o t) as (i & ->). reflexivity.
Qed.
Lemma strip_long i t : length (states (strip_track i t)) = length (states t).
Proof. unfold strip_track. cbn [states]. apply mapi_length. Qed.
Lemma stripped_lengths sc : map (fun t => length (states t)) (tracks (stripped sc)) = map (fun t => length (states t)) (tracks sc).
Proof. unfold stripped. cbn [tracks]. rewrite map_mapi, <- mapi_const. apply mapi_ext. intros i t. apply strip_long. Qed.
Lemma uniform_lengths (sc sc' : scenario R) n : map (fun t => length (states t)) (tracks sc) = map (fun t => length (states t)) (tracks sc') ->
  uniform sc n -> uniform sc' n.
Proof.
  intros E (H1 & H2 & H3). split; [|split; [exact H2|]].
  - intros C. rewrite C in E. destruct (tracks sc); [contradiction|discriminate].
  - intros t Ht. apply (in_map (fun t => length (states t))) in Ht. rewrite <- E in Ht. apply in_map_iff in Ht as (u & <- & Hu). now apply H3.
Qed.
Lemma simulable_same (sc sc' : scenario R) : map (fun t => length (states t)) (tracks sc) = map (fun t => length (states t)) (tracks sc') ->
  map track_id (tracks sc) = map track_id (tracks sc') -> map track_id (agents sc) = map track_id (agents sc') -> simulable sc -> simulable sc'.
Proof.
  intros EL EI EA ((n & Hn & Hu) & (id & Hid) & Ho). split; [exists n; split; [exact Hn|now apply (uniform_lengths sc)]|]. split.
  - exists id. apply in_sim_ids. fold (agents sc'). rewrite <- EA. now apply in_sim_ids.
  - intros i Hi. rewrite <- EI. apply Ho. apply in_sim_ids. fold (agents sc). rewrite EA. now apply in_sim_ids.
Qed.
Lemma simulable_stripped sc : simulable sc <-> simulable (stripped sc).
Proof.
  split; apply simulable_same; rewrite ?stripped_lengths, ?stripped_ids, ?stripped_agent_ids; reflexivity.
Qed.
Lemma strip_rows_of (f : state R -> R) sc : (forall i k s, f (strip_state i k s) = if kept i k then f s else 0) ->
  strip_rows 0 11 (map (fun t => map f (states t)) (tracks sc)) = map (fun t => map f (states t)) (tracks (stripped sc)).
Proof.
  intros H. unfold strip_rows, stripped. cbn [tracks]. rewrite mapi_map, map_mapi. apply mapi_ext. intros i t.
  unfold strip_track. cbn [states]. rewrite mapi_map, map_mapi. apply mapi_ext. intros k s. rewrite H. reflexivity.
Qed.
Lemma strip_ok sc n : uniform sc n -> (10 < n)%nat ->
  strip (submission_config SCENARIO_GEN) (of_objs (map track_object (tracks sc))) = Ok (of_objs (map track_object (tracks (stripped sc)))).
Proof.
  intros (Hne & _ & Hu) Hn. unfold strip. cbn [submission_config current_time_index]. cbv zeta.
  destruct (tracks sc) as [|t0 ts] eqn:Et; [contradiction|].
  cbn [map of_objs tr_x tr_valid last_dim track_object o_valid]. rewrite map_length, (Hu t0) by now left.
  replace (n <=? 10)%nat with false by (symmetry; apply Nat.leb_gt; lia).
  change (10 + 1)%nat with 11%nat.
  unfold of_objs. cbn [tr_x tr_y tr_z tr_heading tr_length tr_width tr_height tr_valid tr_id tr_type track_object o_x o_y o_z o_heading o_length o_width o_height o_id o_type map].
  rewrite !map_map. cbn [track_object o_x o_y o_z o_heading o_length o_width o_height o_valid o_id o_type].
  pose proof (strip_rows_of center_x sc (fun _ _ _ => eq_refl)) as Hx. pose proof (strip_rows_of center_y sc (fun _ _ _ => eq_refl)) as Hy.
  pose proof (strip_rows_of center_z sc (fun _ _ _ => eq_refl)) as Hz. pose proof (strip_rows_of s_heading sc (fun _ _ _ => eq_refl)) as Hh.
  pose proof (strip_rows_of s_length sc (fun _ _ _ => eq_refl)) as Hl. pose proof (strip_rows_of s_width sc (fun _ _ _ => eq_refl)) as Hw.
  pose proof (strip_rows_of s_height sc (fun _ _ _ => eq_refl)) as Hg.
  assert (Hv : strip_valid 10 (map (fun t => map s_valid (states t)) (tracks sc)) = map (fun t => map s_valid (states t)) (tracks (stripped sc))).
  { unfold strip_valid, stripped. cbn [tracks]. rewrite mapi_map, map_mapi. apply mapi_ext. intros i t.
    unfold strip_track. cbn [states]. rewrite mapi_map, map_mapi. apply mapi_ext. intros k s. reflexivity. }
  assert (Hi := stripped_ids sc).
  assert (Hk : map track_type (tracks (stripped sc)) = map track_type (tracks sc)).
  { unfold stripped. cbn [tracks]. rewrite map_mapi, <- mapi_const. now apply mapi_ext. }
  rewrite Et in Hx, Hy, Hz, Hh, Hl, Hw, Hg, Hv, Hi, Hk. cbn [map] in Hx, Hy, Hz, Hh, Hl, Hw, Hg, Hv, Hi, Hk.
  rewrite Hx, Hy, Hz, Hh, Hl, Hw, Hg, Hv. f_equal. f_equal; symmetry; assumption.
Qed.

(** * The generation *)
Definition lead (l : list (track R)) (k : nat) : vec4 :=
  match l with u :: _ => match nth_error (states u) k with Some s => vec_of s | None => zero4 end | [] => zero4 end.
Definition lead_velocity (l : list (track R)) : vec4 :=
  V4 (qx (lead l 1) - qx (lead l 0)) (qy (lead l 1) - qy (lead l 0)) (qz (lead l 1) - qz (lead l 0)) 0.
Definition gen_states (init : nat -> nat -> vec4) (noise : nat -> nat -> nat -> vec4) (l : list (track R)) (r o : nat) : list vec4 :=
  map (at_turn (add4 (lead l 0) (init r o)) (lead_velocity l) action_scale (fun k => noise r k o)) (seq 0 91).
Definition gen_scene_of init noise (l : list (track R)) (r : nat) : list (sim_trajectory R) :=
  mapi (fun o t => let row := gen_states init noise l r o in let size := repeat (size_of (track_type t)) (length (states t)) in
    SimTrajectory (map qx row) (map qy row) (map qz row) (map qh row) (map bl size) (map bw size) (map bh size) [] (track_id t) 0) l.
Lemma trajectories_ok init noise l n : l <> [] -> (10 < n)%nat -> (forall t, In t l -> length (states t) = n) ->
  generate_trajectories (submission_config SCENARIO_GEN) init noise (of_objs (map track_object l)) =
  Ok (map (fun r => map (gen_states init noise l r) (seq 0 (length l))) (seq 0 32)).
Proof.
  intros Hne Hn Hl. unfold generate_trajectories.
  assert (S : stacked (of_objs (map track_object l)) = map (fun t => map vec_of (states t)) l).
  { unfold stacked. cbn [of_objs tr_x tr_y tr_z tr_heading]. rewrite !map_map, zip4_map.
    apply map_ext. intros t. cbn [track_object o_x o_y o_z o_heading]. apply zip4_map. }
  rewrite S. destruct l as [|u l']; [contradiction|]. cbn [map row nth_error bind]. unfold row at 1. cbn [nth_error bind].
  pose proof (Hl u (or_introl eq_refl)) as Lu. destruct (states u) as [|s0 [|s1 rest]] eqn:Eu; cbn [length] in Lu; [lia|lia|].
  cbn [map]. unfold first_velocity. cbn [firstn from_end rev app nth_error bind]. unfold from_end. cbn [rev app nth_error bind]. unfold row. cbn [nth_error bind].
  cbv zeta. f_equal. cbn [submission_config n_rollouts n_simulation_steps]. change (91 - 1)%nat with 90%nat.
  assert (E0 : lead (u :: l') 0 = vec_of s0) by (unfold lead; now rewrite Eu).
  assert (E1 : lead (u :: l') 1 = vec_of s1) by (unfold lead; now rewrite Eu).
  cbn [of_objs tr_valid]. change (track_object u :: map track_object l') with (map track_object (u :: l')). rewrite !map_length.
  apply ext_nth. intros r. unfold gen_turn. rewrite fold_mapi, !nth_error_map'.
  destruct (nth_error (seq 0 32) r) as [r'|] eqn:Er; [|reflexivity].
  assert (r' = r) as ->.
  { assert (L : (r < 32)%nat) by (rewrite <- (seq_length 32 0); apply nth_error_Some; congruence).
    rewrite (nth_error_nth' (seq 0 32) O) in Er by (rewrite seq_length; exact L). rewrite seq_nth in Er by exact L. now injection Er as <-. }
  cbn [option_map]. f_equal. apply ext_nth. intros o. rewrite fold_mapi, !nth_error_map'.
  destruct (nth_error (seq 0 (length (u :: l'))) o) as [o'|] eqn:Eo; [|reflexivity].
  assert (o' = o) as ->.
  { assert (L : (o < length (u :: l'))%nat) by (rewrite <- (seq_length (length (u :: l')) 0); apply nth_error_Some; congruence).
    rewrite (nth_error_nth' _ O) in Eo by (rewrite seq_length; exact L). rewrite seq_nth in Eo by exact L. now injection Eo as <-. }
  cbn [option_map]. f_equal. unfold gen_states. rewrite <- (history (add4 (lead (u :: l') 0) (init r o)) (lead_velocity (u :: l')) action_scale (fun k => noise r k o) 90).
  unfold lead_velocity. rewrite E0, E1. cbn [vec_of qx qy qz qh]. reflexivity.
Qed.
Lemma agents_uniform sc : simulable sc -> exists n, (10 < n)%nat /\ uniform sc n /\
  (forall t, In t (agents sc) -> length (states t) = n) /\ agents sc <> [].
Proof.
  intros H. pose proof H as ((n & Hn & Hu) & (id & Hid) & _). exists n. split; [exact Hn|]. split; [exact Hu|]. split.
  - intros t Ht. apply filter_In in Ht as [Ht _]. now apply Hu.
  - apply in_sim_ids in Hid. fold (agents sc) in Hid. intros C. rewrite C in Hid. destruct Hid.
Qed.
Lemma generate_ok init noise sc : simulable sc -> let l := agents (stripped sc) in generate init noise sc =
  Ok (of_objs (map track_object l), (map (fun r => map (gen_states init noise l r) (seq 0 (length l))) (seq 0 32),
    repeat (map (fun t => repeat (size_of (track_type t)) (length (states t))) l) 32)).
Proof.
  intros H l. pose proof (simulable_reaches sc H) as Hr. pose proof (proj1 (simulable_stripped sc) H) as H'.
  destruct (agents_uniform sc H) as (n & Hn & Hu & _ & Hne).
  destruct (agents_uniform (stripped sc) H') as (n' & Hn' & Hu' & Hl' & Hne').
  unfold generate. cbv zeta. rewrite (from_scenario_ok sc n Hu). cbn [bind]. rewrite (strip_ok sc n Hu Hn). cbn [bind].
  rewrite sim_ids_ok by exact Hr. cbn [bind]. fold (agents sc). rewrite <- stripped_agent_ids.
  rewrite id_tensor_ok by (intros C; apply map_eq_nil in C; contradiction). cbn [bind].
  destruct H' as (_ & _ & Honce).
  destruct (gather_tracks track_object (tracks (stripped sc)) (map track_id (agents (stripped sc))))
    as (trs & E & G); [reflexivity|intros id Hid; apply Honce; now apply in_sim_ids|].
  assert (trs = agents (stripped sc)) as ->.
  { eapply gathered_unique; [|exact G|].
    - intros id Hid. apply Honce. now apply in_sim_ids.
    - apply Forall2_ids. intros t Ht. now apply filter_In in Ht. }
  rewrite E. cbn [bind]. rewrite (trajectories_ok init noise _ n' Hne' Hn' Hl'). cbn [bind]. fold l. f_equal. f_equal. f_equal.
  unfold generate_sizes. cbn [submission_config n_rollouts]. f_equal. cbn [of_objs tr_type tr_valid]. rewrite !map_map.
  fold l in Hl', Hne'. destruct l as [|u l']; [contradiction|]. cbn [map track_object o_valid last_dim o_type]. rewrite map_length.
  f_equal. apply map_ext_in. intros t Ht. rewrite (Hl' u) by now left. rewrite (Hl' t) by now right. reflexivity.
Qed.
Lemma gen_ok init noise name sc : simulable sc ->
  generated init noise name sc = Ok (Rollouts (Some name) (map (gen_scene_of init noise (agents (stripped sc))) (seq 0 32))).
Proof.
  intros H. unfold generated. rewrite generate_ok by exact H. cbn [bind fst snd]. unfold gen_rollouts. rewrite map_length, seq_length.
  set (l := agents (stripped sc)).
  rewrite (mapM_ok _ (gen_scene_of init noise l)); [reflexivity|]. intros r Hr. apply in_seq in Hr.
  unfold row. rewrite nth_error_map', (nth_error_nth' (seq 0 32) O) by (rewrite seq_length; lia). rewrite seq_nth by lia. cbn [option_map bind Nat.add].
  rewrite nth_error_repeat by lia. cbn [bind]. unfold gen_scene. cbn [of_objs tr_id]. rewrite !map_length. unfold gen_scene_of.
  apply mapM_seq. intros o t Ho. unfold row. rewrite !nth_error_map', Ho. cbn [option_map bind].
  assert (L : (o < length l)%nat) by (apply nth_error_Some; congruence).
  rewrite (nth_error_nth' (seq 0 (length l)) O) by (rewrite seq_length; lia). rewrite seq_nth by lia. reflexivity.
Qed.

(** * The theorems *)
Lemma gen_exact init noise name sc : (exists r, generated init noise name sc = Ok r) <-> simulable sc.
Proof.
  split; [|intros H; eexists; now apply gen_ok]. intros [r H]. unfold generated, generate in H. cbv zeta in H.
  destruct (from_scenario sc) as [t|e] eqn:Et; cbn [bind] in H; [|discriminate].
  destruct (from_scenario_inv sc t Et) as (n & Hu). rewrite (from_scenario_ok sc n Hu) in Et. apply Ok_inj in Et. subst t.
  destruct (strip _ _) as [t|e] eqn:Es in H; cbn [bind] in H; [|discriminate].
  assert (Hr : reaches_current sc).
  { destruct (reaches_dec sc) as [R|R]; [exact R|]. rewrite sim_ids_fail in H by exact R. discriminate. }
  assert (Hn : (10 < n)%nat).
  { destruct Hu as (Hne & _ & Hu). destruct (tracks sc) as [|t0 ts] eqn:Ets; [contradiction|].
    rewrite <- (Hu t0) by now left. apply Hr. rewrite Ets. now left. }
  rewrite (strip_ok sc n Hu Hn) in Es. apply Ok_inj in Es. subst t.
  rewrite sim_ids_ok in H by exact Hr. cbn [bind] in H.
  destruct (map track_id (filter valid_now (tracks sc))) as [|i l] eqn:El; [discriminate|]. cbn [id_tensor bind] in H.
  destruct (gather_objects_by_id _ _) as [g|e] eqn:Eg in H; cbn [bind] in H; [|discriminate].
  split; [now exists n|]. split.
  - exists i. apply in_sim_ids. rewrite El. now left.
  - intros id Hid. apply in_sim_ids in Hid. rewrite El in Hid.
    destruct (gather_exact (of_objs (map track_object (tracks (stripped sc)))) _ (i :: l) (of_objs_n _)) as (A & _).
    destruct A as (A & _). specialize (A (ex_intro _ _ Eg) id Hid).
    cbn [of_objs tr_id] in A. rewrite map_map in A. rewrite <- stripped_ids. exact A.
Qed.
Lemma gen_valid init noise name sc r : generated init noise name sc = Ok r -> validate_scenario_rollouts r sc SCENARIO_GEN = Ok tt.
Proof.
  intros E. assert (H : simulable sc) by (apply (gen_exact init noise name); now exists r).
  rewrite gen_ok in E by exact H. apply Ok_inj in E. subst r. set (l := agents (stripped sc)).
  apply (proj2 (validate_rollouts_exact (Rollouts (Some name) (map (gen_scene_of init noise l) (seq 0 32))) sc SCENARIO_GEN)). cbn [rollouts_id joint_scenes].
  split; [now exists name|]. split; [now rewrite map_length, seq_length|]. split; [now apply simulable_reaches|].
  intros js Hjs. apply in_map_iff in Hjs as (i & <- & _). split.
  - intros s Hs. apply In_nth_error in Hs as (o & Ho). unfold gen_scene_of in Ho. rewrite mapi_nth in Ho.
    destruct (nth_error l o) as [t|]; [|discriminate]. apply some_inj in Ho. subst s. unfold full_length, gen_states, steps.
    cbn [sim_x sim_y sim_z sim_heading]. now rewrite !map_length, seq_length.
  - intros id. rewrite <- in_sim_ids. fold (agents sc). rewrite <- stripped_agent_ids. fold l.
    assert (M : map sim_id (gen_scene_of init noise l i) = map track_id l).
    { unfold gen_scene_of. rewrite map_mapi, <- mapi_const. apply mapi_ext. reflexivity. }
    now rewrite M.
Qed.
Lemma lead_first sc k : simulable sc -> (k < 11)%nat -> lead (agents (stripped sc)) k =
  V4 (first_track center_x sc k) (first_track center_y sc k) (first_track center_z sc k) (first_track s_heading sc k).
Proof.
  intros H Hk. destruct (agents_uniform (stripped sc) (proj1 (simulable_stripped sc) H)) as (n & Hn & Hu & Hl & Hne).
  pose proof (simulable_reaches sc H) as Hr. unfold first_track.
  unfold agents, stripped in *. cbn [tracks] in *. destruct (tracks sc) as [|t0 ts] eqn:Et; [cbn in Hne; contradiction|].
  assert (L0 : (10 < length (states t0))%nat) by (apply Hr; rewrite Et; now left).
  rewrite strip_shape in *. cbn [filter] in *. rewrite strip_valid_now in *.
  destruct (nth_error (states t0) 10) as [now|] eqn:E10; [|apply nth_error_None in E10; lia].
  destruct (nth_error (states t0) k) as [s|] eqn:Ek; [|apply nth_error_None in Ek; lia].
  unfold valid_now in *. rewrite E10 in *. destruct (s_valid now).
  - cbn [lead strip_track states]. rewrite mapi_nth, Ek. cbn [option_map]. unfold strip_state, kept, vec_of. cbn [Nat.eqb andb center_x center_y center_z s_heading].
    now rewrite (proj2 (Nat.ltb_lt k 11) Hk).
  - rewrite filter_map in *. destruct (filter _ ts) as [|u us] eqn:Ef; [cbn in Hne; contradiction|].
    specialize (Hl (strip_track 1 u) (or_introl eq_refl)). rewrite strip_long in Hl. cbn [map lead strip_track states]. rewrite mapi_nth.
    destruct (nth_error (states u) k) as [su|] eqn:Eu; [|apply nth_error_None in Eu; lia]. reflexivity.
Qed.
Lemma map_repeat' {A B} (f : A -> B) a n : map f (repeat a n) = repeat (f a) n.
Proof. induction n as [|n IH]; cbn [repeat map]; [reflexivity|]. now rewrite IH. Qed.
Lemma size_box ty : box_size ty (bl (size_of ty), bw (size_of ty), bh (size_of ty)).
Proof.
  unfold box_size, size_of, is_type. cbn [add3 scale3 bl bw bh].
  destruct (ty =? 1)%Z eqn:E1.
  - left. apply Z.eqb_eq in E1. split; [exact E1|]. subst ty. cbn [Z.eqb]. cbn. f_equal; [f_equal|]; lra.
  - destruct (ty =? 2)%Z eqn:E2.
    + right; left. apply Z.eqb_eq in E2. split; [exact E2|]. subst ty. cbn. f_equal; [f_equal|]; lra.
    + destruct (ty =? 3)%Z eqn:E3.
      * right; right; left. apply Z.eqb_eq in E3. split; [exact E3|]. f_equal; [f_equal|]; lra.
      * right; right; right. apply Z.eqb_neq in E1, E2, E3. repeat (split; [assumption|]). f_equal; [f_equal|]; lra.
Qed.
Lemma gen_value init noise name sc r : generated init noise name sc = Ok r ->
  rollouts_id r = Some name /\ length (joint_scenes r) = 32%nat /\
  forall i js, nth_error (joint_scenes r) i = Some js -> length js = length (agents sc) /\
  forall o t, nth_error (agents sc) o = Some t -> exists tr l w h, nth_error js o = Some tr /\ sim_id tr = track_id t /\
    sim_x tr = walk (first_track center_x sc 0 + qx (init i o)) (first_track center_x sc 1 - first_track center_x sc 0) (fun k => qx (noise i k o)) /\
    sim_y tr = walk (first_track center_y sc 0 + qy (init i o)) (first_track center_y sc 1 - first_track center_y sc 0) (fun k => qy (noise i k o)) /\
    sim_z tr = walk (first_track center_z sc 0 + qz (init i o)) (first_track center_z sc 1 - first_track center_z sc 0) (fun k => qz (noise i k o)) /\
    sim_heading tr = repeat (first_track s_heading sc 0 + qh (init i o)) 91 /\
    box_size (track_type t) (l, w, h) /\
    sim_length tr = repeat l (length (states t)) /\ sim_width tr = repeat w (length (states t)) /\ sim_height tr = repeat h (length (states t)).
Proof.
  intros E. assert (H : simulable sc) by (apply (gen_exact init noise name); now exists r).
  rewrite gen_ok in E by exact H. apply Ok_inj in E. subst r. cbn [rollouts_id joint_scenes].
  split; [reflexivity|]. split; [now rewrite map_length, seq_length|].
  intros i js Hjs. rewrite nth_error_map' in Hjs. destruct (nth_error (seq 0 32) i) as [i'|] eqn:Ei; [|discriminate].
  assert (L : (i < 32)%nat) by (rewrite <- (seq_length 32 0); apply nth_error_Some; congruence).
  rewrite (nth_error_nth' (seq 0 32) O) in Ei by (rewrite seq_length; exact L). rewrite seq_nth in Ei by exact L. injection Ei as <-.
  cbn [option_map Nat.add] in Hjs. apply some_inj in Hjs. subst js. set (l := agents (stripped sc)).
  split; [unfold gen_scene_of; rewrite mapi_length; unfold l; rewrite <- (map_length track_id), stripped_agent_ids; apply map_length|].
  intros o t Ho. destruct (stripped_agents sc) as (f & Ef & Hf). destruct (Hf o t) as (j & Ej).
  assert (Hl : nth_error l o = Some (strip_track j t)) by (unfold l; rewrite Ef, mapi_nth, Ho; cbn [option_map]; now rewrite Ej).
  unfold gen_scene_of. rewrite mapi_nth, Hl. cbn [option_map]. cbv zeta. rewrite strip_long. cbn [strip_track track_type track_id].
  exists (SimTrajectory (map qx (gen_states init noise l i o)) (map qy (gen_states init noise l i o)) (map qz (gen_states init noise l i o))
    (map qh (gen_states init noise l i o)) (map bl (repeat (size_of (track_type t)) (length (states t))))
    (map bw (repeat (size_of (track_type t)) (length (states t)))) (map bh (repeat (size_of (track_type t)) (length (states t)))) [] (track_id t) 0),
    (bl (size_of (track_type t))), (bw (size_of (track_type t))), (bh (size_of (track_type t))).
  split; [reflexivity|]. cbn [sim_id sim_x sim_y sim_z sim_heading sim_length sim_width sim_height].
  rewrite !map_repeat'. unfold gen_states. rewrite !map_map. unfold at_turn, lead_velocity, l. rewrite !(lead_first sc) by (exact H || lia).
  cbn [qx qy qz qh add4 action_scale]. unfold walk.
  split; [reflexivity|]. split; [reflexivity|]. split; [reflexivity|]. split; [reflexivity|]. split.
  - rewrite (map_ext _ (fun _ => first_track s_heading sc 0 + qh (init i o))) by (intros k; ring). apply (map_constant _ (seq 0 91)).
  - split; [apply size_box|]. split; [reflexivity|]. split; reflexivity.
Qed.
(** Only what the challenge allows is used, if the vehicle is the first track. *)
Lemma same_stripped sc sc' : same_input 0 sc sc' -> tracks (stripped sc) = tracks (stripped sc').
Proof.
  intros (HT & HH). unfold stripped. cbn [tracks].
  assert (G : forall t t', same_task t t' -> strip_track 1 t = strip_track 1 t').
  { intros t t' (E1 & E2 & E3 & E4). unfold strip_track. rewrite E1, E2. f_equal. apply ext_nth. intros k. rewrite !mapi_nth.
    destruct (nth_error (states t) k) as [s|] eqn:Ek; destruct (nth_error (states t') k) as [s'|] eqn:Ek'.
    - cbn [option_map]. f_equal. unfold strip_state, kept. cbn [Nat.eqb andb orb]. destruct (k =? 10)%nat eqn:E; [|reflexivity].
      apply Nat.eqb_eq in E. subst k. rewrite Ek, Ek' in E4. cbn in E4. congruence.
    - apply nth_error_None in Ek'. assert (k < length (states t))%nat by (apply nth_error_Some; congruence). lia.
    - apply nth_error_None in Ek. assert (k < length (states t'))%nat by (apply nth_error_Some; congruence). lia.
    - reflexivity. }
  destruct HT as [|t t' l l' Ht HT]; [reflexivity|]. rewrite !strip_shape. f_equal.
  - cbn [nth_error option_map] in HH. apply some_inj in HH. destruct Ht as (E1 & E2 & E3 & E4). unfold strip_track. rewrite E1, E2. f_equal.
    apply ext_nth. intros k. rewrite !mapi_nth.
    destruct (Nat.lt_ge_cases k 11) as [L|L].
    + assert (F : forall l : list (state R), nth_error (firstn 11 l) k = nth_error l k).
      { intros q. rewrite <- (firstn_skipn 11 q) at 2. destruct (Nat.lt_ge_cases k (length (firstn 11 q))) as [M|M].
        - now rewrite nth_error_app1.
        - rewrite (proj2 (nth_error_None _ _) M). symmetry. rewrite nth_error_app2 by exact M. rewrite firstn_length in *.
          assert (length (skipn 11 q) = 0)%nat as Z by (rewrite skipn_length; lia). apply length_zero_iff_nil in Z. rewrite Z. now destruct (k - _)%nat. }
      rewrite <- (F (states t)), <- (F (states t')), HH. reflexivity.
    + assert (E : kept 0 k = false) by (unfold kept; cbn [Nat.eqb andb]; apply Nat.ltb_ge; exact L).
      assert (E' : (k =? 10)%nat = false) by (apply Nat.eqb_neq; lia).
      destruct (nth_error (states t) k) as [s|] eqn:Ek; destruct (nth_error (states t') k) as [s'|] eqn:Ek'.
      * cbn [option_map]. unfold strip_state. rewrite E, E'. reflexivity.
      * apply nth_error_None in Ek'. assert (k < length (states t))%nat by (apply nth_error_Some; congruence). lia.
      * apply nth_error_None in Ek. assert (k < length (states t'))%nat by (apply nth_error_Some; congruence). lia.
      * reflexivity.
  - clear -HT G. induction HT as [|a b l l' H HT IH]; cbn [map]; [reflexivity|]. now rewrite (G a b H), IH.
Qed.
Lemma gen_private init noise name sc sc' r : same_input 0 sc sc' -> (generated init noise name sc = Ok r <-> generated init noise name sc' = Ok r).
Proof.
  assert (G : forall sc sc', same_input 0 sc sc' -> generated init noise name sc = Ok r -> generated init noise name sc' = Ok r).
  { clear. intros sc sc' H E. pose proof (same_stripped sc sc' H) as T.
    assert (A : agents (stripped sc) = agents (stripped sc')) by (unfold agents; now rewrite T).
    assert (S : simulable sc) by (apply (gen_exact init noise name); now exists r).
    assert (S' : simulable sc').
    { apply simulable_stripped. apply simulable_stripped in S. apply (simulable_same (stripped sc)); try exact S; now rewrite ?T, ?A. }
    rewrite gen_ok in E by exact S. rewrite gen_ok by exact S'. now rewrite <- A. }
  intros H. split; [now apply G|]. apply G. destruct H as (H1 & H2). split; [|now symmetry].
  clear -H1. induction H1 as [|a b l l' (E1 & E2 & E3 & E4) H IH]; constructor; [|exact IH]. unfold same_task. auto.
Qed.

(** * Witnesses *)
Definition parked (x : R) : list (state R) := repeat (State x 0 0 0 4 2 1 true) 91.
(** A car that is not ours first, at [x], and ours second, at 0. *)
Definition other_first (x : R) : scenario R := Scenario [Track 5 1 (parked x); Track 6 1 (parked 0)] 1 [].
Lemma other_simulable x : simulable (other_first x).
Proof.
  split; [exists 91%nat; split; [lia|]|split].
  - split; [discriminate|]. split; [lia|]. intros t [<-|[<-|[]]]; reflexivity.
  - exists 5%Z, (Track 5 1 (parked x)), (State x 0 0 0 4 2 1 true). split; [now left|]. split; [reflexivity|]. split; reflexivity.
  - intros id (t & s & [<-|[<-|[]]] & <- & _).
    + exists 0%nat. split; [reflexivity|]. intros [|[|j]]; cbn; [reflexivity|discriminate|destruct j; discriminate].
    + exists 1%nat. split; [reflexivity|]. intros [|[|j]]; cbn; [discriminate|reflexivity|destruct j; discriminate].
Qed.
Lemma other_x x name : exists r js tr, generated (fun _ _ => zero4) (fun _ _ _ => zero4) name (other_first x) = Ok r /\
  nth_error (joint_scenes r) 0 = Some js /\ nth_error js 1 = Some tr /\ sim_id tr = 6%Z /\ nth_error (sim_x tr) 0 = Some x.
Proof.
  destruct (proj2 (gen_exact (fun _ _ => zero4) (fun _ _ _ => zero4) name (other_first x)) (other_simulable x)) as [r Hr].
  destruct (gen_value _ _ _ _ _ Hr) as (_ & Hl & Hv).
  destruct (nth_error (joint_scenes r) 0) as [js|] eqn:Ej; [|apply nth_error_None in Ej; lia].
  destruct (Hv 0%nat js Ej) as (_ & Hv'). destruct (Hv' 1%nat (Track 6 1 (parked 0)) eq_refl) as (tr & l & w & h & Et & Ei & Ex & _).
  exists r, js, tr. split; [exact Hr|]. split; [exact Ej|]. split; [exact Et|]. split; [exact Ei|]. rewrite Ex. unfold walk.
  rewrite nth_error_map'. change (seq 0 91) with (0%nat :: seq 1 90). cbn [nth_error option_map]. f_equal.
  cbn [INR sum_upto qx zero4]. change (first_track center_x (other_first x) 0) with x. ring.
Qed.
Lemma private_refuted : exists sc sc' init noise name r r', sdc_track_index sc = 1%Z /\ sdc_track_index sc' = 1%Z /\ same_input 1 sc sc' /\
  generated init noise name sc = Ok r /\ generated init noise name sc' = Ok r' /\ r <> r'.
Proof.
  destruct (other_x 1 7) as (r & js & tr & H1 & H2 & H3 & _ & H4). destruct (other_x 2 7) as (r' & js' & tr' & H1' & H2' & H3' & _ & H4').
  exists (other_first 1), (other_first 2), (fun _ _ => zero4), (fun _ _ _ => zero4), 7%Z, r, r'.
  split; [reflexivity|]. split; [reflexivity|]. split; [|split; [exact H1|split; [exact H1'|]]].
  - split; [|reflexivity]. constructor; [|constructor; [|constructor]]; repeat split.
  - intros E. subst r'. assert (js = js') by congruence. subst js'. assert (tr = tr') by congruence. subst tr'.
    assert (1 = 2) by congruence. lra.
Qed.
(** The vehicle of the log is at 0 but is generated at 100. *)
Lemma around_refuted : exists sc adv s r js tr, nth_error (tracks sc) (Z.to_nat (sdc_track_index sc)) = Some adv /\ nth_error (states adv) 0 = Some s /\
  (forall s, In s (states adv) -> s_valid s = true) /\
  generated (fun _ _ => zero4) (fun _ _ _ => zero4) 7 sc = Ok r /\ nth_error (joint_scenes r) 0 = Some js /\ In tr js /\ sim_id tr = track_id adv /\
  nth_error (sim_x tr) 0 = Some (center_x s + 100).
Proof.
  destruct (other_x 100 7) as (r & js & tr & H1 & H2 & H3 & H4 & H5).
  exists (other_first 100), (Track 6 1 (parked 0)), (State 0 0 0 0 4 2 1 true), r, js, tr.
  split; [reflexivity|]. split; [reflexivity|]. split; [intros s Hs; apply repeat_spec in Hs; now subst s|].
  split; [exact H1|]. split; [exact H2|]. split; [now apply nth_error_In in H3|]. split; [exact H4|]. rewrite H5. cbn [center_x]. f_equal. ring.
Qed.
(** * Writing states and sizes into the proto *)
Lemma mapM_seq_nth {B} (f : nat -> result B) n out : mapM f (seq 0 n) = Ok out <-> length out = n /\ forall i, (i < n)%nat -> exists b, nth_error out i = Some b /\ f i = Ok b.
Proof.
  enough (G : forall n s out, mapM f (seq s n) = Ok out <-> length out = n /\ forall i, (i < n)%nat -> exists b, nth_error out i = Some b /\ f (s + i)%nat = Ok b) by apply (G n 0%nat).
  clear. induction n as [|n IH]; intros s out; cbn [seq mapM].
  - split; [intros H; apply Ok_inj in H; subst out; split; [reflexivity|intros i Hi; lia]|]. intros [H _]. now destruct out.
  - split.
    + intros H. apply bind_inv in H as (b & Hb & H). apply bind_inv in H as (l & Hl & H). apply Ok_inj in H. subst out. apply IH in Hl as [L N]. split; [cbn; now rewrite L|].
      intros [|i] Hi; [exists b; split; [reflexivity|now rewrite Nat.add_0_r]|]. destruct (N i ltac:(lia)) as (c & Hc & Fc). exists c. split; [exact Hc|]. now replace (s + S i)%nat with (S s + i)%nat by lia.
    + intros [L N]. destruct out as [|b l]; [discriminate|]. destruct (N 0%nat ltac:(lia)) as (b' & Hb & Fb). cbn in Hb. injection Hb as <-. rewrite Nat.add_0_r in Fb. rewrite Fb. cbn [bind].
      rewrite (proj2 (IH (S s) l)); [reflexivity|]. split; [now injection L|]. intros i Hi. destruct (N (S i) ltac:(lia)) as (c & Hc & Fc). exists c. split; [exact Hc|]. now replace (S s + i)%nat with (s + S i)%nat by lia.
Qed.
Lemma row_ok {A} (l : list A) i a : SimModel.row l i = Ok a <-> nth_error l i = Some a.
Proof. unfold SimModel.row. destruct (nth_error l i); split; congruence. Qed.
Lemma written_exact name states sizes ids r : gen_rollouts name states sizes ids = Ok r <->
  rollouts_id r = Some name /\ length (joint_scenes r) = length states /\
  forall i, (i < length states)%nat -> exists scene s z, nth_error (joint_scenes r) i = Some scene /\ nth_error states i = Some s /\ nth_error sizes i = Some z /\
    length scene = length ids /\
    forall j, (j < length ids)%nat -> exists p d id, nth_error s j = Some p /\ nth_error z j = Some d /\ nth_error ids j = Some id /\
      nth_error scene j = Some (SimTrajectory (map qx p) (map qy p) (map qz p) (map qh p) (map bl d) (map bw d) (map bh d) [] id 0).
Proof.
  assert (S : forall s z scene, gen_scene s z ids = Ok scene <-> length scene = length ids /\
    forall j, (j < length ids)%nat -> exists p d id, nth_error s j = Some p /\ nth_error z j = Some d /\ nth_error ids j = Some id /\
      nth_error scene j = Some (SimTrajectory (map qx p) (map qy p) (map qz p) (map qh p) (map bl d) (map bw d) (map bh d) [] id 0)).
  { intros s z scene. unfold gen_scene. rewrite mapM_seq_nth. split; intros [L N]; (split; [exact L|]); intros j Hj; destruct (N j Hj) as (b & H).
    - destruct H as (Hb & Fb). apply bind_inv in Fb as (p & Hp & Fb). apply bind_inv in Fb as (d & Hd & Fb). apply bind_inv in Fb as (id & Hid & Fb). apply Ok_inj in Fb.
      apply row_ok in Hp, Hd, Hid. exists p, d, id. rewrite Hb, <- Fb. auto.
    - destruct H as (d & id & Hp & Hd & Hid & Hb). eexists. split; [exact Hb|]. apply row_ok in Hp, Hd, Hid. rewrite Hp. cbn [bind]. rewrite Hd. cbn [bind]. rewrite Hid. reflexivity. }
  unfold gen_rollouts. split.
  - intros H. apply bind_inv in H as (scenes & Hs & H). apply Ok_inj in H. subst r. cbn [rollouts_id joint_scenes]. apply mapM_seq_nth in Hs as [L N]. split; [reflexivity|]. split; [exact L|].
    intros i Hi. destruct (N i Hi) as (scene & Hsc & F). apply bind_inv in F as (s & Hs & F). apply bind_inv in F as (z & Hz & F). apply row_ok in Hs, Hz. exists scene, s, z. rewrite Hsc. apply S in F. auto.
  - intros (E & L & N). destruct r as [n scenes]. cbn [rollouts_id joint_scenes] in *. subst n.
    rewrite (proj2 (mapM_seq_nth _ (length states) scenes)); [reflexivity|]. split; [exact L|]. intros i Hi. destruct (N i Hi) as (scene & s & z & H1 & H2 & H3 & H4). exists scene. split; [exact H1|].
    apply row_ok in H2, H3. rewrite H2. cbn [bind]. rewrite H3. cbn [bind]. now apply S.
Qed.
