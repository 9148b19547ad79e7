(** The features of a scene: the rows of the interactions, the road and the lights, and which scenes have features. *)
From Coq Require Import Reals Permutation Lra.
From Verif Require Import Base ResultLib ListLib MonadLib SimModel SimSpec SimProofs GeomModel GeomSceneSpec TtcModel RoadModel RoadSpec.
From Verif Require GeomNearestProofs TtcProofs RoadProofs RoadBoxProofs.
From Verif Require Import MfeatModel MfeatSpec MfeatCore MfeatProofs MfeatRows MfeatInter.
Open Scope list_scope.
Open Scope R_scope.

Lemma evaluated_nonempty n (sc : scenario R) js (os : list (obj R)) : scorable_for n sc js ->
  (forall id, In id (map o_id os) <-> evaluated_agent sc id) -> os <> [].
Proof. intros H Hin ->. destruct (av_required n sc js H) as (id & He). apply Hin in He. destruct He. Qed.

Lemma colliding_iff d : is_colliding d = true <-> d < 0.
Proof. unfold is_colliding, rltb, COLLISION_DISTANCE_THRESHOLD. destruct (Rlt_dec d 0); split; congruence. Qed.
Lemma offroad_iff d : is_offroad d = true <-> 0 < d.
Proof. unfold is_offroad, rltb. destruct (Rlt_dec 0 d); split; congruence. Qed.

Theorem nearest_listed {S} (X : extractors S) (sc : full_scenario S) js (b : bool) f : scorable (agents sc) js -> listing X ->
  compute_metric_features X sc js SIM_AGENTS b = Ok f ->
  one_sample (f_distance f) (length (f_object_id f)) /\ one_sample (f_collision f) (length (f_object_id f)) /\
  forall k id, nth_error (f_object_id f) k = Some id -> exists distances colliding,
    agent_entry (f_distance f) k distances /\ agent_entry (f_collision f) k colliding /\
    length distances = 80%nat /\ length colliding = 80%nat /\
    forall t, (t < 80)%nat -> exists d c, nth_error distances t = Some d /\ nth_error colliding t = Some c /\
      nearest_distance (agents sc) js b id (11 + t) d /\ (c = true <-> d < 0) /\
      (agents_sized (agents sc) js b ->
       (c = true <-> exists o tr e id' o' tr' e', sim_agent (agents sc) js b id o tr /\ object_cell o (11 + t) (e, true) /\
          id' <> id /\ sim_agent (agents sc) js b id' o' tr' /\ object_cell o' (11 + t) (e', true) /\ overlap (7 / 10) e e')).
Proof.
  intros H HX E. destruct (features_shape 91 X sc js b H HX) as (ids & os & rest & trs & Ec & Hinc & Hin & Hid & F & G & P).
  rewrite E in Ec. symmetry in Ec. apply assemble_inv in Ec. destruct Ec as (kin & ds & ttc & road & red & ade & E1 & E2 & E3 & E4 & E5 & (_ & E6) & ->).
  cbn [f_object_id f_distance f_collision]. subst ids. pose proof (evaluated_nonempty _ _ _ _ H Hin) as Hne.
  destruct (nearest_rows sc js b H os rest Hne G P ds E2) as (L & Hrows).
  split; [|split].
  - eexists. split; [reflexivity|]. now rewrite after_length, map_length.
  - eexists. split; [reflexivity|]. now rewrite map_length, after_length, map_length.
  - intros k id Hk. rewrite nth_error_map' in Hk. destruct (nth_error os k) as [o|] eqn:Eo; [|discriminate]. cbn [option_map] in Hk.
    assert (o_id o = id) as Eid by congruence. destruct (Hrows k o 0%nat Eo ltac:(lia)) as (row & d0 & Er & Lr & _).
    destruct (Forall2_nth _ _ _ F _ _ Eo) as (tr & _ & Hag).
    exists (skipn 11 row), (map is_colliding (skipn 11 row)). split; [now apply after_entry|]. split.
    { eexists. split; [reflexivity|]. now rewrite nth_error_map', after_nth, Er. }
    split; [rewrite skipn_length; lia|]. split; [rewrite map_length, skipn_length; lia|].
    intros t Ht. destruct (Hrows k o (11 + t)%nat Eo ltac:(lia)) as (row' & d & Er' & _ & Ed & Hd). assert (row' = row) as -> by congruence.
    exists d, (is_colliding d). rewrite nth_error_map', nth_error_skipn', Ed. split; [reflexivity|]. split; [reflexivity|].
    split; [now rewrite <- Eid|]. split; [apply colliding_iff|]. intros Hsz.
    destruct (collision_rows sc js b H os rest Hne G P ds Hsz E2 k o (11 + t)%nat Eo ltac:(lia)) as (row' & d' & Er2 & Ed' & Hcol).
    assert (row' = row) as -> by congruence. assert (d' = d) as -> by congruence. rewrite Hcol. split.
    + intros (c & id' & o' & tr' & c' & V & D & Hag' & V' & O). exists o, tr, c, id', o', tr', c'. rewrite Eid in D, Hag. auto 8.
    + intros (o1 & tr1 & c & id' & o' & tr' & c' & Hag1 & V & D & Hag' & V' & O). rewrite Eid in Hag.
      destruct (agent_unique _ _ _ _ _ _ _ _ _ H Hag Hag1) as (<- & _). exists c, id', o', tr', c'. rewrite Eid. auto 6.
Qed.

Theorem road_listed {S} (X : extractors S) (sc : full_scenario S) js (b : bool) f : scorable (agents sc) js -> listing X ->
  compute_metric_features X sc js SIM_AGENTS b = Ok f ->
  one_sample (f_road f) (length (f_object_id f)) /\ one_sample (f_offroad f) (length (f_object_id f)) /\
  forall k id o tr, nth_error (f_object_id f) k = Some id -> sim_agent (agents sc) js b id o tr -> exists distances offroad,
    agent_entry (f_road f) k distances /\ agent_entry (f_offroad f) k offroad /\
    length distances = 80%nat /\ length offroad = 80%nat /\
    forall t e v, object_box o (11 + t) e v -> exists d c, nth_error distances t = Some d /\ nth_error offroad t = Some c /\
      (c = true <-> 0 < d) /\ (v = false -> d = -10000000000) /\
      (v = true -> (exists q, is_bottom_corner e q /\ point_distance (road_edges (map_features sc)) q d) /\
         forall q d', is_bottom_corner e q -> point_distance (road_edges (map_features sc)) q d' -> d' <= d).
Proof.
  intros H HX E. destruct (features_shape 91 X sc js b H HX) as (ids & os & rest & trs & Ec & Hinc & Hin & Hid & F & G & P).
  rewrite E in Ec. symmetry in Ec. apply assemble_inv in Ec. destruct Ec as (kin & ds & ttc & road & red & ade & E1 & E2 & E3 & E4 & E5 & (_ & E6) & ->).
  cbn [f_object_id f_road f_offroad]. subst ids. pose proof (evaluated_nonempty _ _ _ _ H Hin) as Hne.
  rewrite road_edges_eq in E4.
  destruct (road_rows_of sc js b H os rest G _ road E4) as (_ & L & Hrows).
  split; [|split].
  - eexists. split; [reflexivity|]. now rewrite after_length, map_length.
  - eexists. split; [reflexivity|]. now rewrite map_length, after_length, map_length.
  - intros k id o tr Hk Hag. destruct (agent_number _ _ _ _ _ _ _ _ _ _ H F Hk Hag) as (Eo & _).
    destruct (Hrows k o Eo) as (row & Er & Lr & Hrow).
    exists (skipn 11 row), (map is_offroad (skipn 11 row)). split; [now apply after_entry|]. split.
    { eexists. split; [reflexivity|]. now rewrite nth_error_map', after_nth, Er. }
    split; [rewrite skipn_length; lia|]. split; [rewrite map_length, skipn_length; lia|].
    intros t e v Hb. destruct (Hrow _ _ _ Hb) as (d & Ed & Hv & Hd). exists d, (is_offroad d).
    rewrite nth_error_map', nth_error_skipn', Ed. split; [reflexivity|]. split; [reflexivity|]. split; [apply offroad_iff|]. split; [exact Hv|exact Hd].
Qed.

Theorem table_features {S} (X : extractors S) (sc : full_scenario S) js (b : bool) f : scorable (agents sc) js -> listing X ->
  compute_metric_features X sc js SIM_AGENTS b = Ok f ->
  exists table cells n ttc red,
    evaluated_first (agents sc) js b (f_object_id f) table /\ (length (f_object_id f) + n = length js)%nat /\
    length cells = length js /\
    (forall k id o tr, nth_error (tr_id table) k = Some id -> sim_agent (agents sc) js b id o tr ->
       exists row, nth_error cells k = Some row /\ length row = 91%nat /\ forall t c, nth_error row t = Some c <-> object_cell o t c) /\
    compute_time_to_collision (1 / 10) 91 cells (first_mask (length (f_object_id f)) n) = Ok ttc /\
    length ttc = length (f_object_id f) /\ (forall r, In r ttc -> length r = 91%nat) /\ f_ttc f = [map (skipn 11) ttc] /\
    f_red f = [map (skipn 11) red] /\
    (surface_streets (map_features sc) <> [] -> dynamic_map_states sc <> [] ->
       red_light X table (first_mask (length (f_object_id f)) n) (map snd (surface_streets (map_features sc)))
         (map fst (surface_streets (map_features sc))) (dynamic_map_states sc) = Ok red) /\
    (surface_streets (map_features sc) = [] \/ dynamic_map_states sc = [] ->
       f_red f = [repeat (repeat false 80) (length (f_object_id f))]).
Proof.
  intros H HX E. destruct (features_shape 91 X sc js b H HX) as (ids & os & rest & trs & Ec & Hinc & Hin & Hid & F & G & P).
  rewrite E in Ec. symmetry in Ec. apply assemble_inv in Ec. destruct Ec as (kin & ds & ttc & road & red & ade & E1 & E2 & E3 & E4 & E5 & (_ & E6) & ->).
  cbn [f_object_id f_ttc f_red]. subst ids. pose proof (evaluated_nonempty _ _ _ _ H Hin) as Hne.
  assert (length os + length rest = length js)%nat as Lall.
  { rewrite <- app_length, <- (map_length o_id (os ++ rest)), (Permutation_length P), map_length. reflexivity. }
  destruct (ttc_total sc js b H os rest Hne G P) as (ttc' & E3' & L3 & R3). assert (ttc' = ttc) as -> by congruence.
  exists (of_objs (os ++ rest)), (map obj_cells (os ++ rest)), (length rest), ttc, red. rewrite map_length.
  split; [now apply first_table|]. split; [exact Lall|]. split; [rewrite map_length, app_length; exact Lall|]. split.
  { intros k id o tr Hk Hag. cbn [of_objs tr_id] in Hk. rewrite nth_error_map' in Hk. destruct (nth_error (os ++ rest) k) as [o'|] eqn:Eo; [|discriminate].
    cbn [option_map] in Hk. assert (o_id o' = id) as Eid by congruence. destruct (G o') as (tr' & Hag'); [eapply nth_error_In; eassumption|].
    rewrite Eid in Hag'. destruct (agent_unique _ _ _ _ _ _ _ _ _ H Hag Hag') as (<- & _).
    exists (obj_cells o). split; [now rewrite nth_error_map', Eo|]. split; [apply (obj_cells_length _ _ _ _ _ _ H Hag)|]. intros t c. apply obj_cell_iff. }
  split; [unfold ttc_feature in E3; rewrite (steps_91 sc js b H os rest Hne G P), cells_of_objs in E3; exact E3|].
  split; [exact L3|]. split; [exact R3|]. split; [reflexivity|]. split; [reflexivity|].
  unfold red_feature in E5. rewrite street_lanes_eq in E5. cbn [fst snd] in E5. split.
  - intros H1 H2. destruct (surface_streets (map_features sc)) as [|p l]; [contradiction|]. cbn [map] in *.
    destruct (dynamic_map_states sc); [contradiction|]. exact E5.
  - intros H1. rewrite (steps_91_valid sc js b H os rest Hne G P) in E5.
    assert (red = repeat (repeat false 91) (length os)) as ->.
    { destruct (surface_streets (map_features sc)) as [|p l]; cbn [map] in E5; [congruence|]. destruct (dynamic_map_states sc); [congruence|].
      destruct H1; discriminate. }
    unfold after_current. f_equal. clear. induction (length os) as [|m IH]; [reflexivity|]. cbn [repeat map]. f_equal. exact IH.
Qed.

(** * Which scenes have features *)
Lemma joint_scene_inv js (sc : scenario R) b t : joint_scene_to_trajectories js sc b = Ok t ->
  tr_id t = map sim_id js /\ js <> [] /\ (exists n, uniform sc n) /\ (forall id, In id (map sim_id js) -> occurs_once (map track_id (tracks sc)) id).
Proof.
  unfold joint_scene_to_trajectories. intros H. db H full E0. destruct (from_scenario_inv sc full E0) as (n & Hu).
  rewrite (from_scenario_ok sc n Hu) in E0. apply Ok_inj in E0. subst full.
  db H x E1. db H y E2. db H z E3. db H h E4. db H ids E5. db H hist E6. db H v E7. db H l1 E8. db H l2 E9. db H l3 E10.
  db H c1 E11. db H c2 E12. db H c3 E13. db H c4 E14. db H c5 E15. db H c6 E16. db H c7 E17. db H c8 E18. apply Ok_inj in H. subst t. cbn [tr_id].
  assert (ids = map sim_id js /\ js <> []) as (-> & Hne).
  { destruct js as [|s js]; cbn [map id_tensor] in E5; [discriminate|]. split; [cbn [map]; congruence|discriminate]. }
  split; [reflexivity|]. split; [exact Hne|]. split; [eauto|].
  rewrite slice_time_of in E6. destruct (gather_exact (of_objs (map (slice_obj 0 (Some (current_time_index (submission_config SIM_AGENTS) + 1)%nat)) (map track_object (tracks sc)))) _ (map sim_id js) (of_objs_n _)) as ((A & _) & _).
  intros id Hid. specialize (A (ex_intro _ _ E6) id Hid). cbn [of_objs tr_id] in A. rewrite !map_map in A. exact A.
Qed.

Lemma nodup_of_once (l : list Z) : (forall id, In id l -> occurs_once l id) -> NoDup l.
Proof.
  intros H. apply NoDup_nth_error. intros i j Hi Hij. destruct (nth_error l i) as [a|] eqn:E; [|apply nth_error_Some in Hi; congruence].
  destruct (H a (nth_error_In _ _ E)) as (k & _ & Hk). rewrite (Hk i E). symmetry. now apply Hk.
Qed.

Theorem refused {S} (X : extractors S) (sc : full_scenario S) js (b : bool) f : listing X -> acceptable js (agents sc) SIM_AGENTS ->
  compute_metric_features X sc js SIM_AGENTS b = Ok f ->
  scorable (agents sc) js /\ (exists p, In (RoadEdge p) (map_features sc) /\ (2 <= length p)%nat) /\
  forall id o tr, evaluated_agent (agents sc) id -> sim_agent (agents sc) js b id o tr ->
    exists kin, kinematic X (o_x o) (o_y o) (o_z o) (o_heading o) = Ok kin.
Proof.
  intros HX Ha E. assert (exists n, scorable_for n (agents sc) js) as (n & H).
  { unfold compute_metric_features in E. pose proof E as H. db H sim E0. db H logged E1. db H logged' E2. db H ev E3. db H ev' E4. db H evd E5. db H sim' E6. clear H.
    destruct (joint_scene_inv _ _ _ _ E0) as (Hids & Hne & (n & Hu) & Honce). exists n.
    assert (exists m, n_objects sim m) as (m & Hn).
    { destruct js as [|s js']; [contradiction|]. clear - E0 Hu Ha Honce Hids Hne.
      assert (reaches_current (agents sc)) as Hr.
      { assert (required (agents sc) (sim_id s)) as (t & st & Ht & _ & Hst & _) by (apply Ha; now left).
        intros t' Ht'. destruct Hu as (_ & _ & Hu). rewrite (Hu t' Ht'), <- (Hu t Ht). apply nth_error_Some. congruence. }
      destruct (joint_scene_ok _ _ n b Hu Hr Ha Hne) as (t & Et & Hn & _); [intros id Hid; apply Honce; now apply Ha|]. exists (length (s :: js')). congruence. }
    destruct (gather_exact sim m (ev' ++ order X (filter (fun i => negb (zmem i ev')) (nodup Z.eq_dec (tr_id sim)))) Hn) as ((A & _) & _).
    specialize (A (ex_intro _ _ E6)). rewrite Hids in A.
    assert (NoDup (map sim_id js)) as N.
    { apply nodup_of_once. intros id Hid. apply A. rewrite in_app_iff. destruct (zmem id ev') eqn:Z; [left; now apply zmem_in|right].
      apply (Permutation_in _ (Permutation_sym (HX _))). apply filter_In. split; [now apply nodup_In|now rewrite Z]. }
    assert (10 < n)%nat as Ln.
    { destruct js as [|s js']; [contradiction|]. assert (required (agents sc) (sim_id s)) as (t & st & Ht & _ & Hst & _) by (apply Ha; now left).
      destruct Hu as (_ & _ & Hu). rewrite <- (Hu t Ht). apply nth_error_Some. congruence. }
    split; [auto|]. split; [exact Ha|]. split; [exact N|]. split; [intros id Hid; apply Honce; now apply Ha|].
    split; [exact (proj1 (eval_ids_total (agents sc)) (ex_intro _ _ E3))|]. intros id He. apply Ha.
    destruct (eval_ids_exact _ _ E3) as (_ & Q). apply Q in He.
    assert (ev' = ev) as -> by (destruct ev; cbn [id_tensor] in E4; [discriminate|congruence]).
    destruct (A id) as (i & Hi & _); [apply in_app_iff; now left|]. eapply nth_error_In; eassumption. }
  destruct (features_shape n X sc js b H HX) as (ids & os & rest & trs & Ec & Hinc & Hin & Hid & F & G & P).
  rewrite E in Ec. symmetry in Ec. apply assemble_inv in Ec. destruct Ec as (kin & ds & ttc & road & red & ade & E1 & E2 & E3 & E4 & E5 & (E7 & E6) & _).
  subst ids. pose proof (evaluated_nonempty _ _ _ _ H Hin) as Hne.
  assert (n = 91%nat) as ->.
  { inversion F as [Q1|o tr os' trs' Hag F' Q1 Q2]; [symmetry in Q1; contradiction|]. subst os trs. cbn [map last_dim track_object o_x] in E7.
    destruct (agent_lengths _ _ _ _ _ _ _ H Hag) as (L1 & _ & _ & _ & _ & _ & _ & _ & L2). rewrite map_length in E7. congruence. }
  split; [exact H|]. split.
  - rewrite road_edges_eq in E4. destruct (road_rows_of sc js b H os rest G _ road E4) as ((p & Hp & L) & _).
    exists p. split; [|exact L]. unfold road_edges in Hp. apply in_flat_map in Hp. destruct Hp as ([q| |] & Hq & Q); cbn [In] in Q; try tauto.
    destruct Q as [->|[]]. exact Hq.
  - intros id o tr He Hag. apply Hin in He. apply In_nth_error in He. destruct He as (k & Hk).
    destruct (agent_number _ _ _ _ _ _ _ _ _ _ H F Hk Hag) as (Eo & _).
    apply mapM_inv in E1. destruct (Forall2_nth _ _ _ E1 _ _ Eo) as (kk & _ & Ek). eauto.
Qed.

Theorem accepted {S} (X : extractors S) (sc : full_scenario S) js (b : bool) : listing X -> scorable (agents sc) js ->
  (exists p, In (RoadEdge p) (map_features sc) /\ (2 <= length p)%nat) ->
  (forall id o tr, evaluated_agent (agents sc) id -> sim_agent (agents sc) js b id o tr ->
     exists kin, kinematic X (o_x o) (o_y o) (o_z o) (o_heading o) = Ok kin) ->
  (surface_streets (map_features sc) = [] \/ dynamic_map_states sc = [] \/
   forall ids n table, evaluated_first (agents sc) js b ids table -> exists red,
     red_light X table (first_mask (length ids) n) (map snd (surface_streets (map_features sc)))
         (map fst (surface_streets (map_features sc))) (dynamic_map_states sc) = Ok red) ->
  exists f, compute_metric_features X sc js SIM_AGENTS b = Ok f.
Proof.
  intros HX H (p & Hp & Lp) Hk Hred.
  destruct (features_shape 91 X sc js b H HX) as (ids & os & rest & trs & Ec & Hinc & Hin & Hid & F & G & P).
  rewrite Ec. subst ids. pose proof (evaluated_nonempty _ _ _ _ H Hin) as Hne. unfold assemble.
  assert (exists kin, mapM (fun o => kinematic X (o_x o) (o_y o) (o_z o) (o_heading o)) os = Ok kin) as (kin & E1).
  { assert (forall o, In o os -> exists k, kinematic X (o_x o) (o_y o) (o_z o) (o_heading o) = Ok k) as Q.
    { intros o Ho. destruct (G o) as (tr & Hag); [apply in_app_iff; now left|]. apply (Hk (o_id o) o tr); [|exact Hag]. apply Hin. now apply in_map. }
    clear - Q. induction os as [|o l IH]; [eexists; reflexivity|]. cbn [mapM]. destruct (Q o (or_introl eq_refl)) as (k & ->). cbn [bind].
    destruct IH as (ks & ->); [intros o' Ho'; apply Q; now right|]. eexists. reflexivity. }
  rewrite E1. cbn [bind]. destruct (nearest_total sc js b H os rest Hne G P) as (ds & ->). cbn [bind].
  destruct (ttc_total sc js b H os rest Hne G P) as (ttc & -> & _). cbn [bind].
  assert (exists road, road_feature (of_objs (os ++ rest)) (first_mask (length os) (length rest)) (road_edges_of (map_features sc)) = Ok road) as (road & ->).
  { unfold road_feature. rewrite boxes_of_objs, road_edges_eq.
    destruct (RoadBoxProofs.road_total (map obj_boxes (os ++ rest)) (first_mask (length os) (length rest)) (road_edges (map_features sc))) as (out & E' & _).
    - apply mask_objs.
    - exists p. split; [|exact Lp]. unfold road_edges. apply in_flat_map. exists (RoadEdge p). split; [exact Hp|now left].
    - eauto. }
  cbn [bind].
  assert (exists red, red_feature X sc (length os) (of_objs (os ++ rest)) (first_mask (length os) (length rest)) = Ok red) as (red & ->).
  { unfold red_feature. rewrite street_lanes_eq. cbn [fst snd]. destruct Hred as [->|[->|Hred]].
    - cbn [map]. eauto.
    - destruct (map snd (surface_streets (map_features sc))); eauto.
    - destruct (Hred (map o_id os) (length rest) (of_objs (os ++ rest))) as (red & Er); [now apply first_table|]. rewrite map_length in Er. rewrite Er.
      destruct (map snd (surface_streets (map_features sc))), (dynamic_map_states sc); eauto. }
  cbn [bind].
  assert (last_dim (map o_x os) = last_dim (map o_x (map track_object trs))) as ->.
  { inversion F as [Q1|o tr os' trs' Hag F' Q1 Q2]; [symmetry in Q1; contradiction|]. subst os trs. cbn [map last_dim track_object o_x].
    destruct (agent_lengths _ _ _ _ _ _ _ H Hag) as (L1 & _ & _ & _ & _ & _ & _ & _ & L2). rewrite map_length. congruence. }
  rewrite Nat.eqb_refl. cbn [negb bind]. eauto.
Qed.
