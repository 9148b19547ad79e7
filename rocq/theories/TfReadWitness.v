(** When the self-driving car has a row, and witnesses. *)
From Coq Require Import String Lia Permutation Sorted.
From Verif Require Import Base ResultLib ListLib ScenarioModel ScenarioSpec ScenarioAgentProofs ScenarioProofs ScenarioOutcomeProofs
  ScenarioExamples TfReadModel TfReadSpec TfReadProofs.
Open Scope list_scope.
Open Scope Z_scope.

Lemma kept_in sc rows : sdc_kept sc rows = true <-> In (Some (sdc sc)) rows.
Proof.
  unfold sdc_kept. rewrite existsb_exists. split.
  - intros ([i|] & I & H); [|discriminate]. apply Nat.eqb_eq in H. subst i. exact I.
  - intros I. exists (Some (sdc sc)). split; [exact I|]. apply Nat.eqb_refl.
Qed.

Lemma rows_in pf sc cfg m c rows i : rows_ok pf sc cfg m c rows -> In (Some i) rows <-> In i m \/ In i c.
Proof.
  intros RO. rewrite (ro_rows _ _ _ _ _ _ RO), !in_app_iff, !in_map_iff. split.
  - intros [(j & H & I)|[(j & H & I)|I]]; [injection H as ->; left; exact I|injection H as ->; right; exact I|].
    apply repeat_spec in I. discriminate.
  - intros [I|I]; [left|right; left]; exists i; auto.
Qed.

(** Room for every track. *)
Theorem kept_room pf sc cfg m c rows : well_formed sc -> rows_ok pf sc cfg m c rows ->
  count (tracks sc) <= max_num_agents cfg -> sdc_kept sc rows = true.
Proof.
  intros W RO LE. apply kept_in. destruct (rows_cover pf sc cfg m c rows RO) as (_ & _ & H & _). apply (H LE).
  destruct W as (_ & W & _). unfold sdc, count in *. lia.
Qed.

(** The car is among the modeled agents. *)
Theorem kept_modeled pf sc cfg m c rows : rows_ok pf sc cfg m c rows -> In (sdc sc) (capped cfg (predictable sc cfg)) -> sdc_kept sc rows = true.
Proof.
  intros RO I. apply kept_in. apply (rows_in pf sc cfg m c rows _ RO). left.
  apply (Permutation_in _ (Permutation_sym (ro_modeled _ _ _ _ _ _ RO))). exact I.
Qed.

(** The car comes before every other track and there is a place. *)
Theorem kept_first pf sc cfg m c rows : well_formed sc -> rows_ok pf sc cfg m c rows ->
  count (capped cfg (predictable sc cfg)) < max_num_agents cfg ->
  (forall i, (i < List.length (tracks sc))%nat -> i <> sdc sc -> priority pf sc cfg (sdc sc) i) -> sdc_kept sc rows = true.
Proof.
  intros W RO LT PR. apply kept_in. apply (rows_in pf sc cfg m c rows _ RO).
  destruct (in_dec Nat.eq_dec (sdc sc) m) as [I|N]; [left; exact I|right].
  assert (LM := Permutation_length (ro_modeled _ _ _ _ _ _ RO)).
  destruct (ro_context _ _ _ _ _ _ RO) as (ord & IN & ND & SS & ->).
  assert (I : In (sdc sc) ord) by (apply IN; split; [|exact N]; destruct W as (_ & W & _); unfold sdc, count in *; lia).
  destruct ord as [|x ord]; [destruct I|].
  assert (x = sdc sc) as ->.
  { destruct (Nat.eq_dec x (sdc sc)) as [E|NE]; [exact E|exfalso]. destruct I as [E|I]; [congruence|].
    inversion SS as [|? ? _ F]; subst. rewrite Forall_forall in F. apply (F _ I). apply PR; [|exact NE]. apply IN. left. reflexivity. }
  destruct (Z.to_nat (max_num_agents cfg - count m)) eqn:E; [unfold count in *; lia|]. left. reflexivity.
Qed.

(** Too many tracks, and every other one comes before the car or is modeled. *)
Theorem dropped pf sc cfg m c rows : well_formed sc -> rows_ok pf sc cfg m c rows -> max_num_agents cfg < count (tracks sc) ->
  ~ In (sdc sc) (capped cfg (predictable sc cfg)) ->
  (forall i, (i < List.length (tracks sc))%nat -> i <> sdc sc -> In i (capped cfg (predictable sc cfg)) \/ priority pf sc cfg i (sdc sc)) ->
  sdc_kept sc rows = false.
Proof.
  intros W RO LT NM PR. destruct (sdc_kept sc rows) eqn:K; [exfalso|reflexivity].
  apply kept_in in K. apply (rows_in pf sc cfg m c rows _ RO) in K.
  assert (PM := ro_modeled _ _ _ _ _ _ RO).
  destruct (ro_context _ _ _ _ _ _ RO) as (ord & IN & ND & SS & EC).
  destruct K as [K|K]; [apply NM; apply (Permutation_in _ PM); exact K|].
  assert (L : (List.length (tracks sc) <= List.length m + List.length ord)%nat).
  { rewrite <- app_length. rewrite <- (seq_length (List.length (tracks sc)) 0) at 1. apply NoDup_incl_length; [apply seq_NoDup|].
    intros x I. apply in_seq in I. apply in_app_iff. destruct (in_dec Nat.eq_dec x m) as [J|J]; [left; exact J|right; apply IN; split; [lia|exact J]]. }
  set (n := Z.to_nat (max_num_agents cfg - count m)) in *. rewrite EC in K.
  assert (LN : (n < List.length ord)%nat).
  { destruct (Nat.eq_dec n 0) as [E|E]; [rewrite E in K; destruct K|]. subst n. unfold count in *. lia. }
  assert (SK : skipn n ord <> []) by (intros E; apply (f_equal (@List.length nat)) in E; rewrite skipn_length in E; cbn in E; lia).
  destruct (skipn n ord) as [|x rest] eqn:E; [congruence|].
  rewrite <- (firstn_skipn n ord) in ND, SS. rewrite E in ND, SS.
  assert (IX : In x ord) by (rewrite <- (firstn_skipn n ord), E, in_app_iff; right; left; reflexivity).
  assert (NE : x <> sdc sc).
  { intros ->. clear - ND K. induction (firstn n ord) as [|y l IH]; [destruct K|]. cbn [app] in ND. inversion ND as [|? ? N2 N3]; subst.
    destruct K as [->|K]; [apply N2; rewrite in_app_iff; right; left; reflexivity|]. apply IH; assumption. }
  apply IN in IX as IX2. destruct IX2 as [LX NX].
  destruct (PR x LX NE) as [P|P]; [apply NX; apply (Permutation_in _ (Permutation_sym PM)); exact P|].
  clear - SS K P. induction (firstn n ord) as [|y l IH]; [destruct K|]. cbn [app] in SS. inversion SS as [|? ? SS2 F]; subst.
  destruct K as [->|K]; [|apply IH; assumption]. rewrite Forall_forall in F. apply (F x); [rewrite in_app_iff; right; left; reflexivity|exact P].
Qed.

(** ** Witnesses *)
Definition long (x : Z) (v : bool) : list (fl * bool) := repeat (Fin (inject_Z x), v) 11.
Definition scene (ts : list track) (predict : Z) : scenario :=
  {| scenario_id := "abc"; timestamps_seconds := repeat 0%Q 11; tracks := ts; dynamic_map_states := []; map_features := [];
     sdc_track_index := 0; interest_ids := []; tracks_to_predict := [{| track_index := predict; difficulty := 2 |}] |}.
(** A car driving alone. *)
Definition alone : scenario := scene [mk_track 7 (long 3 true)] 0.
(** A car not seen now among 128 that are. *)
Definition crowded : scenario := scene (mk_track 0 (long 0 false) :: map (fun i => mk_track (Z.of_nat i) (long 5 true)) (seq 1 128)) 1.
(** The default configuration with the number of samples the reader is written for. *)
Definition task_config : config :=
  {| max_num_agents := 128; max_num_modeled_agents := 8; num_past_steps := 11; num_future_steps := 80; max_roadgraph_samples := 20000;
     source_polyline_spacing := 1 # 2; polyline_sample_spacing := 1; polygon_sample_spacing := 1;
     max_traffic_light_control_points_per_step := 16 |}.

Lemma task_config_sizes : task_sizes task_config.
Proof. repeat split. Qed.

Lemma crowded_tracks tr : In tr (tracks crowded) -> exists i x v, tr = mk_track i (long x v).
Proof.
  cbn [crowded scene tracks]. intros [<-|I]; [do 3 eexists; reflexivity|]. apply in_map_iff in I. destruct I as (i & <- & _). do 3 eexists. reflexivity.
Qed.

Lemma long_state x v t s : nth_error (map (fun p => at_x (fst p) (snd p)) (long x v)) t = Some s -> s = at_x (Fin (inject_Z x)) v.
Proof.
  intros H. apply nth_error_In in H. apply in_map_iff in H. destruct H as (p & <- & H). apply repeat_spec in H. subst p. reflexivity.
Qed.

Lemma convert ts predict cfg : (exists x tr, ts = tr :: x) -> (forall tr, In tr ts -> exists i x v, tr = mk_track i (long x v)) ->
  (0 <= predict < count ts) -> num_past_steps cfg = 11 -> num_future_steps cfg = 80 -> max_num_modeled_agents cfg = 8 -> max_num_agents cfg = 128 ->
  (0 < source_polyline_spacing cfg)%Q ->
  capped cfg (predictable (scene ts predict) cfg) <> [] ->
  exists l, converted ref_pf cfg (scene ts predict) l.
Proof.
  intros (x & tr0 & EX) TS PR P F MM MA SP CP.
  assert (W : well_formed (scene ts predict)).
  { split; [discriminate|]. split; [cbn [scene sdc_track_index tracks]; rewrite EX; unfold count; cbn [List.length]; lia|].
    intros tr I. destruct (TS tr I) as (i & y & v & ->). reflexivity. }
  assert (RP : representable (scene ts predict) cfg) by (split; [lia|cbv; reflexivity]).
  assert (FN : finite_now (scene ts predict) cfg).
  { intros i s [H|H].
    - unfold valid_state in H. cbn [scene tracks] in H. destruct (nth_error ts i) as [tr|] eqn:E; [|discriminate].
      apply nth_error_In in E. destruct (TS tr E) as (j & y & v & ->). destruct (nth_error _ (current_step cfg)) as [s'|] eqn:E2; [|discriminate].
      cbn [mk_track states] in E2. apply long_state in E2. subst s'. destruct (valid _); [injection H as <-|discriminate]. split; discriminate.
    - unfold sdc_state, the_track in H. cbn [scene tracks] in H. destruct (nth_error ts _) as [tr|] eqn:E; [|discriminate].
      apply nth_error_In in E. destruct (TS tr E) as (j & y & v & ->). cbn [mk_track states] in H. apply long_state in H. subst s. split; discriminate. }
  assert (C : convertible (scene ts predict) cfg).
  { split; [rewrite P; cbv; split; congruence|lia|exact SP| |intros m []].
    intros r [<-|[]]. exact PR. }
  destruct (outcome ref_pf (scene ts predict) cfg ref_ok W RP FN C) as [_ O]. destruct (O CP) as (l & E).
  exists l. split; [exact ref_ok|]. split; [exact RP|]. split; [exact SP|]. split; [lia|]. split; [exact FN|exact E].
Qed.

Lemma alone_capped cfg : num_past_steps cfg = 11 -> max_num_modeled_agents cfg = 8 -> capped cfg (predictable alone cfg) = [0%nat].
Proof. intros P M. unfold capped, predictable, valid_now, current_step. rewrite P, M. reflexivity. Qed.
Lemma crowded_capped : capped task_config (predictable crowded task_config) = [1%nat].
Proof. reflexivity. Qed.

Lemma alone_converts cfg : num_past_steps cfg = 11 -> num_future_steps cfg = 80 -> max_num_modeled_agents cfg = 8 -> max_num_agents cfg = 128 ->
  (0 < source_polyline_spacing cfg)%Q -> exists l, converted ref_pf cfg alone l.
Proof.
  intros P F M A S. apply convert; try assumption.
  - do 2 eexists. reflexivity.
  - intros tr [<-|[]]. do 3 eexists. reflexivity.
  - cbv. split; congruence.
  - change (capped cfg (predictable alone cfg) <> []). rewrite (alone_capped cfg P M). discriminate.
Qed.
Lemma crowded_converts : exists l, converted ref_pf task_config crowded l.
Proof.
  apply convert; try reflexivity.
  - do 2 eexists. reflexivity.
  - apply crowded_tracks.
  - cbv. split; congruence.
  - change (capped task_config (predictable crowded task_config) <> []). rewrite crowded_capped. discriminate.
Qed.

(** What the converter writes with its own defaults the reader refuses. *)
Theorem default_refuted : (exists pf sc l, converted pf default_config sc l)
  /\ (forall pf sc l, converted pf default_config sc l -> parse_tf_example l = Err ValueError).
Proof.
  split.
  - exists ref_pf, alone. apply alone_converts; reflexivity.
  - intros pf sc l CV. apply (unreadable pf default_config sc l CV). intros (_ & _ & _ & H & _). discriminate.
Qed.

Lemma crowded_dropped m c rows : rows_ok ref_pf crowded task_config m c rows -> sdc_kept crowded rows = false.
Proof.
  intros RO. apply (dropped ref_pf crowded task_config m c rows); try assumption.
  - split; [discriminate|]. split; [cbv; split; congruence|]. intros tr I. destruct (crowded_tracks tr I) as (i & x & v & ->). reflexivity.
  - reflexivity.
  - rewrite crowded_capped. intros [H|[]]. discriminate.
  - intros i L NE. right. change (sdc crowded) with 0%nat in *. destruct i as [|i]; [congruence|].
    unfold priority. change (valid_state crowded 0 (current_step task_config)) with (@None object_state).
    assert (X : valid_state crowded (S i) (current_step task_config) <> None).
    { unfold valid_state. cbn [crowded scene tracks nth_error]. change (S i < S (List.length (map (fun i => mk_track (Z.of_nat i) (long 5 true)) (seq 1 128))))%nat in L.
      rewrite map_length, seq_length in L. rewrite nth_error_map. rewrite (nth_error_nth' _ 0%nat) by (rewrite seq_length; lia). cbn [option_map]. discriminate. }
    destruct (valid_state crowded (S i) (current_step task_config)); [exact I|congruence].
Qed.
Lemma alone_kept m c rows : rows_ok ref_pf alone task_config m c rows -> sdc_kept alone rows = true.
Proof. intros RO. apply (kept_modeled ref_pf alone task_config m c rows RO). rewrite alone_capped by reflexivity. left. reflexivity. Qed.

(** A batch of two: one value, the car of the second. *)
Theorem shift_refuted : exists pf cfg sc0 l0 sc1 l1 ps fields,
  task_sizes cfg /\ converted pf cfg sc0 l0 /\ converted pf cfg sc1 l1 /\ mapM parse_tf_example [l0; l1] = Ok ps
  /\ add_sdc_fields ps = Ok fields /\ map Some (sdc_x fields) = [sdc_value pf cfg sc1 "x"] /\ sdc_value pf cfg sc1 "x" <> sdc_value pf cfg sc0 "x".
Proof.
  destruct crowded_converts as (l0 & C0). destruct (alone_converts task_config) as (l1 & C1); try reflexivity.
  destruct (proj2 (readable ref_pf task_config crowded l0 C0) task_config_sizes) as (p0 & P0).
  destruct (proj2 (readable ref_pf task_config alone l1 C1) task_config_sizes) as (p1 & P1).
  assert (PS : mapM parse_tf_example (map snd [(crowded, l0); (alone, l1)]) = Ok [p0; p1])
    by (cbn [map snd mapM]; rewrite P0; cbn [bind]; rewrite P1; reflexivity).
  destruct (batch_sdc ref_pf task_config [(crowded, l0); (alone, l1)] [p0; p1]) as (rowss & fields & RS & AF & X & _); [|exact PS|].
  { constructor; [exact C0|]. constructor; [exact C1|constructor]. }
  exists ref_pf, task_config, crowded, l0, alone, l1, [p0; p1], fields.
  split; [exact task_config_sizes|]. split; [exact C0|]. split; [exact C1|]. split; [exact PS|]. split; [exact AF|]. split.
  - inversion RS as [|? r0 ? rs0 (m0 & c0 & R0) RS1 E1 E2]; subst. inversion RS1 as [|? r1 ? rs1 (m1 & c1 & R1) RS2 E3 E4]; subst. inversion RS2; subst.
    rewrite X. cbn [map fst combine flat_map]. unfold sdc_part. cbn [fst snd] in *.
    rewrite (crowded_dropped m0 c0 r0 R0), (alone_kept m1 c1 r1 R1). reflexivity.
  - vm_compute. discriminate.
Qed.

(** What is read is what was written under that name. *)
Theorem read_back l p name : parse_tf_example l = Ok p ->
  input name p = if existsb (String.eqb name) (map (fun d => fst (fst d)) features_description) then Ok (tensor name l) else Err KeyError.
Proof.
  intros H. rewrite (parse_entries l p H). clear. unfold input. induction features_description as [|d ds IH]; [reflexivity|].
  cbn [map find existsb entry fst]. rewrite (String.eqb_sym name). destruct (String.eqb_spec (fst (fst d)) name) as [<-|NE]; cbn [orb snd]; [reflexivity|exact IH].
Qed.
(** Tensors that are written and not read. *)
Definition unread : list string :=
  ["traffic_light_state/past/id"; "traffic_light_state/current/id"; "traffic_light_state/future/x"; "traffic_light_state/future/y";
   "traffic_light_state/future/z"; "traffic_light_state/future/state"; "traffic_light_state/future/id"; "traffic_light_state/future/valid";
   "traffic_light_state/past/timestamp_micros"; "traffic_light_state/current/timestamp_micros"; "traffic_light_state/future/timestamp_micros";
   "state/is_context"; "state/difficulty_level"; "state/objects_of_interest"; "state/past/speed"; "state/current/speed"; "state/future/speed"]%string.
Theorem coverage cfg name : In name (map fst (shapes cfg)) <-> In name (map (fun d => fst (fst d)) features_description) \/ In name unread.
Proof.
  assert (E : map fst (shapes cfg) = map fst (shapes default_config)) by (cbv; reflexivity). rewrite E.
  assert (A : forallb (fun k => existsb (String.eqb k) (map (fun d => fst (fst d)) features_description) || existsb (String.eqb k) unread) (map fst (shapes default_config)) = true)
    by (vm_compute; reflexivity).
  assert (B : forallb (fun k => existsb (String.eqb k) (map fst (shapes default_config))) (map (fun d => fst (fst d)) features_description ++ unread) = true)
    by (vm_compute; reflexivity).
  rewrite forallb_forall in A, B.
  assert (X : forall k l, existsb (String.eqb k) l = true <-> In k l).
  { intros k l. rewrite existsb_exists. split; [intros (y & I & Q); apply String.eqb_eq in Q; subst y; exact I|intros I; exists k; split; [exact I|apply String.eqb_refl]]. }
  split; intros I.
  - specialize (A name I). apply orb_prop in A. rewrite !X in A. exact A.
  - apply X. apply B. apply in_app_iff. exact I.
Qed.
