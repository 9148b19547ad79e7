(** When the scenario conversion succeeds, its counters, and which tracks it keeps. *)
From Coq Require Import String Sorting.Permutation Sorting.Sorted Lqa.
From Verif Require Import Base ResultLib MonadLib ListLib ScenarioModel ScenarioSpec
  ScenarioRoadProofs ScenarioStateProofs ScenarioAgentProofs ScenarioProofs.
Open Scope list_scope.
Open Scope Z_scope.

(** ** Which tracks are kept *)
Lemma rows_in pf sc cfg modeled context rows i : rows_ok pf sc cfg modeled context rows ->
  In (Some i) rows <-> In i modeled \/ In i context.
Proof.
  intros R. rewrite (ro_rows _ _ _ _ _ _ R), !in_app_iff, !in_map_iff. split.
  - intros [(j & E & H)|[(j & E & H)|H]].
    + injection E as ->. left. exact H.
    + injection E as ->. right. exact H.
    + apply repeat_spec in H. discriminate.
  - intros [H|H]; [left|right; left]; exists i; split; try reflexivity; exact H.
Qed.

Lemma ordered_length pf sc cfg modeled context rows ordered :
  rows_ok pf sc cfg modeled context rows ->
  (forall i, In i ordered <-> (i < List.length (tracks sc))%nat /\ ~ In i modeled) -> NoDup ordered ->
  NoDup modeled /\ (forall i, In i modeled -> (i < List.length (tracks sc))%nat)
  /\ (List.length modeled + List.length ordered = List.length (tracks sc))%nat.
Proof.
  intros R OI ON.
  assert (MN : NoDup modeled).
  { eapply Permutation_NoDup; [apply Permutation_sym, (ro_modeled _ _ _ _ _ _ R)|].
    unfold capped. destruct (_ <? 0); [apply distinct_nodup|].
    pose proof (distinct_nodup (filter (valid_now sc cfg)
      (map (fun r => Z.to_nat (track_index r)) (tracks_to_predict sc)))) as N.
    fold (predictable sc cfg) in N.
    rewrite <- (firstn_skipn (Z.to_nat (max_num_modeled_agents cfg)) (predictable sc cfg)) in N.
    apply nodup_app_inv in N. apply N. }
  assert (MI : forall i, In i modeled -> (i < List.length (tracks sc))%nat).
  { intros i Hi. apply (Permutation_in_iff _ _ (ro_modeled _ _ _ _ _ _ R)) in Hi.
    apply capped_in, predictable_facts in Hi. apply Hi. }
  split; [exact MN|]. split; [exact MI|].
  rewrite <- app_length, <- (seq_length (List.length (tracks sc)) 0).
  apply Permutation_length, NoDup_Permutation.
  - apply nodup_app; try assumption. intros x Hx Hy. apply OI in Hy. tauto.
  - apply seq_NoDup.
  - intros x. rewrite in_app_iff, in_seq, OI. split.
    + intros [H|H]; [apply MI in H; lia|lia].
    + intros H. destruct (in_dec Nat.eq_dec x modeled); [left; assumption|right; split; [lia|assumption]].
Qed.

Lemma firstn_sorted_later {A} (R : A -> A -> Prop) n : forall l, StronglySorted R l ->
  forall a b, In a (firstn n l) -> In b (skipn n l) -> R a b.
Proof.
  induction n as [|n IH]; intros l S a b Ha Hb; [destruct Ha|].
  destruct l as [|x l]; [destruct Ha|]. cbn [firstn skipn] in *.
  inversion S as [|? ? S' F]; subst. destruct Ha as [<-|Ha]; [|eapply IH; eassumption].
  rewrite Forall_forall in F. apply F. rewrite <- (firstn_skipn n l). apply in_or_app. right. exact Hb.
Qed.

Theorem rows_cover pf sc cfg modeled context rows : rows_ok pf sc cfg modeled context rows ->
  NoDup (modeled ++ context)
  /\ (forall i, In (Some i) rows -> (i < List.length (tracks sc))%nat)
  /\ (count (tracks sc) <= max_num_agents cfg ->
        forall i, (i < List.length (tracks sc))%nat -> In (Some i) rows)
  /\ (max_num_agents cfg <= count (tracks sc) -> ~ In None rows)
  /\ (forall j, (j < List.length (tracks sc))%nat -> ~ In (Some j) rows ->
        ~ In j (capped cfg (predictable sc cfg))
        /\ forall i, In i context -> ~ priority pf sc cfg j i).
Proof.
  intros R. destruct (ro_context _ _ _ _ _ _ R) as (ordered & OI & ON & OS & EC).
  destruct (ordered_length _ _ _ _ _ _ ordered R OI ON) as (MN & MI & LL).
  pose proof (ro_length _ _ _ _ _ _ R) as RL.
  assert (CO : forall i, In i context -> In i ordered) by (intros i Hi; rewrite EC in Hi; eapply in_firstn, Hi).
  assert (LC : List.length context = Nat.min (Z.to_nat (max_num_agents cfg - count modeled)) (List.length ordered))
    by (rewrite EC; apply firstn_length).
  assert (LM : count modeled <= max_num_agents cfg).
  { rewrite <- RL. rewrite (ro_rows _ _ _ _ _ _ R). unfold count. rewrite app_length, map_length. lia. }
  split; [|split; [|split; [|split]]].
  - apply nodup_app; [exact MN| |].
    + rewrite EC. rewrite <- (firstn_skipn (Z.to_nat (max_num_agents cfg - count modeled)) ordered) in ON.
      apply nodup_app_inv in ON. apply ON.
    + intros x Hx Hy. apply CO, OI in Hy. tauto.
  - intros i Hi. apply (rows_in _ _ _ _ _ _ _ R) in Hi. destruct Hi as [H|H]; [apply MI; exact H|].
    apply CO, OI in H. apply H.
  - intros HT i Hi. apply (rows_in _ _ _ _ _ _ _ R).
    destruct (in_dec Nat.eq_dec i modeled) as [H|H]; [left; exact H|right].
    rewrite EC, firstn_all2; [apply OI; tauto|]. unfold count in *. lia.
  - intros HT HN. rewrite (ro_rows _ _ _ _ _ _ R), !in_app_iff, !in_map_iff in HN.
    destruct HN as [(x & E & _)|[(x & E & _)|HN]]; try discriminate.
    replace (Z.to_nat (max_num_agents cfg - count modeled - count context)) with 0%nat in HN;
      [destruct HN|]. unfold count in *. lia.
  - intros j Hj NR. split.
    + intros H. apply NR. apply (rows_in _ _ _ _ _ _ _ R). left.
      apply (Permutation_in_iff _ _ (ro_modeled _ _ _ _ _ _ R)). exact H.
    + intros i Hi. rewrite EC in Hi.
      assert (Jo : In j ordered).
      { apply OI. split; [exact Hj|]. intros H. apply NR. apply (rows_in _ _ _ _ _ _ _ R). left. exact H. }
      assert (Js : In j (skipn (Z.to_nat (max_num_agents cfg - count modeled)) ordered)).
      { rewrite <- (firstn_skipn (Z.to_nat (max_num_agents cfg - count modeled)) ordered) in Jo.
        apply in_app_or in Jo. destruct Jo as [Jo|Jo]; [|exact Jo]. exfalso. apply NR.
        apply (rows_in _ _ _ _ _ _ _ R). right. rewrite EC. exact Jo. }
      apply (firstn_sorted_later _ _ ordered OS i j Hi Js).
Qed.

(** The order of the modeled agents is determined when ids are distinct. *)
Lemma sorted_unique (f : nat -> Z) : forall a b,
  StronglySorted (fun x y => f x <= f y) a -> StronglySorted (fun x y => f x <= f y) b ->
  Permutation a b -> (forall x y, In x a -> In y a -> f x = f y -> x = y) -> a = b.
Proof.
  induction a as [|x a IH]; intros b Sa Sb P I.
  - apply Permutation_nil in P. symmetry. exact P.
  - destruct b as [|y b]; [apply Permutation_sym, Permutation_nil in P; discriminate|].
    inversion Sa as [|? ? Sa' Fa]; subst. inversion Sb as [|? ? Sb' Fb]; subst.
    rewrite Forall_forall in Fa, Fb.
    assert (E : x = y).
    { assert (Hy : In y (x :: a)) by (eapply Permutation_in; [apply Permutation_sym; exact P|left; reflexivity]).
      assert (Hx : In x (y :: b)) by (eapply Permutation_in; [exact P|left; reflexivity]).
      destruct Hy as [Hy|Hy]; [exact Hy|]. destruct Hx as [Hx|Hx]; [symmetry; exact Hx|].
      apply I; [left; reflexivity|right; exact Hy|]. specialize (Fa y Hy). specialize (Fb x Hx). lia. }
    subst y. f_equal. apply IH; try assumption.
    + eapply Permutation_cons_inv. exact P.
    + intros u v Hu Hv. apply I; right; assumption.
Qed.

(** ** Success *)
Lemma foldM_total {A S} (f : S -> A -> result S) l :
  (forall s x, In x l -> exists s', f s x = Ok s') -> forall s, exists s', foldM f l s = Ok s'.
Proof.
  induction l as [|x l IH]; intros H s; [exists s; reflexivity|].
  cbn [foldM]. destruct (H s x (or_introl eq_refl)) as (s1 & E). rewrite E.
  apply IH. intros s' y Hy. apply H. right. exact Hy.
Qed.
Lemma mapM_total {A B} (f : A -> result B) l : (forall x, In x l -> exists y, f x = Ok y) ->
  exists r, mapM f l = Ok r.
Proof.
  induction l as [|x l IH]; intros H; [exists []; reflexivity|]. cbn [mapM].
  destruct (H x (or_introl eq_refl)) as (y & E). rewrite E. cbn [bind].
  destruct IH as (r & ->); [intros z Hz; apply H; right; exact Hz|]. eexists. reflexivity.
Qed.

Lemma dirs_total pf (pts : list vec3) : pts <> [] -> exists d, compute_direction_vectors pf pts = Ok d.
Proof. destruct pts; [congruence|]. intros _. eexists. reflexivity. Qed.

Lemma interpolated_total pf cfg id type pts n : (0 < source_polyline_spacing cfg)%Q ->
  n < max_roadgraph_samples cfg -> exists r, add_interpolated_samples pf cfg id type pts n = Ok r.
Proof.
  intros Hs Hn. unfold add_interpolated_samples. destruct pts as [|first rest] eqn:Ep; [eexists; reflexivity|].
  rewrite <- Ep in *. assert (Hp : pts <> []) by (rewrite Ep; discriminate). clear Ep.
  pose proof (spacing_pos cfg Hs) as P. change (sample_spacing cfg) with (spacing cfg).
  destruct (Qeq_bool (spacing cfg) 0) eqn:E0.
  { apply Qeq_bool_iff in E0. rewrite E0 in P. discriminate P. }
  assert (A : 0 <= trunc (inject_Z (size pts) * source_polyline_spacing cfg / spacing cfg)).
  { assert (Q0 : (0 <= inject_Z (size pts) * source_polyline_spacing cfg / spacing cfg)%Q).
    { apply Qle_shift_div_l; [exact P|].
      assert (0 <= inject_Z (size pts))%Q by (apply inject_nonneg; unfold size; lia). nra. }
    rewrite trunc_floor by exact Q0. apply Qfloor_resp_le in Q0. exact Q0. }
  destruct (Z.ltb_spec (trunc (inject_Z (size pts) * source_polyline_spacing cfg / spacing cfg)) 0); [lia|].
  cbv zeta. set (room := Z.to_nat (max_roadgraph_samples cfg - n)).
  pose proof (polyline_loop_spec cfg pts Hs Hp room 0) as PL. change (Z.of_nat 0) with 0 in PL.
  rewrite PL. clear PL. cbn [bind].
  set (loop := firstn room _). clearbody loop.
  match goal with |- exists r, bind (compute_direction_vectors pf ?p) _ = _ =>
    destruct (dirs_total pf p) as (d & ->) end.
  - destruct loop as [|p ps].
    + cbn [List.length andb]. destruct (Nat.ltb_spec 0 room); [discriminate|unfold room in *; lia].
    + destruct (_ && _); discriminate.
  - eexists. reflexivity.
Qed.

Lemma side_nonempty pf cfg s : side_samples pf cfg s <> [].
Proof.
  destruct s as [a b]. unfold side_samples. destruct (Qle_bool _ 0); [discriminate|].
  cbv zeta. set (t := trunc _). intros H. apply map_eq_nil in H.
  apply (f_equal (@List.length nat)) in H. rewrite seq_length in H. cbn in H. lia.
Qed.

Lemma polygon_total pf cfg id type pts n : pts <> [] ->
  n < max_roadgraph_samples cfg -> exists r, add_polygon_samples pf cfg id type pts n = Ok r.
Proof.
  intros Hp Hn. unfold add_polygon_samples. cbv zeta. set (room := Z.to_nat _).
  assert (Hroom : (0 < room)%nat) by (unfold room; lia).
  assert (HL : 0 < count pts) by (destruct pts; [congruence|unfold count; cbn [List.length]; lia]).
  destruct (at_index_in pts (size pts - 1)) as (la & ->); [unfold size, count in *; lia|].
  destruct (at_index_in pts 0) as (fi & ->); [lia|]. cbn [bind].
  match goal with |- exists r, bind (compute_direction_vectors pf ?p) _ = _ =>
    destruct (dirs_total pf p) as (d & ->) end; [|eexists; reflexivity].
  rewrite segment_spec. intros H. apply app_eq_nil in H. destruct H as [H1 H].
  apply app_eq_nil in H. destruct H as [H2 _]. rewrite H1 in H2. cbn [List.length] in H2.
  rewrite Nat.sub_0_r in H2. pose proof (side_nonempty pf cfg (la, fi)) as SN.
  destruct room; [lia|]. destruct (side_samples pf cfg (la, fi)); [congruence|discriminate H2].
Qed.

Definition polygon_ok (m : map_feature) : Prop :=
  match mf_data m with Crosswalk pts | SpeedBump pts | Driveway pts => pts <> [] | _ => True end.

Lemma sample_total pf cfg acc m : (0 < source_polyline_spacing cfg)%Q -> polygon_ok m ->
  exists r, add_roadgraph_sample pf cfg acc m = Ok r.
Proof.
  intros Hs Hp. destruct acc as [n l]. unfold add_roadgraph_sample. unfold polygon_ok in Hp.
  destruct (Z.leb_spec (max_roadgraph_samples cfg) n) as [F|F].
  { destruct (mf_data m); eexists; reflexivity. }
  destruct (mf_data m) as [t p|t p|t p|p|p|p|p|];
    try (match goal with |- exists r, bind ?x _ = _ =>
           let E := fresh in assert (E : exists r, x = Ok r)
             by (first [apply interpolated_total; assumption | apply polygon_total; assumption]);
           destruct E as ((n1, l1) & ->) end; eexists; reflexivity).
  eexists. reflexivity.
Qed.

Lemma road_total pf cfg fs : (0 < source_polyline_spacing cfg)%Q ->
  (forall m, In m fs -> polygon_ok m) -> exists l, add_roadgraph_samples pf cfg fs = Ok l.
Proof.
  intros Hs Hp. unfold add_roadgraph_samples.
  destruct (foldM_total (fun acc priority => foldM (fun acc m =>
                if negb (feature_data_case m =? priority) then Ok acc
                else add_roadgraph_sample pf cfg acc m) fs acc) priority_list) with (s := (0, @nil event))
    as (acc1 & ->).
  { intros acc p _. apply foldM_total. intros acc' m Hm. destruct (negb _); [eexists; reflexivity|].
    apply sample_total; [exact Hs|apply Hp; exact Hm]. }
  cbn [bind].
  destruct (foldM_total (fun acc m => if zmem (feature_data_case m) priority_list then Ok acc
              else add_roadgraph_sample pf cfg acc m) fs) with (s := acc1) as ((n & l) & ->).
  { intros acc' m Hm. destruct (zmem _ _); [eexists; reflexivity|].
    apply sample_total; [exact Hs|apply Hp; exact Hm]. }
  cbn [bind]. eexists. reflexivity.
Qed.

Lemma find_interest_total step id : forall l i,
  (forall tr, In tr l -> 0 <= step < count (states tr)) ->
  exists o, find_interest false step id i l = Ok o.
Proof.
  induction l as [|tr l IH]; intros i H; [eexists; reflexivity|].
  cbn [find_interest]. specialize (IH (S i) (fun t Ht => H t (or_intror Ht))).
  destruct (tr_id tr =? id); [|exact IH].
  destruct (at_index_in (states tr) step) as (s & ->); [apply H; left; reflexivity|].
  cbn [bind]. destruct (valid s); [eexists; reflexivity|exact IH].
Qed.

Lemma modeled_total cfg sc : well_formed sc -> convertible sc cfg ->
  exists m, get_modeled_agents cfg sc (num_steps cfg - 1) = Ok m.
Proof.
  intros (_ & _ & WL) C. unfold get_modeled_agents. cbv zeta.
  replace (num_steps cfg - 1 - num_future_steps cfg) with (num_past_steps cfg - 1)
    by (unfold num_steps; lia).
  assert (R : forall tr, In tr (tracks sc) -> 0 <= num_past_steps cfg - 1 < count (states tr)).
  { intros tr H. pose proof (cv_past _ _ C). unfold count in *. rewrite (WL tr H). lia. }
  unfold get_objects_of_interest.
  destruct (mapM_total (fun id => find_interest false (num_past_steps cfg - 1) id 0 (tracks sc))
              (interest_ids sc)) as (oi & ->).
  { intros id _. apply find_interest_total. exact R. }
  cbn [bind]. apply foldM_total. intros s r Hr. pose proof (cv_tracks _ _ C r Hr) as B.
  change (size (tracks sc)) with (count (tracks sc)).
  destruct (Z.leb_spec (count (tracks sc)) (track_index r)); [lia|].
  destruct (at_index_in (tracks sc) (track_index r) B) as (tr & E). rewrite E. cbn [bind].
  apply at_index_ok in E. destruct E as [_ E]. apply nth_error_In in E.
  destruct (at_index_in (states tr) (num_past_steps cfg - 1)) as (st & ->); [apply R; exact E|].
  cbn [bind]. destruct (valid st && _); eexists; reflexivity.
Qed.

Theorem outcome pf sc cfg : platform_ok pf -> well_formed sc -> representable sc cfg ->
  finite_now sc cfg -> convertible sc cfg ->
  (capped cfg (predictable sc cfg) = [] -> scenario_to_example pf sc cfg = Err KeyError)
  /\ (capped cfg (predictable sc cfg) <> [] -> exists l, scenario_to_example pf sc cfg = Ok l).
Proof.
  intros PO W RP FN C. pose proof PO as [PS PH].
  unfold scenario_to_example. apply validate_iff in W as V. rewrite V. cbn [negb].
  unfold add_tf_features.
  destruct (road_total pf cfg (map_features sc) (cv_source _ _ C) (cv_polygons _ _ C)) as (road & ->).
  cbn [bind]. rewrite traffic_log. cbn [bind].
  set (lights := flat_map _ _). clearbody lights.
  unfold add_sdc_and_agents_features. cbv zeta.
  replace (num_steps cfg - 1 - num_future_steps cfg) with (num_past_steps cfg - 1)
    by (unfold num_steps; lia).
  destruct (interest_ok sc (num_past_steps cfg - 1)) as (interest & -> & MI). cbn [bind].
  pose proof W as (_ & B & WL). change (size (tracks sc)) with (count (tracks sc)).
  destruct (Z.ltb_spec (sdc_track_index sc) 0); [lia|].
  destruct (Z.leb_spec (count (tracks sc)) (sdc_track_index sc)); [lia|]. cbn [orb].
  fold (sdc sc).
  destruct (modeled_total cfg sc W C) as (m & EM). rewrite EM. cbn [bind].
  apply (modeled_ok cfg sc m RP) in EM. destruct EM as (Em & _ & _). rewrite <- Em.
  pose proof (cv_past _ _ C) as HP. pose proof (cv_agents _ _ C) as HA.
  assert (Min : forall i, In i m -> (i < List.length (tracks sc))%nat).
  { intros i Hi. rewrite Em in Hi. apply capped_in, predictable_facts in Hi. apply Hi. }
  assert (Lm : size m <= max_num_agents cfg).
  { rewrite Em. unfold capped, size. destruct (Z.ltb_spec (max_num_modeled_agents cfg) 0); [lia|].
    pose proof (firstn_le_length (Z.to_nat (max_num_modeled_agents cfg)) (predictable sc cfg)). lia. }
  split.
  { intros ->. reflexivity. }
  intros Hm. destruct m as [|m0 ms] eqn:Emm; [congruence|]. rewrite <- Emm in *. clear Hm m0 ms Emm.
  destruct (PS (modeled_before sc) (hash_order pf m) (modeled_before_swo sc _)) as [P1 _].
  set (sorted := std_sort pf (modeled_before sc) (hash_order pf m)) in *.
  assert (SPm : Permutation sorted m) by (eapply Permutation_trans; [exact P1|apply PH]).
  rewrite (mapM_in _ (fun i => header sc sorted (Some i) ++ body pf cfg sc (Some i)) sorted).
  2:{ intros i Hi. apply row_log; try assumption.
      - cbn. apply Min. eapply Permutation_in; [exact SPm|exact Hi].
      - intros j E. injection E as <-. apply mem_spec. exact Hi. }
  cbn [bind].
  set (context := filter (fun i => negb (mem i m)) (seq 0 (List.length (tracks sc)))).
  assert (CI : forall i, In i context -> (i < List.length (tracks sc))%nat /\ ~ In i m).
  { intros i. unfold context. rewrite filter_In, in_seq, negb_true_iff, mem_false. intros [Q1 Q2].
    split; [lia|exact Q2]. }
  match goal with |- exists l, bind (bind (bind ?x _) _) _ = _ =>
    let E := fresh in assert (E : exists v, x = Ok v) end.
  { destruct (2 <=? List.length context)%nat; [|eexists; reflexivity].
    apply mapM_total. intros i Hi. apply at_index_in.
    assert (Bi : (i < List.length (tracks sc))%nat).
    { destruct Hi as [<-|Hi]; [unfold sdc, count in *; lia|apply CI in Hi; apply Hi]. }
    assert (I : In (track_of sc i) (tracks sc)) by (apply nth_In; exact Bi).
    apply WL in I. unfold count in *. lia. }
  destruct H1 as (v & ->). cbn [bind].
  destruct (Z.ltb_spec (max_num_agents cfg - size m) 0); [lia|].
  destruct (PS (context_before pf sc (num_past_steps cfg - 1) (sdc sc)) context) as [P2 _].
  { eapply strict_weak_mono; [|apply (context_before_swo pf sc cfg W); try lia; exact FN].
    intros x Hx. apply CI in Hx. apply Hx. }
  set (ordered := std_sort pf (context_before pf sc (num_past_steps cfg - 1) (sdc sc)) context) in *.
  rewrite (mapM_in _ (fun row => header sc sorted row ++ body pf cfg sc row)
             (resize (Z.to_nat (max_num_agents cfg - size m)) ordered)).
  2:{ intros row Hr. unfold resize in Hr. apply in_app_or in Hr. destruct Hr as [Hr|Hr].
      - apply in_map_iff in Hr. destruct Hr as (i & <- & Hi). apply in_firstn in Hi.
        assert (Ci : In i context) by (eapply Permutation_in; [exact P2|exact Hi]).
        apply CI in Ci. destruct Ci as [C1 C2]. apply row_log; try assumption.
        intros j E. injection E as <-. apply mem_false. intros D. apply C2.
        eapply Permutation_in; [exact SPm|exact D].
      - apply repeat_spec in Hr. subst row. apply row_log; try assumption; [exact I|discriminate]. }
  cbn [bind]. eexists. reflexivity.
Qed.

(** ** Counters *)
Definition counters_in (ks : list string) (l : log) : Prop :=
  forall e, In e l -> match e with Counter k _ => In k ks | Feature _ _ => True end.
Lemma counter_absent ks k l : counters_in ks l -> smem k ks = false -> counter k l = 0.
Proof.
  intros H K. apply counter_none. intros e He. specialize (H e He). destruct e as [k' v|k' n]; [exact I|].
  intros ->. apply smem_not in K. contradiction.
Qed.
Lemma counter_flat_map {A} k (f : A -> log) xs :
  counter k (flat_map f xs) = fold_right Z.add 0 (map (fun x => counter k (f x)) xs).
Proof.
  induction xs as [|x xs IH]; [reflexivity|]. cbn [flat_map map fold_right].
  rewrite counter_app, IH. reflexivity.
Qed.
Lemma counter_flat_map_0 {A} k (f : A -> log) xs : (forall x, counter k (f x) = 0) ->
  counter k (flat_map f xs) = 0.
Proof.
  intros H. induction xs as [|x xs IH]; [reflexivity|]. cbn [flat_map].
  rewrite counter_app, H, IH. reflexivity.
Qed.
Lemma counter_flat_map_1 {A} k (f : A -> log) xs : (forall x, In x xs -> counter k (f x) = 1) ->
  counter k (flat_map f xs) = count xs.
Proof.
  intros H. induction xs as [|x xs IH]; [reflexivity|]. cbn [flat_map].
  rewrite counter_app, H by (left; reflexivity). rewrite IH by (intros; apply H; right; assumption).
  unfold count. cbn [List.length]. lia.
Qed.

Definition kept_out : list string := ["Num_Modeled_Agents"; "Num_Context_Agents"; "Padded_State_Feature";
  "Agents_State_Feature"; "Road_Graph_Samples_Valid_Points"; "Road_Graph_Samples_Padded_Points";
  "Actual_Traffic_Light_State_Features"; "Padded_Traffic_Light_State_Features"]%string.

Lemma step_counter pf sc row f t st k : In k kept_out ->
  counter k (step_warn sc row t ++ step_features pf sc f t st) = 0.
Proof.
  intros Hk. rewrite counter_app.
  assert (E : counter k (step_warn sc row t) = 0).
  { destruct row as [i|]; cbn [step_warn]; [|reflexivity]. destruct (_ <=? _); [|reflexivity].
    cbn in Hk. repeat (destruct Hk as [<-|Hk]; [reflexivity|]); destruct Hk. }
  rewrite E. clear E. destruct st as [s|].
  - unfold step_features. rewrite !counter_app. cbn [map state_values]. cbn [counter].
    cbn in Hk. repeat (destruct Hk as [<-|Hk]; [reflexivity|]); destruct Hk.
  - unfold step_features. rewrite !counter_app. cbn [map state_values]. cbn [counter].
    cbn in Hk. repeat (destruct Hk as [<-|Hk]; [reflexivity|]); destruct Hk.
Qed.
Lemma body_counter pf cfg sc row k : In k kept_out -> counter k (body pf cfg sc row) = 0.
Proof. intros Hk. apply counter_flat_map_0. intros t. apply step_counter. exact Hk. Qed.

Lemma type_counter_eq n : let k := object_type_counter n in
  k <> "Num_Modeled_Agents"%string /\ k <> "Num_Context_Agents"%string
  /\ k <> "Padded_State_Feature"%string /\ k <> "Agents_State_Feature"%string
  /\ k <> "Road_Graph_Samples_Valid_Points"%string /\ k <> "Road_Graph_Samples_Padded_Points"%string
  /\ k <> "Actual_Traffic_Light_State_Features"%string
  /\ k <> "Padded_Traffic_Light_State_Features"%string.
Proof.
  unfold object_type_counter. destruct n as [|[[p|p|]|[p|p|]|]|p]; repeat split; discriminate.
Qed.

Lemma header_counter sc modeled row k : In k kept_out ->
  counter k (header sc modeled row) =
  (if String.eqb k "Padded_State_Feature" then match row with None => 1 | Some _ => 0 end
   else if String.eqb k "Agents_State_Feature" then match row with None => 0 | Some _ => 1 end
   else 0)%string.
Proof.
  intros Hk. destruct row as [i|]; cbn [header].
  - destruct (type_counter_eq (match the_track sc i with Some tr => object_type tr | None => 0 end))
      as (T1 & T2 & T3 & T4 & T5 & T6 & T7 & T8).
    set (tc := object_type_counter _) in *. cbn [counter].
    assert (E : String.eqb tc k = false).
    { apply String.eqb_neq. cbn in Hk. repeat (destruct Hk as [<-|Hk]; [assumption|]). destruct Hk. }
    rewrite E. clear - Hk. cbn in Hk. repeat (destruct Hk as [<-|Hk]; [reflexivity|]). destruct Hk.
  - cbn in Hk. repeat (destruct Hk as [<-|Hk]; [reflexivity|]). destruct Hk.
Qed.

Lemma padding_counter : forall rows (f : option nat -> log) k (g : option nat -> Z),
  (forall row, counter k (f row) = g row) ->
  counter k (flat_map f rows) = fold_right Z.add 0 (map g rows).
Proof.
  intros rows f k g H. rewrite counter_flat_map. f_equal. apply map_ext. exact H.
Qed.
Lemma sum_zero {A} (l : list A) : fold_right Z.add 0 (map (fun _ => 0) l) = 0.
Proof. induction l as [|x l IH]; [reflexivity|]. cbn [map fold_right]. lia. Qed.
Lemma sum_app a b : fold_right Z.add 0 (a ++ b) = fold_right Z.add 0 a + fold_right Z.add 0 b.
Proof. induction a as [|x a IH]; [reflexivity|]. cbn [app fold_right]. lia. Qed.
Definition is_pad (row : option nat) : Z := match row with None => 1 | Some _ => 0 end.
Definition is_row (row : option nat) : Z := match row with None => 0 | Some _ => 1 end.
Lemma sum_some (g : option nat -> Z) v l : (forall i, g (Some i) = v) ->
  fold_right Z.add 0 (map g (map Some l)) = v * count l.
Proof.
  intros H. induction l as [|x l IH]; [cbn; lia|]. cbn [map fold_right]. rewrite H, IH.
  unfold count. cbn [List.length]. lia.
Qed.
Lemma sum_none (g : option nat -> Z) n :
  fold_right Z.add 0 (map g (repeat None n)) = g None * Z.of_nat n.
Proof. induction n as [|n IH]; [cbn; lia|]. cbn [repeat map fold_right]. rewrite IH. lia. Qed.

Lemma lane_counter f s k : counter k (lane_features (light_prefix f) s) = 0.
Proof. destruct s as [s|]; reflexivity. Qed.
Lemma lights_counter cfg sc t k :
  counter k (light_log (light_prefix (frame_at cfg t)) cfg sc t) = 0.
Proof.
  unfold light_log. rewrite counter_app. rewrite counter_flat_map_0 by (intros; apply lane_counter).
  reflexivity.
Qed.

Section Counters.
Variables (pf : platform) (sc : scenario) (cfg : config) (l : log).
Hypothesis PO : platform_ok pf.
Hypothesis RP : representable sc cfg.
Hypothesis SP : (0 < source_polyline_spacing cfg)%Q.
Hypothesis FU : 0 <= num_future_steps cfg.
Hypothesis FN : finite_now sc cfg.
Hypothesis OK : scenario_to_example pf sc cfg = Ok l.

Lemma whole_counter k : In k kept_out -> exists road lights agents modeled context rows,
  add_roadgraph_samples pf cfg (map_features sc) = Ok road
  /\ add_traffic_light_features cfg sc (num_steps cfg - 1) = Ok lights
  /\ rows_ok pf sc cfg modeled context rows /\ agents_log pf cfg sc modeled context rows agents
  /\ counter k l = counter k road + counter k lights + counter k agents.
Proof using PO RP FN OK.
  intros Hk.
  destruct (conversion_parts pf sc cfg l OK) as (W & road & lights & agents & E1 & E2 & E3 & El).
  destruct (agents_ok pf cfg sc agents PO W RP FN E3) as (HP & modeled & context & rows & RO & AL).
  exists road, lights, agents, modeled, context, rows. repeat (split; [assumption|]).
  rewrite El, !counter_app.
  assert (A : counter k [Counter "Num_Attempted_TF_Examples" 1; Counter "Valid_Scenario" 1] = 0
    /\ counter k [Feature "scenario/id" (VBytes (scenario_id sc))] = 0
    /\ counter k [Counter "Num_Success_Generate_TF_Examples" 1] = 0).
  { clear - Hk. cbn in Hk. repeat (destruct Hk as [<-|Hk]; [repeat split; reflexivity|]). destruct Hk. }
  destruct A as (-> & -> & ->). lia.
Qed.

Lemma road_counter k road : add_roadgraph_samples pf cfg (map_features sc) = Ok road ->
  counter k road = counter k [Counter "Road_Graph_Samples_Valid_Points"
      (count (kept_samples pf cfg (map_features sc)));
    Counter "Road_Graph_Samples_Padded_Points"
      (max_roadgraph_samples cfg - count (kept_samples pf cfg (map_features sc)))].
Proof using SP.
  intros E. rewrite (road_log _ _ _ _ SP E), !counter_app.
  rewrite (only_features_counter _ _ (emit_only _ _)), (only_features_counter _ _ (padding_only _)). lia.
Qed.

Lemma agents_counter k modeled context rows agents : In k kept_out ->
  rows_ok pf sc cfg modeled context rows -> agents_log pf cfg sc modeled context rows agents ->
  counter k agents = counter k [Counter "Num_Modeled_Agents" (count modeled)]
    + counter k [Counter "Num_Context_Agents" (count context)]
    + (if String.eqb k "Padded_State_Feature" then
         Z.of_nat (Z.to_nat (max_num_agents cfg - count modeled - count context))
       else if String.eqb k "Agents_State_Feature" then count modeled + count context else 0)%string.
Proof using.
  clear. intros Hk RO (tail & Er & ->). rewrite !counter_app.
  set (g := fun row => (if String.eqb k "Padded_State_Feature" then is_pad row
            else if String.eqb k "Agents_State_Feature" then is_row row else 0)%string).
  assert (H : forall row, counter k (header sc modeled row ++ body pf cfg sc row) = g row).
  { intros row. rewrite counter_app, (body_counter _ _ _ _ _ Hk), (header_counter _ _ _ _ Hk).
    unfold g. destruct row; destruct (_ =? _)%string; try reflexivity;
      destruct (_ =? _)%string; reflexivity. }
  rewrite !(padding_counter _ _ k g H).
  assert (T : fold_right Z.add 0 (map g (map Some modeled)) + fold_right Z.add 0 (map g tail)
    = fold_right Z.add 0 (map g rows)) by (rewrite Er, map_app, sum_app; reflexivity).
  rewrite (ro_rows _ _ _ _ _ _ RO), !map_app, !sum_app in T.
  rewrite !(sum_some g (g (Some 0%nat))) in T by (intros; unfold g; reflexivity).
  rewrite sum_none in T. rewrite !(sum_some g (g (Some 0%nat))) by (intros; unfold g; reflexivity).
  set (t1 := fold_right Z.add 0 (map g tail)) in *. clearbody t1. clear - T.
  unfold g in *. clear g. cbn [is_pad is_row] in *.
  destruct (_ =? _)%string; [lia|]. destruct (_ =? _)%string; lia.
Qed.

Lemma context_count modeled context rows : rows_ok pf sc cfg modeled context rows ->
  count modeled = count (capped cfg (predictable sc cfg))
  /\ count modeled <= count (tracks sc) /\ count modeled <= max_num_agents cfg
  /\ count context = Z.min (max_num_agents cfg - count modeled) (count (tracks sc) - count modeled).
Proof using.
  clear. intros R. destruct (ro_context _ _ _ _ _ _ R) as (ordered & OI & ON & OS & EC).
  destruct (ordered_length _ _ _ _ _ _ ordered R OI ON) as (MN & MI & LL).
  pose proof (ro_length _ _ _ _ _ _ R) as RL.
  assert (LM : count modeled <= max_num_agents cfg).
  { rewrite <- RL. rewrite (ro_rows _ _ _ _ _ _ R). unfold count. rewrite app_length, map_length. lia. }
  assert (LC : List.length context = Nat.min (Z.to_nat (max_num_agents cfg - count modeled)) (List.length ordered))
    by (rewrite EC; apply firstn_length).
  pose proof (Permutation_length (ro_modeled _ _ _ _ _ _ R)) as PL.
  unfold count in *. repeat split; lia.
Qed.

Theorem whole_agent_counters : let m := count (capped cfg (predictable sc cfg)) in
  counter "Num_Modeled_Agents" l = m
  /\ counter "Num_Context_Agents" l = Z.min (max_num_agents cfg) (count (tracks sc)) - m
  /\ counter "Agents_State_Feature" l = Z.min (max_num_agents cfg) (count (tracks sc))
  /\ counter "Padded_State_Feature" l = Z.max 0 (max_num_agents cfg - count (tracks sc)).
Proof.
  assert (H : forall k, In k kept_out -> exists modeled context rows agents,
     rows_ok pf sc cfg modeled context rows /\ agents_log pf cfg sc modeled context rows agents
     /\ (In k ["Num_Modeled_Agents"; "Num_Context_Agents"; "Agents_State_Feature";
               "Padded_State_Feature"]%string -> counter k l = counter k agents)).
  { intros k Hk. destruct (whole_counter k Hk) as (road & lights & agents & mo & co & rows & A & B & C & D & E).
    exists mo, co, rows, agents. split; [exact C|]. split; [exact D|]. intros Hi. rewrite E.
    rewrite (road_counter k road A). rewrite traffic_log in B. apply Ok_inj in B. subst lights.
    rewrite counter_flat_map_0.
    2:{ intros t. rewrite !counter_app, lights_counter.
        assert (counter k (light_warn sc t) = 0 /\ counter k (light_counts cfg sc t) = 0) as [-> ->].
        { clear - Hi. unfold light_warn, light_counts. cbn in Hi.
          destruct (lights_at sc t); repeat (destruct Hi as [<-|Hi]; [split; reflexivity|]); destruct Hi. }
        reflexivity. }
    clear - Hi. cbn in Hi. repeat (destruct Hi as [<-|Hi]; [cbn [counter String.eqb Ascii.eqb Bool.eqb]; lia|]). destruct Hi. }
  intros m. unfold m.
  split; [|split; [|split]];
  match goal with |- counter ?k l = _ =>
    destruct (H k) as (mo & co & rows & agents & RO & AL & EQ);
      [cbn; tauto|]; rewrite EQ by (cbn; tauto);
      rewrite (agents_counter k mo co rows agents) by (try assumption; cbn; tauto);
      destruct (context_count mo co rows RO) as (X1 & X2 & X3 & X4);
      cbn [counter String.eqb Ascii.eqb Bool.eqb]; clear - X1 X2 X3 X4; lia end.
Qed.

Theorem whole_road_counters :
  counter "Road_Graph_Samples_Valid_Points" l = count (kept_samples pf cfg (map_features sc))
  /\ counter "Road_Graph_Samples_Valid_Points" l + counter "Road_Graph_Samples_Padded_Points" l
     = max_roadgraph_samples cfg.
Proof.
  assert (H : forall k, In k ["Road_Graph_Samples_Valid_Points"; "Road_Graph_Samples_Padded_Points"]%string ->
     counter k l = counter k [Counter "Road_Graph_Samples_Valid_Points"
      (count (kept_samples pf cfg (map_features sc)));
    Counter "Road_Graph_Samples_Padded_Points"
      (max_roadgraph_samples cfg - count (kept_samples pf cfg (map_features sc)))]).
  { intros k Hk.
    destruct (whole_counter k) as (road & lights & agents & mo & co & rows & A & B & C & D & E).
    { clear - Hk. cbn in *. tauto. }
    rewrite E, (road_counter k road A), traffic_log in *. apply Ok_inj in B. subst lights.
    rewrite (agents_counter k mo co rows agents) by (try assumption; clear - Hk; cbn in *; tauto).
    rewrite counter_flat_map_0.
    2:{ intros t. rewrite !counter_app, lights_counter.
        assert (counter k (light_warn sc t) = 0 /\ counter k (light_counts cfg sc t) = 0) as [-> ->].
        { clear - Hk. unfold light_warn, light_counts. cbn in Hk.
          destruct (lights_at sc t); repeat (destruct Hk as [<-|Hk]; [split; reflexivity|]); destruct Hk. }
        reflexivity. }
    clear - Hk. cbn in Hk. destruct Hk as [<-|[<-|[]]]; cbn [counter String.eqb Ascii.eqb Bool.eqb]; lia. }
  rewrite !H by (cbn; tauto). cbn [counter String.eqb Ascii.eqb Bool.eqb].
  set (c := count _). clearbody c. clear. lia.
Qed.

Lemma sum_lights (g h : nat -> Z) ts m : (forall t, In t ts -> g t + h t = m) ->
  fold_right Z.add 0 (map g ts) + fold_right Z.add 0 (map h ts) = m * count ts.
Proof using.
  clear. intros H. induction ts as [|t ts IH]; [cbn; lia|]. cbn [map fold_right].
  pose proof (H t (or_introl eq_refl)) as Ht.
  unfold count in *. cbn [List.length]. rewrite Nat2Z.inj_succ.
  assert (IH' := IH (fun u Hu => H u (or_intror Hu))). nia.
Qed.

Theorem whole_light_counters :
  counter "Actual_Traffic_Light_State_Features" l = lights_seen sc cfg
  /\ counter "Actual_Traffic_Light_State_Features" l + counter "Padded_Traffic_Light_State_Features" l
     = max_traffic_light_control_points_per_step cfg * (num_past_steps cfg + num_future_steps cfg).
Proof.
  pose proof (whole_steps pf sc cfg l PO RP FN OK) as HP.
  assert (H : forall k, In k ["Actual_Traffic_Light_State_Features"; "Padded_Traffic_Light_State_Features"]%string ->
     counter k l = fold_right Z.add 0 (map (fun t => counter k (light_counts cfg sc t))
                                           (seq 0 (Z.to_nat (num_steps cfg))))).
  { intros k Hk.
    destruct (whole_counter k) as (road & lights & agents & mo & co & rows & A & B & C & D & E).
    { clear - Hk. cbn in *. tauto. }
    rewrite E, (road_counter k road A), traffic_log in *. apply Ok_inj in B. subst lights.
    rewrite (agents_counter k mo co rows agents) by (try assumption; clear - Hk; cbn in *; tauto).
    rewrite counter_flat_map.
    rewrite (map_ext _ (fun t => counter k (light_counts cfg sc t))).
    2:{ intros t. rewrite !counter_app, lights_counter.
        assert (counter k (light_warn sc t) = 0) as ->.
        { clear - Hk. unfold light_warn. cbn in Hk.
          destruct (lights_at sc t); repeat (destruct Hk as [<-|Hk]; [reflexivity|]); destruct Hk. }
        lia. }
    set (s := fold_right _ _ _). clearbody s.
    clear - Hk. cbn in Hk. destruct Hk as [<-|[<-|[]]]; cbn [counter String.eqb Ascii.eqb Bool.eqb]; lia. }
  rewrite !H by (cbn; tauto). unfold lights_seen, num_steps. rewrite (Z.add_comm (num_past_steps cfg)). split.
  - f_equal. apply map_ext. intros t. unfold light_counts. destruct (lights_at sc t); [|reflexivity].
    cbn [counter String.eqb Ascii.eqb Bool.eqb]. lia.
  - rewrite (sum_lights _ _ _ (max_traffic_light_control_points_per_step cfg)).
    + unfold count. rewrite seq_length. clear - HP FU. rewrite Z2Nat.id; lia.
    + intros t _. unfold light_counts. destruct (lights_at sc t);
        cbn [counter String.eqb Ascii.eqb Bool.eqb]; lia.
Qed.
End Counters.

Theorem modeled_order_unique pf pf' sc cfg m c r m' c' r' :
  rows_ok pf sc cfg m c r -> rows_ok pf' sc cfg m' c' r' ->
  (forall i j, In i (capped cfg (predictable sc cfg)) -> In j (capped cfg (predictable sc cfg)) ->
     id_of sc i = id_of sc j -> i = j) -> m = m'.
Proof.
  intros R R' H. apply (sorted_unique (id_of sc)).
  - apply R.
  - apply R'.
  - eapply Permutation_trans; [apply R|]. apply Permutation_sym. apply R'.
  - intros x y Hx Hy. apply H; eapply Permutation_in; try apply (ro_modeled _ _ _ _ _ _ R); assumption.
Qed.

Theorem invalid_outcome pf sc cfg : ~ well_formed sc -> scenario_to_example pf sc cfg = Err ValueError.
Proof.
  intros H. unfold scenario_to_example. destruct (validate_scenario sc) eqn:V; [|reflexivity].
  exfalso. apply H, validate_iff. exact V.
Qed.
