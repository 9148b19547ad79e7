(** The scenario conversion as a whole. *)
From Coq Require Import String Sorting.Permutation Sorting.Sorted Lqa.
From Verif Require Import Base ResultLib MonadLib ListLib ScenarioModel ScenarioSpec
  ScenarioRoadProofs ScenarioStateProofs ScenarioAgentProofs.
Open Scope list_scope.
Open Scope Z_scope.

Lemma validate_iff sc : validate_scenario sc = true <-> well_formed sc.
Proof.
  unfold validate_scenario, well_formed. rewrite !andb_true_iff, !negb_true_iff, orb_false_iff.
  rewrite Z.eqb_neq, Z.leb_gt, Z.ltb_ge, forallb_forall.
  unfold size, count. split.
  - intros ((A & B) & C). split; [|split].
    + intros E. rewrite E in A. cbn in A. lia.
    + lia.
    + intros tr H. apply C in H. apply Z.eqb_eq in H. lia.
  - intros (A & B & C). split; [split|].
    + destruct (timestamps_seconds sc); [congruence|cbn; lia].
    + lia.
    + intros tr H. apply Z.eqb_eq. rewrite (C tr H). reflexivity.
Qed.

(** The pieces of a successful conversion. *)
Lemma conversion_parts pf sc cfg l : scenario_to_example pf sc cfg = Ok l ->
  well_formed sc /\ exists road lights agents,
    add_roadgraph_samples pf cfg (map_features sc) = Ok road
    /\ add_traffic_light_features cfg sc (num_steps cfg - 1) = Ok lights
    /\ add_sdc_and_agents_features pf cfg sc (num_steps cfg - 1) = Ok agents
    /\ l = [Counter "Num_Attempted_TF_Examples" 1; Counter "Valid_Scenario" 1]
           ++ ([Feature "scenario/id" (VBytes (scenario_id sc))] ++ road ++ lights ++ agents)
           ++ [Counter "Num_Success_Generate_TF_Examples" 1].
Proof.
  intros H. unfold scenario_to_example in H. destruct (validate_scenario sc) eqn:V; [|discriminate].
  cbn [negb] in H. split; [apply validate_iff; exact V|].
  destruct (add_tf_features pf sc cfg (num_steps cfg - 1)) as [f|] eqn:E; [|discriminate].
  cbn [bind] in H. apply Ok_inj in H. unfold add_tf_features in E.
  destruct (add_roadgraph_samples pf cfg (map_features sc)) as [road|]; [|discriminate].
  cbn [bind] in E.
  destruct (add_traffic_light_features cfg sc (num_steps cfg - 1)) as [lights|]; [|discriminate].
  cbn [bind] in E.
  destruct (add_sdc_and_agents_features pf cfg sc (num_steps cfg - 1)) as [agents|]; [|discriminate].
  cbn [bind] in E. apply Ok_inj in E. subst f.
  exists road, lights, agents. repeat split. symmetry. exact H.
Qed.

Lemma agents_keys pf cfg sc modeled context rows l :
  agents_log pf cfg sc modeled context rows l -> keys_in state_keys l.
Proof.
  intros (tail_rows & _ & ->). apply keys_app; [keys_concrete|].
  apply keys_app; [|apply keys_app; [keys_concrete|]];
    apply keys_flat_map; intros row _; apply keys_app; first [apply header_keys | apply body_keys].
Qed.

Lemma agents_state_tensor pf cfg sc modeled context rows l f name :
  1 <= num_past_steps cfg -> 0 <= num_future_steps cfg ->
  agents_log pf cfg sc modeled context rows l -> In name state_names ->
  map Some (tensor (state_key f name) l) = state_tensor pf sc cfg rows f name.
Proof.
  intros HP HF (tail_rows & -> & ->) Hn. unfold state_tensor.
  assert (E : forall rs, map Some (tensor (state_key f name)
      (flat_map (fun row => header sc modeled row ++ body pf cfg sc row) rs))
      = flat_map (fun row => map (fun t => state_field pf sc name t (shown sc row t))
                               (frame_steps cfg f)) rs).
  { intros rs. rewrite tensor_flat_map, map_flat_map. apply flat_map_ext. intros row.
    rewrite tensor_app, header_state_tensor by exact Hn. cbn [app]. apply body_tensor; assumption. }
  rewrite !tensor_app, !map_app, !E, flat_map_app.
  reflexivity.
Qed.

Lemma agents_agent_tensor pf cfg sc modeled context rows l name :
  agents_log pf cfg sc modeled context rows l -> In name agent_names ->
  map Some (tensor ("state/" ++ name)%string l) = map (agent_field sc modeled name) rows.
Proof.
  intros (tail_rows & -> & ->) Hn.
  assert (E : forall rs, map Some (tensor ("state/" ++ name)%string
      (flat_map (fun row => header sc modeled row ++ body pf cfg sc row) rs))
      = map (agent_field sc modeled name) rs).
  { intros rs. rewrite tensor_flat_map, map_flat_map, <- flat_map_single. apply flat_map_ext.
    intros row. rewrite tensor_app, map_app, header_tensor by exact Hn.
    rewrite body_agent_tensor by exact Hn. reflexivity. }
  rewrite !tensor_app, !map_app, !E. reflexivity.
Qed.

(** What a tensor of the whole example is, by the family of its key. *)
Lemma whole_tensor k a road lights agents :
  let l := [Counter "Num_Attempted_TF_Examples" 1; Counter "Valid_Scenario" 1]
           ++ ([Feature "scenario/id" (VBytes a)] ++ road ++ lights ++ agents)
           ++ [Counter "Num_Success_Generate_TF_Examples" 1] in
  keys_in known_road_keys road -> keys_in light_keys lights -> keys_in state_keys agents ->
  tensor k l = tensor k [Feature "scenario/id" (VBytes a)] ++ tensor k road ++ tensor k lights
               ++ tensor k agents.
Proof.
  intros l _ _ _. unfold l. rewrite !tensor_app. cbn [tensor flat_map app]. rewrite !app_nil_r.
  reflexivity.
Qed.

(** Membership of names by computation. *)
Definition smem (k : string) (ks : list string) : bool := existsb (String.eqb k) ks.
Lemma smem_in k ks : smem k ks = true <-> In k ks.
Proof.
  unfold smem. rewrite existsb_exists. split.
  - intros (x & H & E). apply String.eqb_eq in E. subst. exact H.
  - intros H. exists k. split; [exact H|apply String.eqb_refl].
Qed.
Lemma smem_not k ks : smem k ks = false -> ~ In k ks.
Proof. intros H C. apply smem_in in C. congruence. Qed.
Lemma disjoint_by ks ks' : forallb (fun k => negb (smem k ks')) ks = true ->
  forall k, In k ks -> ~ In k ks'.
Proof.
  intros H k Hk. rewrite forallb_forall in H. apply smem_not. apply H in Hk.
  apply negb_true_iff in Hk. exact Hk.
Qed.
Lemma incl_by ks ks' : forallb (fun k => smem k ks') ks = true -> incl ks ks'.
Proof. intros H k Hk. rewrite forallb_forall in H. apply smem_in, H, Hk. Qed.

Lemma in_frames f : In f frames.
Proof. destruct f; cbn; auto. Qed.

Section Whole.
Variables (pf : platform) (sc : scenario) (cfg : config) (l : log).
Hypothesis PO : platform_ok pf.
Hypothesis RP : representable sc cfg.
Hypothesis SP : (0 < source_polyline_spacing cfg)%Q.
Hypothesis FU : 0 <= num_future_steps cfg.
Hypothesis FN : finite_now sc cfg.
Hypothesis OK : scenario_to_example pf sc cfg = Ok l.

Lemma whole_steps : 1 <= num_past_steps cfg <= count (timestamps_seconds sc).
Proof.
  destruct (conversion_parts pf sc cfg l OK) as (W & road & lights & agents & E1 & E2 & E3 & El).
  destruct (agents_ok pf cfg sc agents PO W RP FN E3) as [HP _]. exact HP.
Qed.

Lemma disjoint_keys :
  (forall n, In n road_names -> ~ In ("roadgraph_samples/" ++ n)%string light_keys
      /\ ~ In ("roadgraph_samples/" ++ n)%string state_keys)
  /\ (forall f n, In n ("timestamp_micros" :: light_names)%string ->
      ~ In (light_key f n) known_road_keys /\ ~ In (light_key f n) state_keys)
  /\ (forall n, In n agent_names -> ~ In ("state/" ++ n)%string known_road_keys
      /\ ~ In ("state/" ++ n)%string light_keys)
  /\ (forall f n, In n state_names -> ~ In (state_key f n) known_road_keys
      /\ ~ In (state_key f n) light_keys).
Proof using.
  clear.
  assert (R : forall n, In n road_names -> In ("roadgraph_samples/" ++ n)%string known_road_keys)
    by (intros n Hn; apply in_map; exact Hn).
  assert (L : forall f n, In n ("timestamp_micros" :: light_names)%string -> In (light_key f n) light_keys)
    by (intros f n Hn; apply in_flat_map; exists f; split; [apply in_frames|apply in_map; exact Hn]).
  assert (A : forall n, In n agent_names -> In ("state/" ++ n)%string state_keys)
    by (intros n Hn; apply in_or_app; left; apply (in_map (fun n => ("state/" ++ n)%string)); exact Hn).
  assert (S : forall f n, In n state_names -> In (state_key f n) state_keys)
    by (intros f n Hn; apply in_or_app; right; apply in_flat_map; exists f;
        split; [apply in_frames|apply in_map; exact Hn]).
  assert (D1 : forallb (fun k => negb (smem k light_keys)) known_road_keys = true)
    by (vm_compute; reflexivity).
  assert (D2 : forallb (fun k => negb (smem k state_keys)) known_road_keys = true)
    by (vm_compute; reflexivity).
  assert (D3 : forallb (fun k => negb (smem k known_road_keys)) light_keys = true)
    by (vm_compute; reflexivity).
  assert (D4 : forallb (fun k => negb (smem k state_keys)) light_keys = true)
    by (vm_compute; reflexivity).
  assert (D5 : forallb (fun k => negb (smem k known_road_keys)) state_keys = true)
    by (vm_compute; reflexivity).
  assert (D6 : forallb (fun k => negb (smem k light_keys)) state_keys = true)
    by (vm_compute; reflexivity).
  split; [|split; [|split]].
  - intros n Hn. split; eapply disjoint_by; try (apply R; exact Hn); assumption.
  - intros f n Hn. split; eapply disjoint_by; try (apply L; exact Hn); assumption.
  - intros n Hn. split; eapply disjoint_by; try (apply A; exact Hn); assumption.
  - intros f n Hn. split; eapply disjoint_by; try (apply S; exact Hn); assumption.
Qed.

Theorem whole_road name : In name road_names ->
  tensor ("roadgraph_samples/" ++ name)%string l = road_tensor pf cfg (map_features sc) name.
Proof.
  intros Hn. destruct (conversion_parts pf sc cfg l OK) as (W & road & lights & agents & E1 & E2 & E3 & El).
  destruct (agents_ok pf cfg sc agents PO W RP FN E3) as (_ & modeled & context & rows & _ & AL).
  pose proof (road_keys pf cfg _ _ SP E1) as K1. pose proof (traffic_keys cfg sc _ E2) as K2.
  pose proof (agents_keys _ _ _ _ _ _ _ AL) as K3.
  destruct disjoint_keys as (D & _). destruct (D name Hn) as [D1 D2].
  rewrite El, whole_tensor by assumption.
  rewrite (tensor_absent _ _ _ K2 D1), (tensor_absent _ _ _ K3 D2).
  rewrite (road_tensors pf cfg _ _ name SP E1 Hn).
  replace (tensor ("roadgraph_samples/" ++ name)%string [Feature "scenario/id" (VBytes (scenario_id sc))])
    with (@nil value).
  - cbn [app]. rewrite !app_nil_r. reflexivity.
  - clear - Hn. cbn in Hn. repeat (destruct Hn as [<-|Hn]; [reflexivity|]); destruct Hn.
Qed.

Theorem whole_lights f name : In name light_names ->
  map Some (tensor (light_key f name) l) = light_tensor sc cfg f name.
Proof.
  intros Hn. destruct (conversion_parts pf sc cfg l OK) as (W & road & lights & agents & E1 & E2 & E3 & El).
  destruct (agents_ok pf cfg sc agents PO W RP FN E3) as (HP & modeled & context & rows & _ & AL).
  pose proof (road_keys pf cfg _ _ SP E1) as K1. pose proof (traffic_keys cfg sc _ E2) as K2.
  pose proof (agents_keys _ _ _ _ _ _ _ AL) as K3.
  destruct disjoint_keys as (_ & D & _). destruct (D f name (or_intror Hn)) as [D1 D2].
  rewrite El, whole_tensor by assumption.
  rewrite (tensor_absent _ _ _ K1 D1), (tensor_absent _ _ _ K3 D2).
  rewrite !map_app.
  rewrite (light_tensors cfg sc lights f name (proj1 HP) FU E2 Hn).
  replace (tensor (light_key f name) [Feature "scenario/id" (VBytes (scenario_id sc))])
    with (@nil value).
  - cbn [app map]. rewrite !app_nil_r. reflexivity.
  - clear - Hn. cbn in Hn. destruct f; repeat (destruct Hn as [<-|Hn]; [reflexivity|]); destruct Hn.
Qed.

Theorem whole_light_times f :
  tensor (light_key f "timestamp_micros") l = map (light_time sc) (frame_steps cfg f).
Proof.
  destruct (conversion_parts pf sc cfg l OK) as (W & road & lights & agents & E1 & E2 & E3 & El).
  destruct (agents_ok pf cfg sc agents PO W RP FN E3) as (HP & modeled & context & rows & _ & AL).
  pose proof (road_keys pf cfg _ _ SP E1) as K1. pose proof (traffic_keys cfg sc _ E2) as K2.
  pose proof (agents_keys _ _ _ _ _ _ _ AL) as K3.
  destruct disjoint_keys as (_ & D & _).
  destruct (D f "timestamp_micros"%string (or_introl eq_refl)) as [D1 D2].
  rewrite El, whole_tensor by assumption.
  rewrite (tensor_absent _ _ _ K1 D1), (tensor_absent _ _ _ K3 D2).
  rewrite (light_times cfg sc lights f (proj1 HP) FU E2).
  replace (tensor (light_key f "timestamp_micros") [Feature "scenario/id" (VBytes (scenario_id sc))])
    with (@nil value).
  - cbn [app]. rewrite !app_nil_r. reflexivity.
  - clear. destruct f; reflexivity.
Qed.

Theorem whole_id : tensor "scenario/id" l = [VBytes (scenario_id sc)].
Proof.
  destruct (conversion_parts pf sc cfg l OK) as (W & road & lights & agents & E1 & E2 & E3 & El).
  destruct (agents_ok pf cfg sc agents PO W RP FN E3) as (HP & modeled & context & rows & _ & AL).
  pose proof (road_keys pf cfg _ _ SP E1) as K1. pose proof (traffic_keys cfg sc _ E2) as K2.
  pose proof (agents_keys _ _ _ _ _ _ _ AL) as K3.
  rewrite El, whole_tensor by assumption.
  rewrite (tensor_absent _ "scenario/id" _ K1), (tensor_absent _ "scenario/id" _ K2),
    (tensor_absent _ "scenario/id" _ K3) by (clear; apply smem_not; vm_compute; reflexivity).
  reflexivity.
Qed.

Theorem whole_agents : exists modeled context rows,
  rows_ok pf sc cfg modeled context rows
  /\ (forall f name, In name state_names ->
        map Some (tensor (state_key f name) l) = state_tensor pf sc cfg rows f name)
  /\ (forall name, In name agent_names ->
        map Some (tensor ("state/" ++ name)%string l) = map (agent_field sc modeled name) rows).
Proof.
  destruct (conversion_parts pf sc cfg l OK) as (W & road & lights & agents & E1 & E2 & E3 & El).
  destruct (agents_ok pf cfg sc agents PO W RP FN E3) as (HP & modeled & context & rows & RO & AL).
  pose proof (road_keys pf cfg _ _ SP E1) as K1. pose proof (traffic_keys cfg sc _ E2) as K2.
  pose proof (agents_keys _ _ _ _ _ _ _ AL) as K3.
  exists modeled, context, rows. split; [exact RO|].
  destruct disjoint_keys as (_ & _ & D & D'). split.
  - intros f name Hn. destruct (D' f name Hn) as [D1 D2].
    rewrite El, whole_tensor by assumption.
    rewrite (tensor_absent _ _ _ K1 D1), (tensor_absent _ _ _ K2 D2). rewrite !map_app.
    rewrite (agents_state_tensor _ _ _ _ _ _ _ f name (proj1 HP) FU AL Hn).
    replace (tensor (state_key f name) [Feature "scenario/id" (VBytes (scenario_id sc))])
      with (@nil value); [reflexivity|].
    clear - Hn. cbn in Hn. destruct f; repeat (destruct Hn as [<-|Hn]; [reflexivity|]); destruct Hn.
  - intros name Hn. destruct (D name Hn) as [D1 D2].
    rewrite El, whole_tensor by assumption.
    rewrite (tensor_absent _ _ _ K1 D1), (tensor_absent _ _ _ K2 D2). rewrite !map_app.
    rewrite (agents_agent_tensor _ _ _ _ _ _ _ name AL Hn).
    replace (tensor ("state/" ++ name)%string [Feature "scenario/id" (VBytes (scenario_id sc))])
      with (@nil value); [reflexivity|].
    clear - Hn. cbn in Hn. repeat (destruct Hn as [<-|Hn]; [reflexivity|]); destruct Hn.
Qed.

(** Shapes. *)
Lemma flat_map_length_const {A B} (f : A -> list B) k xs : (forall x, List.length (f x) = k) ->
  List.length (flat_map f xs) = (List.length xs * k)%nat.
Proof using.
  intros H. induction xs as [|x xs IH]; [reflexivity|]. cbn [flat_map List.length].
  rewrite app_length, H, IH. lia.
Qed.

Lemma frame_steps_length c f : 1 <= num_past_steps c -> 0 <= num_future_steps c ->
  Z.of_nat (List.length (frame_steps c f)) = frame_length c f.
Proof using.
  clear. intros HP HF. destruct f; cbn [frame_steps frame_length]; rewrite ?seq_length; cbn; lia.
Qed.

Theorem whole_shapes k n : In (k, n) (shapes cfg) -> count (tensor k l) = n.
Proof.
  intros H. destruct whole_steps as [HP _].
  assert (LR : forall name, In name ["id"; "type"; "valid"]%string ->
    count (tensor ("roadgraph_samples/" ++ name)%string l) = Z.max 0 (max_roadgraph_samples cfg)).
  { intros name Hn. rewrite whole_road.
    - pose proof (kept_length pf cfg (map_features sc)) as K. unfold road_tensor, count. clear - Hn K.
      cbn in Hn. destruct Hn as [<-|[<-|[<-|[]]]]; rewrite app_length, map_length, repeat_length; lia.
    - clear - Hn. cbn in *. tauto. }
  assert (LV : forall name, In name ["xyz"; "dir"]%string ->
    count (tensor ("roadgraph_samples/" ++ name)%string l) = 3 * Z.max 0 (max_roadgraph_samples cfg)).
  { intros name Hn. rewrite whole_road.
    - pose proof (kept_length pf cfg (map_features sc)) as K. unfold road_tensor, count. clear - Hn K.
      cbn in Hn. destruct Hn as [<-|[<-|[]]]; rewrite app_length, repeat_length;
        rewrite (flat_map_length_const _ 3) by reflexivity; rewrite ?directions_length; lia.
    - clear - Hn. cbn in *. tauto. }
  unfold shapes in H. apply in_app_or in H. destruct H as [H|H].
  { cbn in H. destruct H as [H|[]]. injection H as <- <-. rewrite whole_id. reflexivity. }
  apply in_app_or in H. destruct H as [H|H].
  { apply in_map_iff in H. destruct H as (name & E & Hn). injection E as <- <-. apply LR. exact Hn. }
  apply in_app_or in H. destruct H as [H|H].
  { apply in_map_iff in H. destruct H as (name & E & Hn). injection E as <- <-. apply LV. exact Hn. }
  apply in_app_or in H. destruct H as [H|H].
  { apply in_flat_map in H. destruct H as (f & _ & H). apply in_map_iff in H.
    destruct H as (name & E & Hn). injection E as <- <-.
    unfold count. rewrite <- (map_length Some), whole_lights by exact Hn. unfold light_tensor.
    rewrite (flat_map_length_const _ (Z.to_nat (max_traffic_light_control_points_per_step cfg)))
      by (intros; rewrite map_length, seq_length; reflexivity).
    rewrite Nat2Z.inj_mul, (frame_steps_length cfg f HP FU). f_equal. lia. }
  apply in_app_or in H. destruct H as [H|H].
  { apply in_map_iff in H. destruct H as (f & E & _). injection E as <- <-.
    rewrite whole_light_times. unfold count. rewrite map_length. apply frame_steps_length; assumption. }
  destruct whole_agents as (modeled & context & rows & RO & TS & TA).
  pose proof (ro_length _ _ _ _ _ _ RO) as LL. unfold count in LL.
  apply in_app_or in H. destruct H as [H|H].
  { apply in_map_iff in H. destruct H as (name & E & Hn). apply pair_equal_spec in E.
    destruct E as [<- <-].
    unfold count. rewrite <- (map_length Some), TA by exact Hn. rewrite map_length. exact LL. }
  apply in_flat_map in H. destruct H as (f & _ & H). apply in_map_iff in H.
  destruct H as (name & E & Hn). apply pair_equal_spec in E. destruct E as [<- <-].
  unfold count. rewrite <- (map_length Some), TS by exact Hn. unfold state_tensor.
  rewrite (flat_map_length_const _ (List.length (frame_steps cfg f)))
    by (intros; rewrite map_length; reflexivity).
  rewrite Nat2Z.inj_mul, (frame_steps_length cfg f HP FU), LL. reflexivity.
Qed.

Theorem whole_absent k : ~ In k (map fst (shapes cfg)) -> tensor k l = [].
Proof.
  intros H. destruct (conversion_parts pf sc cfg l OK) as (W & road & lights & agents & E1 & E2 & E3 & El).
  destruct (agents_ok pf cfg sc agents PO W RP FN E3) as (HP & modeled & context & rows & RO & AL).
  pose proof (road_keys pf cfg _ _ SP E1) as K1. pose proof (traffic_keys cfg sc _ E2) as K2.
  pose proof (agents_keys _ _ _ _ _ _ _ AL) as K3.
  rewrite El, whole_tensor by assumption.
  rewrite (tensor_absent _ k _ K1), (tensor_absent _ k _ K2), (tensor_absent _ k _ K3).
  - cbn [tensor flat_map]. destruct (String.eqb_spec "scenario/id" k) as [E|]; [|reflexivity].
    exfalso. apply H. rewrite <- E. left. reflexivity.
  - intros C. apply H. revert C. apply incl_by. vm_compute. reflexivity.
  - intros C. apply H. revert C. apply incl_by. vm_compute. reflexivity.
  - intros C. apply H. revert C. apply incl_by. vm_compute. reflexivity.
Qed.
End Whole.
