(** Traffic light and state tensors of the scenario conversion. *)
From Coq Require Import String Sorting.Permutation.
From Verif Require Import Base ResultLib MonadLib ListLib ScenarioModel ScenarioSpec ScenarioRoadProofs.
Open Scope list_scope.
Open Scope Z_scope.

(** ** Time frames *)
Definition frame_at (cfg : config) (t : nat) : frame :=
  if Z.of_nat t <? num_past_steps cfg - 1 then Past
  else if Z.of_nat t =? num_past_steps cfg - 1 then Current
  else Future.
Lemma time_frame_name cfg t : time_frame cfg (Z.of_nat t) = frame_name (frame_at cfg t).
Proof.
  unfold time_frame, frame_at.
  destruct (Z.of_nat t <? num_past_steps cfg - 1); [reflexivity|].
  destruct (Z.of_nat t =? num_past_steps cfg - 1); reflexivity.
Qed.
Definition same_frame (f g : frame) : bool :=
  match f, g with Past, Past | Current, Current | Future, Future => true | _, _ => false end.

Lemma flat_map_nil {A B} (f : A -> list B) l : (forall x, In x l -> f x = []) -> flat_map f l = [].
Proof.
  induction l as [|x l IH]; intros H; [reflexivity|]. cbn [flat_map].
  rewrite H by (left; reflexivity). apply IH. intros y Hy. apply H. right. exact Hy.
Qed.
Lemma flat_map_ext_in {A B} (f g : A -> list B) l : (forall x, In x l -> f x = g x) ->
  flat_map f l = flat_map g l.
Proof.
  induction l as [|x l IH]; intros H; [reflexivity|]. cbn [flat_map].
  rewrite H by (left; reflexivity). f_equal. apply IH. intros y Hy. apply H. right. exact Hy.
Qed.

Lemma all_steps cfg : 1 <= num_past_steps cfg -> 0 <= num_future_steps cfg ->
  seq 0 (Z.to_nat (num_steps cfg)) =
  frame_steps cfg Past ++ frame_steps cfg Current ++ frame_steps cfg Future.
Proof.
  intros HP HF. unfold num_steps, frame_steps.
  replace (Z.to_nat (num_future_steps cfg + num_past_steps cfg))
    with (Z.to_nat (num_past_steps cfg - 1) + (1 + Z.to_nat (num_future_steps cfg)))%nat by lia.
  rewrite seq_app, seq_app. cbn [seq app Nat.add]. f_equal. f_equal.
  replace (Z.to_nat (num_past_steps cfg - 1) + 1)%nat with (Z.to_nat (num_past_steps cfg)) by lia.
  reflexivity.
Qed.

Lemma frame_of_step cfg f t : 1 <= num_past_steps cfg -> In t (frame_steps cfg f) -> frame_at cfg t = f.
Proof.
  intros HP H. unfold frame_at. destruct f; cbn [frame_steps] in H.
  - apply in_seq in H. destruct (Z.ltb_spec (Z.of_nat t) (num_past_steps cfg - 1)); [reflexivity|lia].
  - cbn [In] in H. destruct H as [<-|[]].
    rewrite Z2Nat.id by lia. rewrite Z.ltb_irrefl, Z.eqb_refl. reflexivity.
  - apply in_seq in H. destruct (Z.ltb_spec (Z.of_nat t) (num_past_steps cfg - 1)); [lia|].
    destruct (Z.eqb_spec (Z.of_nat t) (num_past_steps cfg - 1)); [lia|reflexivity].
Qed.

Lemma flat_steps {B} cfg f (h : nat -> list B) :
  1 <= num_past_steps cfg -> 0 <= num_future_steps cfg ->
  flat_map (fun t => if same_frame (frame_at cfg t) f then h t else [])
           (seq 0 (Z.to_nat (num_steps cfg))) = flat_map h (frame_steps cfg f).
Proof.
  intros HP HF. rewrite all_steps, !flat_map_app by assumption.
  assert (A : forall g, flat_map (fun t => if same_frame (frame_at cfg t) f then h t else [])
                          (frame_steps cfg g)
              = if same_frame g f then flat_map h (frame_steps cfg g) else []).
  { intros g. destruct (same_frame g f) eqn:E.
    - apply flat_map_ext_in. intros t Ht. rewrite (frame_of_step cfg g t HP Ht), E. reflexivity.
    - apply flat_map_nil. intros t Ht. rewrite (frame_of_step cfg g t HP Ht), E. reflexivity. }
  rewrite !A. destruct f; cbn [same_frame app]; rewrite ?app_nil_r; reflexivity.
Qed.

Lemma flat_map_single {A B} (f : A -> B) l : flat_map (fun x => [f x]) l = map f l.
Proof. induction l as [|x l IH]; [reflexivity|]. cbn [flat_map map app]. rewrite IH. reflexivity. Qed.

Lemma last_step_id cfg t : num_steps cfg - 1 - (num_steps cfg - 1 - t) = t.
Proof. lia. Qed.

(** ** Times *)
Lemma micros_at_ok ts t : micros_at ts (Z.of_nat t) =
  Ok (match nth_error ts t with Some s => micros s | None => -1000000 end).
Proof.
  unfold micros_at. destruct (Z.ltb_spec (Z.of_nat t) (size ts)) as [H|H]; unfold size in H.
  - destruct (nth_error ts t) as [s|] eqn:E; [|apply nth_error_None in E; lia].
    rewrite (at_index_some ts (Z.of_nat t) s) by (rewrite ?Nat2Z.id; try lia; exact E). reflexivity.
  - replace (nth_error ts t) with (@None Q) by (symmetry; apply nth_error_None; lia). reflexivity.
Qed.

(** ** Traffic lights *)
Definition light_log (prefix : string) (cfg : config) (sc : scenario) (t : nat) : log :=
  [Feature (prefix ++ "timestamp_micros")%string (light_time sc t)]
  ++ flat_map (fun i => lane_features prefix (light sc t i))
       (seq 0 (Z.to_nat (max_traffic_light_control_points_per_step cfg))).
Definition light_counts (cfg : config) (sc : scenario) (t : nat) : log :=
  let m := max_traffic_light_control_points_per_step cfg in
  match lights_at sc t with
  | None => [Counter "Padded_Traffic_Light_State_Features" m]
  | Some s => [Counter "Actual_Traffic_Light_State_Features" (count s);
               Counter "Padded_Traffic_Light_State_Features" (m - count s)]
  end.
Definition light_prefix (f : frame) : string := ("traffic_light_state/" ++ frame_name f ++ "/")%string.
Definition light_warn (sc : scenario) (t : nat) : log :=
  match lights_at sc t with
  | None => [Counter "Traffic_Light_State_Not_Enough_Steps" 1] | Some _ => [] end.

Lemma traffic_step_ok cfg sc t :
  traffic_step cfg sc (num_steps cfg - 1) (Z.of_nat t) =
  Ok (light_warn sc t ++ light_log (light_prefix (frame_at cfg t)) cfg sc t ++ light_counts cfg sc t).
Proof.
  unfold traffic_step. cbv zeta. rewrite last_step_id, time_frame_name, micros_at_ok.
  unfold light_warn, light_log, light_counts, light_time, light, lights_at, light_prefix.
  destruct (Z.leb_spec (size (dynamic_map_states sc)) (Z.of_nat t)) as [H|H]; unfold size in H.
  - replace (nth_error (dynamic_map_states sc) t) with (@None (list lane_state))
      by (symmetry; apply nth_error_None; lia).
    cbn [bind]. rewrite <- !app_assoc. reflexivity.
  - destruct (nth_error (dynamic_map_states sc) t) as [s|] eqn:E; [|apply nth_error_None in E; lia].
    rewrite (at_index_some _ (Z.of_nat t) s) by (rewrite ?Nat2Z.id; try lia; exact E).
    cbn [bind]. rewrite <- !app_assoc. reflexivity.
Qed.

Lemma mapM_map {A B C} (f : B -> result C) (g : A -> B) (h : A -> C) l :
  (forall x, f (g x) = Ok (h x)) -> mapM f (map g l) = Ok (map h l).
Proof.
  intros H. induction l as [|x l IH]; [reflexivity|].
  cbn [map mapM]. rewrite H. cbn [bind]. rewrite IH. reflexivity.
Qed.

Theorem traffic_log cfg sc :
  add_traffic_light_features cfg sc (num_steps cfg - 1) =
  Ok (flat_map (fun t => light_warn sc t ++ light_log (light_prefix (frame_at cfg t)) cfg sc t
                         ++ light_counts cfg sc t) (seq 0 (Z.to_nat (num_steps cfg)))).
Proof.
  unfold add_traffic_light_features, steps.
  rewrite (mapM_map _ _ _ _ (traffic_step_ok cfg sc)). cbn [bind].
  rewrite flat_map_concat_map. reflexivity.
Qed.

Lemma light_step_tensor cfg sc t f name : In name light_names ->
  map Some (tensor (light_key f name)
    (light_warn sc t ++ light_log (light_prefix (frame_at cfg t)) cfg sc t ++ light_counts cfg sc t))
  = if same_frame (frame_at cfg t) f
    then map (fun i => light_field name (light sc t i))
             (seq 0 (Z.to_nat (max_traffic_light_control_points_per_step cfg)))
    else [].
Proof.
  intros Hn. rewrite !tensor_app. unfold light_log. rewrite tensor_app, tensor_flat_map.
  replace (tensor (light_key f name) (light_warn sc t)) with (@nil value)
    by (unfold light_warn; destruct (lights_at sc t); reflexivity).
  replace (tensor (light_key f name) (light_counts cfg sc t)) with (@nil value)
    by (unfold light_counts; destruct (lights_at sc t); reflexivity).
  replace (tensor (light_key f name)
            [Feature (light_prefix (frame_at cfg t) ++ "timestamp_micros")%string (light_time sc t)])
    with (@nil value)
    by (cbn [In light_names] in Hn; destruct (frame_at cfg t), f;
        repeat (destruct Hn as [<-|Hn]; [reflexivity|]); destruct Hn).
  cbn [app]. rewrite app_nil_r.
  assert (E : forall i, map Some (tensor (light_key f name)
                (lane_features (light_prefix (frame_at cfg t)) (light sc t i)))
              = if same_frame (frame_at cfg t) f then [light_field name (light sc t i)] else []).
  { intros i. cbn [In light_names] in Hn. destruct (light sc t i); destruct (frame_at cfg t), f;
      repeat (destruct Hn as [<-|Hn]; [reflexivity|]); destruct Hn. }
  induction (seq 0 _) as [|i is IH]; cbn [flat_map map].
  - destruct (same_frame _ _); reflexivity.
  - rewrite map_app, E, IH. destruct (same_frame _ _); reflexivity.
Qed.

Lemma map_flat_map {A B C} (g : B -> C) (f : A -> list B) l :
  map g (flat_map f l) = flat_map (fun x => map g (f x)) l.
Proof. induction l as [|x l IH]; [reflexivity|]. cbn [flat_map]. rewrite map_app, IH. reflexivity. Qed.

Theorem light_tensors cfg sc l f name :
  1 <= num_past_steps cfg -> 0 <= num_future_steps cfg ->
  add_traffic_light_features cfg sc (num_steps cfg - 1) = Ok l -> In name light_names ->
  map Some (tensor (light_key f name) l) = light_tensor sc cfg f name.
Proof.
  intros HP HF H Hn. rewrite traffic_log in H. apply Ok_inj in H. subst l.
  rewrite tensor_flat_map, map_flat_map.
  rewrite (flat_map_ext _ _ (fun t => light_step_tensor cfg sc t f name Hn)).
  apply flat_steps; assumption.
Qed.

Theorem light_times cfg sc l f :
  1 <= num_past_steps cfg -> 0 <= num_future_steps cfg ->
  add_traffic_light_features cfg sc (num_steps cfg - 1) = Ok l ->
  tensor (light_key f "timestamp_micros") l = map (light_time sc) (frame_steps cfg f).
Proof.
  intros HP HF H. rewrite traffic_log in H. apply Ok_inj in H. subst l.
  rewrite tensor_flat_map.
  assert (E : forall t, tensor (light_key f "timestamp_micros")
    (light_warn sc t ++ light_log (light_prefix (frame_at cfg t)) cfg sc t ++ light_counts cfg sc t)
    = if same_frame (frame_at cfg t) f then [light_time sc t] else []).
  { intros t. rewrite !tensor_app. unfold light_log. rewrite tensor_app, tensor_flat_map.
    replace (tensor (light_key f "timestamp_micros") (light_warn sc t)) with (@nil value)
      by (unfold light_warn; destruct (lights_at sc t); reflexivity).
    replace (tensor (light_key f "timestamp_micros") (light_counts cfg sc t)) with (@nil value)
      by (unfold light_counts; destruct (lights_at sc t); reflexivity).
    rewrite (flat_map_nil _ (seq 0 _)).
    2:{ intros i _. destruct (light sc t i); destruct (frame_at cfg t), f; reflexivity. }
    destruct (frame_at cfg t), f; reflexivity. }
  rewrite (flat_map_ext _ _ E). rewrite flat_steps by assumption. apply flat_map_single.
Qed.

Definition light_keys : list string :=
  flat_map (fun f => map (light_key f) ("timestamp_micros" :: light_names)%string) frames.

Lemma lane_keys f s : keys_in light_keys (lane_features (light_prefix f) s).
Proof. destruct f, s; unfold lane_features; keys_concrete. Qed.

Theorem traffic_keys cfg sc l :
  add_traffic_light_features cfg sc (num_steps cfg - 1) = Ok l -> keys_in light_keys l.
Proof.
  intros H. rewrite traffic_log in H. apply Ok_inj in H. subst l.
  apply keys_flat_map. intros t _. apply keys_app; [|apply keys_app].
  - unfold light_warn. destruct (lights_at sc t); keys_concrete.
  - unfold light_log. apply keys_app; [|apply keys_flat_map; intros i _; apply lane_keys].
    destruct (frame_at cfg t); keys_concrete.
  - unfold light_counts. destruct (lights_at sc t); keys_concrete.
Qed.

(** ** States *)
Definition state_prefix (f : frame) : string := ("state/" ++ frame_name f ++ "/")%string.
Definition step_features (pf : platform) (sc : scenario) (f : frame) (t : nat)
    (st : option object_state) : log :=
  [Feature (state_prefix f ++ "timestamp_micros")%string
     (VInt (match st with Some _ => micros (nth t (timestamps_seconds sc) 0%Q) | None => -1 end));
   Feature (state_prefix f ++ "valid")%string (flag (is_some st))]
  ++ (match st with None => [] | Some _ => [Counter "Valid_Object_State" 1] end)
  ++ map (fun kv => Feature (state_prefix f ++ fst kv)%string (snd kv)) (state_values pf st).

Definition row_ok (sc : scenario) (row : option nat) : Prop :=
  match row with Some i => (i < List.length (tracks sc))%nat | None => True end.

Definition step_warn (sc : scenario) (row : option nat) (t : nat) : log :=
  match row with
  | Some i => if size (states (track_of sc i)) <=? Z.of_nat t
              then [Counter "Track_State_Not_Enough_Steps" 1] else []
  | None => []
  end.

Lemma the_track_of sc i : (i < List.length (tracks sc))%nat -> the_track sc i = Some (track_of sc i).
Proof. intros H. apply nth_error_nth'. exact H. Qed.

Lemma state_step_ok pf cfg sc row t : well_formed sc -> row_ok sc row ->
  state_step pf cfg (timestamps_seconds sc) (num_steps cfg - 1) (option_map (track_of sc) row)
    (Z.of_nat t)
  = Ok (step_warn sc row t ++ step_features pf sc (frame_at cfg t) t (shown sc row t)).
Proof.
  intros (_ & _ & WF) R. unfold state_step. cbv zeta.
  rewrite last_step_id, time_frame_name, micros_at_ok.
  fold (state_prefix (frame_at cfg t)).
  destruct row as [i|]; cbn [option_map shown step_warn row_ok] in *; [|reflexivity].
  pose proof (the_track_of sc i R) as T. rewrite T.
  unfold valid_state. unfold the_track in T. rewrite T.
  set (tr := track_of sc i) in *.
  assert (L : List.length (states tr) = List.length (timestamps_seconds sc)).
  { apply WF. apply nth_error_In in T. exact T. }
  destruct (object_type tr =? 0) eqn:OT; cbn [orb bind]; [reflexivity|].
  destruct (Z.leb_spec (size (states tr)) (Z.of_nat t)) as [H|H]; unfold size in H.
  - replace (nth_error (states tr) t) with (@None object_state)
      by (symmetry; apply nth_error_None; lia). reflexivity.
  - destruct (nth_error (states tr) t) as [s|] eqn:E; [|apply nth_error_None in E; lia].
    rewrite (at_index_some _ (Z.of_nat t) s) by (rewrite ?Nat2Z.id; try lia; exact E).
    cbn [bind]. destruct (valid s) eqn:V; [|reflexivity].
    rewrite (nth_error_nth' (timestamps_seconds sc) 0%Q) by lia.
    unfold step_features, flag, is_some. rewrite V. reflexivity.
Qed.

Lemma step_tensor pf sc f g t st name : In name state_names ->
  map Some (tensor (state_key g name) (step_features pf sc f t st)) =
  if same_frame f g then [state_field pf sc name t st] else [].
Proof.
  intros Hn. cbn [In state_names] in Hn. destruct st as [s|]; destruct f, g;
    repeat (destruct Hn as [<-|Hn]; [reflexivity|]); destruct Hn.
Qed.

Lemma warn_tensor sc row t k : tensor k (step_warn sc row t) = [].
Proof. destruct row as [i|]; cbn [step_warn]; [|reflexivity]. destruct (_ <=? _); reflexivity. Qed.

(** The log of one row after its header. *)
Definition body (pf : platform) (cfg : config) (sc : scenario) (row : option nat) : log :=
  flat_map (fun t => step_warn sc row t ++ step_features pf sc (frame_at cfg t) t (shown sc row t))
           (seq 0 (Z.to_nat (num_steps cfg))).

Lemma body_ok pf cfg sc row : well_formed sc -> row_ok sc row ->
  mapM (state_step pf cfg (timestamps_seconds sc) (num_steps cfg - 1) (option_map (track_of sc) row))
    (steps cfg)
  = Ok (map (fun t => step_warn sc row t ++ step_features pf sc (frame_at cfg t) t (shown sc row t))
            (seq 0 (Z.to_nat (num_steps cfg)))).
Proof.
  intros W R. apply mapM_map. intros t. apply state_step_ok; assumption.
Qed.

Lemma body_tensor pf cfg sc row f name : 1 <= num_past_steps cfg -> 0 <= num_future_steps cfg ->
  In name state_names ->
  map Some (tensor (state_key f name) (body pf cfg sc row)) =
  map (fun t => state_field pf sc name t (shown sc row t)) (frame_steps cfg f).
Proof.
  intros HP HF Hn. unfold body. rewrite tensor_flat_map, map_flat_map.
  rewrite (flat_map_ext _ (fun t => if same_frame (frame_at cfg t) f
             then [state_field pf sc name t (shown sc row t)] else [])).
  - rewrite flat_steps by assumption. apply flat_map_single.
  - intros t. rewrite tensor_app, warn_tensor. cbn [app]. apply step_tensor. exact Hn.
Qed.

Definition state_keys : list string :=
  map (fun n => ("state/" ++ n)%string) agent_names
  ++ flat_map (fun f => map (state_key f) state_names) frames.

Lemma step_keys pf sc f t st : keys_in state_keys (step_features pf sc f t st).
Proof.
  destruct st as [s|]; destruct f; unfold step_features, state_values; cbn [map]; keys_concrete.
Qed.
Lemma body_keys pf cfg sc row : keys_in state_keys (body pf cfg sc row).
Proof.
  apply keys_flat_map. intros t _. apply keys_app; [|apply step_keys].
  destruct row as [i|]; cbn [step_warn]; [|keys_concrete]. destruct (_ <=? _); keys_concrete.
Qed.

Lemma body_agent_tensor pf cfg sc row name : In name agent_names ->
  tensor ("state/" ++ name)%string (body pf cfg sc row) = [].
Proof.
  intros Hn. unfold body. rewrite tensor_flat_map. apply flat_map_nil. intros t _.
  rewrite tensor_app, warn_tensor. cbn [app]. cbn [In agent_names] in Hn.
  destruct (shown sc row t) as [s|]; destruct (frame_at cfg t);
    repeat (destruct Hn as [<-|Hn]; [reflexivity|]); destruct Hn.
Qed.
