(** Selection and order of the agents of the scenario conversion. *)
From Coq Require Import String Sorting.Permutation Sorting.Sorted Lqa.
From Verif Require Import Base ResultLib MonadLib ListLib ScenarioModel ScenarioSpec
  ScenarioRoadProofs ScenarioStateProofs.
Open Scope list_scope.
Open Scope Z_scope.

(** ** Objects of interest *)
Lemma find_interest_ok step id : forall l i,
  find_interest true step id i l =
  Ok (find (fun j => match nth_error l (j - i) with Some tr => tr_id tr =? id | None => false end)
           (seq i (List.length l))).
Proof.
  induction l as [|tr l IH]; intros i; [reflexivity|].
  cbn [find_interest List.length seq find]. rewrite Nat.sub_diag. cbn [nth_error].
  destruct (tr_id tr =? id); cbn [bind]; [reflexivity|].
  rewrite IH. f_equal.
  assert (E : forall n k, (i < k)%nat ->
    find (fun j => match nth_error l (j - S i) with Some tr => tr_id tr =? id | None => false end) (seq k n)
    = find (fun j => match nth_error (tr :: l) (j - i) with Some tr => tr_id tr =? id | None => false end)
        (seq k n)).
  { induction n as [|n IHn]; intros k Hk; [reflexivity|]. cbn [seq find].
    replace (k - i)%nat with (S (k - S i)) by lia. cbn [nth_error].
    destruct (match nth_error l (k - S i) with Some _ => _ | None => _ end); [reflexivity|].
    apply IHn. lia. }
  apply E. lia.
Qed.

Lemma find_ext_in {A} (f g : A -> bool) l : (forall x, In x l -> f x = g x) -> find f l = find g l.
Proof.
  induction l as [|x l IH]; intros H; [reflexivity|]. cbn [find].
  rewrite H by (left; reflexivity). destruct (g x); [reflexivity|].
  apply IH. intros y Hy. apply H. right. exact Hy.
Qed.

Lemma interest_ok sc step : exists l, get_objects_of_interest sc step true = Ok l
  /\ forall i, mem i l = of_interest sc i.
Proof.
  unfold get_objects_of_interest.
  pose (first_with := fun id => find (fun j => id_of sc j =? id) (seq 0 (List.length (tracks sc)))).
  assert (E : mapM (fun id => find_interest true step id 0 (tracks sc)) (interest_ids sc)
              = Ok (map first_with (interest_ids sc))).
  { rewrite <- (map_id (interest_ids sc)) at 1. apply mapM_map. intros id.
    rewrite find_interest_ok. f_equal. apply find_ext_in. intros j Hj. apply in_seq in Hj.
    rewrite Nat.sub_0_r. unfold id_of, the_track. destruct (nth_error (tracks sc) j) eqn:N; [reflexivity|].
    apply nth_error_None in N. lia. }
  rewrite E. clear E. cbn [bind]. eexists. split; [reflexivity|]. intros i.
  unfold mem, of_interest. induction (interest_ids sc) as [|id ids IH]; [reflexivity|].
  cbn [map flat_map existsb]. rewrite existsb_app. unfold first_with in *. rewrite <- IH. clear.
  f_equal.
  destruct (find _ _) as [j|]; [|reflexivity]. cbn [existsb]. rewrite orb_false_r. apply Nat.eqb_sym.
Qed.

(** ** Modeled agents *)
Lemma mem_spec i l : mem i l = true <-> In i l.
Proof.
  unfold mem. rewrite existsb_exists. split.
  - intros (x & Hx & E). apply Nat.eqb_eq in E. subst. exact Hx.
  - intros H. exists i. split; [exact H|apply Nat.eqb_refl].
Qed.
Lemma mem_false i l : mem i l = false <-> ~ In i l.
Proof. rewrite <- mem_spec. destruct (mem i l); split; intros; congruence || tauto. Qed.
Lemma mem_app i a b : mem i (a ++ b) = mem i a || mem i b.
Proof. apply existsb_app. Qed.

Lemma filter_filter {A} (f g : A -> bool) l : filter f (filter g l) = filter (fun x => g x && f x) l.
Proof.
  induction l as [|x l IH]; [reflexivity|]. cbn [filter].
  destruct (g x); cbn [filter andb]; rewrite IH; reflexivity.
Qed.

Lemma filter_all {A} (f : A -> bool) l : (forall x, In x l -> f x = true) -> filter f l = l.
Proof.
  induction l as [|x l IH]; intros H; [reflexivity|]. cbn [filter].
  rewrite H by (left; reflexivity). f_equal. apply IH. intros y Hy. apply H. right. exact Hy.
Qed.

Lemma filter_length_le' {A} (f : A -> bool) l : (List.length (filter f l) <= List.length l)%nat.
Proof.
  induction l as [|x l IH]; [reflexivity|]. cbn [filter]. destruct (f x); cbn [List.length]; lia.
Qed.

(** The tracks listed, one after the other. *)
Definition listed (l : list required) : list nat := map (fun r => Z.to_nat (track_index r)) l.

Lemma modeled_fold cfg sc cap :
  (forall n : nat, (n < List.length (tracks_to_predict sc))%nat ->
     (Z.of_nat n <? to_size_t (max_num_modeled_agents cfg)) = (n <? cap)%nat) ->
  forall l agents m,
  (List.length agents + List.length l <= List.length (tracks_to_predict sc))%nat ->
  (List.length agents <= cap)%nat ->
  foldM (fun agents r =>
    if size (tracks sc) <=? track_index r then Err CheckFailed
    else
      do tr <- at_index (tracks sc) (track_index r);
      do st <- at_index (states tr) (num_past_steps cfg - 1);
      let i := Z.to_nat (track_index r) in
      if valid st && (size agents <? to_size_t (max_num_modeled_agents cfg))
      then Ok (if mem i agents then agents else agents ++ [i])
      else Ok agents) l agents = Ok m ->
  m = firstn cap (agents ++ filter (fun y => negb (mem y agents))
                     (distinct (filter (valid_now sc cfg) (listed l))))
  /\ (l <> [] -> 1 <= num_past_steps cfg)
  /\ (forall r, In r l -> 0 <= track_index r < count (tracks sc)).
Proof.
  intros Hcap. induction l as [|r l IH]; intros agents m HL HA H.
  - cbn [foldM] in H. apply Ok_inj in H. subst m. cbn. rewrite app_nil_r, firstn_all2 by exact HA.
    repeat split; try congruence; contradiction.
  - cbn [foldM] in H.
    destruct (Z.leb_spec (size (tracks sc)) (track_index r)) as [C|C]; [discriminate|].
    destruct (at_index (tracks sc) (track_index r)) as [tr|] eqn:E1; [|discriminate].
    cbn [bind] in H.
    destruct (at_index (states tr) (num_past_steps cfg - 1)) as [st|] eqn:E2; [|discriminate].
    cbn [bind] in H. apply at_index_ok in E1. apply at_index_ok in E2.
    destruct E1 as [R1 E1]. destruct E2 as [R2 E2]. cbv zeta in H.
    set (i := Z.to_nat (track_index r)) in *.
    assert (V : valid_now sc cfg i = valid st).
    { unfold valid_now, valid_state, current_step. rewrite E1, E2. destruct (valid st); reflexivity. }
    cbn [List.length] in HL.
    change (size agents) with (Z.of_nat (List.length agents)) in H.
    rewrite Hcap in H by lia.
    cbn [listed map filter]. fold (listed l). fold i. rewrite V.
    assert (T : exists agents', foldM (fun agents r =>
        if size (tracks sc) <=? track_index r then Err CheckFailed
        else
          do tr <- at_index (tracks sc) (track_index r);
          do st <- at_index (states tr) (num_past_steps cfg - 1);
          let i := Z.to_nat (track_index r) in
          if valid st && (size agents <? to_size_t (max_num_modeled_agents cfg))
          then Ok (if mem i agents then agents else agents ++ [i])
          else Ok agents) l agents' = Ok m
        /\ agents' = if valid st && (List.length agents <? cap)%nat
                     then (if mem i agents then agents else agents ++ [i]) else agents).
    { destruct (valid st && (List.length agents <? cap)%nat); cbn [bind] in H; eexists; split;
        try exact H; reflexivity. }
    clear H. destruct T as (agents' & H & EA).
    apply IH in H.
    2:{ subst agents'. destruct (valid st && _); [|lia]. destruct (mem i agents); [lia|].
        rewrite app_length. cbn [List.length]. lia. }
    2:{ subst agents'. destruct (valid st && _) eqn:B; [|lia].
        apply andb_prop in B. destruct B as [_ B]. apply Nat.ltb_lt in B.
        destruct (mem i agents); [lia|]. rewrite app_length. cbn [List.length]. lia. }
    destruct H as (H1 & H2 & H3). split; [|split].
    2:{ intros _. lia. }
    2:{ intros r' [<-|Hr]; [exact R1|apply H3; exact Hr]. }
    rewrite H1. clear H1 H2 H3 IH. subst agents'.
    destruct (valid st); cbn [andb]; [|reflexivity].
    cbn [distinct].
    set (D := distinct (filter (valid_now sc cfg) (listed l))).
    destruct (Nat.ltb_spec (List.length agents) cap) as [L|L].
    + cbn [filter]. destruct (mem i agents) eqn:M; cbn [negb].
      * f_equal. f_equal. rewrite filter_filter. apply filter_ext. intros y.
        destruct (Nat.eqb_spec y i) as [->|]; cbn [negb andb]; [rewrite M; reflexivity|reflexivity].
      * f_equal. rewrite <- app_assoc. cbn [app]. f_equal. f_equal.
        rewrite filter_filter. apply filter_ext. intros y. rewrite mem_app. cbn [mem existsb].
        unfold mem at 2. cbn [existsb]. rewrite orb_false_r.
        rewrite (Nat.eqb_sym y i). destruct (Nat.eqb i y); cbn [negb andb];
          rewrite ?orb_true_r, ?orb_false_r; reflexivity.
    + rewrite !firstn_app. replace (cap - List.length agents)%nat with 0%nat by lia. reflexivity.
Qed.

Lemma capped_firstn cfg l : (List.length l < Z.to_nat 2147483648)%nat ->
  capped cfg l = firstn (if max_num_modeled_agents cfg <? 0 then Z.to_nat 2147483648
                         else Z.to_nat (max_num_modeled_agents cfg)) l.
Proof.
  intros H. unfold capped. destruct (_ <? 0); [|reflexivity]. rewrite firstn_all2; [reflexivity|].
  apply Nat.lt_le_incl. exact H.
Qed.

Lemma distinct_length l : (List.length (distinct l) <= List.length l)%nat.
Proof.
  induction l as [|x l IH]; [reflexivity|]. cbn [distinct List.length].
  pose proof (filter_length_le' (fun y => negb (Nat.eqb y x)) (distinct l)) as F. lia.
Qed.

Lemma distinct_in x l : In x (distinct l) <-> In x l.
Proof.
  induction l as [|y l IH]; [reflexivity|]. cbn [distinct In]. rewrite filter_In, IH.
  destruct (Nat.eqb_spec x y) as [->|N]; cbn [negb].
  - split; intros _; left; reflexivity.
  - split; [intros [E|[H _]]; [congruence|right; exact H]|].
    intros [E|H]; [congruence|]. right. split; [exact H|reflexivity].
Qed.

Lemma distinct_nodup l : NoDup (distinct l).
Proof.
  induction l as [|y l IH]; [constructor|]. cbn [distinct]. constructor.
  - rewrite filter_In. rewrite Nat.eqb_refl. cbn. intros [_ H]. discriminate.
  - apply NoDup_filter. exact IH.
Qed.

Theorem modeled_ok cfg sc m : representable sc cfg ->
  get_modeled_agents cfg sc (num_steps cfg - 1) = Ok m ->
  m = capped cfg (predictable sc cfg)
  /\ (m <> [] -> 1 <= num_past_steps cfg)
  /\ (forall r, In r (tracks_to_predict sc) -> 0 <= track_index r < count (tracks sc)).
Proof.
  intros (Rm & Rt) H. unfold get_modeled_agents in H. cbv zeta in H.
  dbind H oi E0. clear E0 oi.
  replace (num_steps cfg - 1 - num_future_steps cfg) with (num_past_steps cfg - 1) in H
    by (unfold num_steps; lia).
  unfold count in Rt.
  apply (modeled_fold cfg sc (if max_num_modeled_agents cfg <? 0 then Z.to_nat 2147483648
                         else Z.to_nat (max_num_modeled_agents cfg))) in H.
  - destruct H as (H1 & H2 & H3). cbn [app] in H1. split; [|split].
    + rewrite H1, capped_firstn.
      * f_equal. unfold predictable. apply filter_all. intros x _. reflexivity.
      * eapply Nat.le_lt_trans; [apply distinct_length|].
        eapply Nat.le_lt_trans; [apply filter_length_le'|]. rewrite map_length. lia.
    + intros Hm. apply H2. intros E. apply Hm. rewrite H1, E. cbn. rewrite firstn_nil. reflexivity.
    + exact H3.
  - intros n Hn. unfold to_size_t. destruct (Z.ltb_spec (max_num_modeled_agents cfg) 0) as [L|L].
    + apply eq_true_iff_eq. rewrite Z.ltb_lt, Nat.ltb_lt. lia.
    + apply eq_true_iff_eq. rewrite Z.ltb_lt, Nat.ltb_lt. lia.
  - cbn [List.length]. lia.
  - cbn [List.length]. lia.
Qed.

(** ** Comparators *)
Lemma modeled_before_swo sc P : strict_weak P (modeled_before sc).
Proof.
  unfold strict_weak, modeled_before. split; [|split].
  - intros a _. apply Z.ltb_irrefl.
  - intros a b c _ _ _. rewrite !Z.ltb_lt. lia.
  - intros a b c _ _ _. rewrite !Z.ltb_ge. lia.
Qed.

Lemma valid_state_of sc cfg i : 1 <= num_past_steps cfg -> (i < List.length (tracks sc))%nat ->
  valid_state sc i (current_step cfg) =
  let s := state_of sc (num_past_steps cfg - 1) i in if valid s then Some s else None.
Proof.
  intros HP H. unfold valid_state, state_of. pose proof (the_track_of sc i H) as T.
  unfold the_track in T. rewrite T. cbv zeta. fold (current_step cfg).
  destruct (nth_error (states (track_of sc i)) (current_step cfg)) as [s|] eqn:E.
  - rewrite (nth_error_nth _ _ no_state E). reflexivity.
  - apply nth_error_None in E. rewrite nth_overflow by exact E. reflexivity.
Qed.

Lemma valid_count_of sc i : (i < List.length (tracks sc))%nat ->
  valid_states (track_of sc i) = valid_count sc i.
Proof.
  intros H. unfold valid_count. rewrite (the_track_of sc i H). reflexivity.
Qed.

Lemma sdc_state_of sc cfg : well_formed sc ->
  sdc_state sc cfg = nth_error (states (track_of sc (sdc sc))) (current_step cfg).
Proof.
  intros (_ & B & _). unfold sdc_state. rewrite the_track_of; [reflexivity|].
  unfold sdc, count in *. lia.
Qed.

Lemma closer_less pf sc cfg a b : well_formed sc ->
  less (distance pf a (state_of sc (num_past_steps cfg - 1) (sdc sc)))
       (distance pf b (state_of sc (num_past_steps cfg - 1) (sdc sc))) = true
  <-> closer pf sc cfg a b.
Proof.
  intros W. unfold closer. rewrite (sdc_state_of sc cfg W). unfold state_of. fold (current_step cfg).
  destruct (nth_error (states (track_of sc (sdc sc))) (current_step cfg)) as [s|] eqn:E.
  - rewrite (nth_error_nth _ _ no_state E). unfold distance, center_distance, less. split.
    + intros H.
      destruct (center_x a) as [ax|] eqn:Ea; [|discriminate].
      destruct (center_x s) as [sx|] eqn:Es; [|discriminate].
      destruct (center_y a) as [ay|] eqn:Eay; [|discriminate].
      destruct (center_y s) as [sy|] eqn:Esy; [|discriminate].
      destruct (center_x b) as [bx|] eqn:Eb; [|discriminate].
      destruct (center_y b) as [by_|] eqn:Eby; [|discriminate].
      exists s. rewrite Es, Esy. eexists. eexists. split; [reflexivity|]. split; [reflexivity|].
      split; [reflexivity|]. apply Qnot_le_lt. intros C. apply Qle_bool_iff in C. rewrite C in H.
      discriminate.
    + intros (s' & da & db & E1 & E2 & E3 & L). injection E1 as <-.
      destruct (center_x a); [|discriminate]. destruct (center_y a); [|discriminate].
      destruct (center_x s); [|discriminate]. destruct (center_y s); [|discriminate].
      destruct (center_x b); [|discriminate]. destruct (center_y b); [|discriminate].
      injection E2 as <-. injection E3 as <-.
      destruct (Qle_bool _ _) eqn:C; [|reflexivity]. apply Qle_bool_iff in C.
      exfalso. apply (Qlt_not_le _ _ L C).
  - rewrite nth_overflow by (apply nth_error_None; exact E). split.
    + unfold distance. destruct (center_x a); discriminate.
    + intros (s' & da & db & E1 & _). discriminate.
Qed.

Lemma context_before_priority pf sc cfg a b : well_formed sc -> 1 <= num_past_steps cfg ->
  (a < List.length (tracks sc))%nat -> (b < List.length (tracks sc))%nat ->
  context_before pf sc (num_past_steps cfg - 1) (sdc sc) a b = true <-> priority pf sc cfg a b.
Proof.
  intros W HP Ha Hb. unfold context_before, priority.
  rewrite !(valid_state_of sc cfg) by assumption. cbv zeta.
  destruct (valid (state_of sc (num_past_steps cfg - 1) a)) eqn:Va;
  destruct (valid (state_of sc (num_past_steps cfg - 1) b)) eqn:Vb; cbn [orb andb].
  - apply closer_less. exact W.
  - tauto.
  - split; [discriminate|contradiction].
  - rewrite Z.ltb_lt, !valid_count_of by assumption. reflexivity.
Qed.

Lemma less_fin x y : less (Fin x) (Fin y) = true <-> (x < y)%Q.
Proof.
  cbn [less]. rewrite negb_true_iff. split.
  - intros H. apply Qnot_le_lt. intros C. apply Qle_bool_iff in C. congruence.
  - intros H. destruct (Qle_bool y x) eqn:E; [|reflexivity]. apply Qle_bool_iff in E.
    exfalso. apply (Qlt_not_le _ _ H E).
Qed.
Lemma less_fin_false x y : less (Fin x) (Fin y) = false <-> (y <= x)%Q.
Proof. cbn [less]. rewrite negb_false_iff. apply Qle_bool_iff. Qed.

Theorem context_before_swo pf sc cfg : well_formed sc -> 1 <= num_past_steps cfg ->
  num_past_steps cfg <= count (timestamps_seconds sc) -> finite_now sc cfg ->
  strict_weak (fun i => (i < List.length (tracks sc))%nat)
    (context_before pf sc (num_past_steps cfg - 1) (sdc sc)).
Proof.
  intros W HP HT F.
  set (st := state_of sc (num_past_steps cfg - 1)).
  assert (SD : exists sx sy, center_x (st (sdc sc)) = Fin sx /\ center_y (st (sdc sc)) = Fin sy).
  { pose proof (sdc_state_of sc cfg W) as E. pose proof W as (_ & B & WL).
    unfold st, state_of. fold (current_step cfg).
    destruct (nth_error (states (track_of sc (sdc sc))) (current_step cfg)) as [s|] eqn:N.
    - rewrite (nth_error_nth _ _ no_state N). destruct (F 0%nat s (or_intror E)) as [X Y].
      destruct (center_x s); [|congruence]. destruct (center_y s); [|congruence]. eauto.
    - exfalso. apply nth_error_None in N.
      assert (I : In (track_of sc (sdc sc)) (tracks sc)).
      { apply nth_In. unfold sdc, count in *. lia. }
      apply WL in I. unfold current_step, count in *. lia. }
  destruct SD as (sx & sy & SX & SY).
  assert (D : exists d : nat -> Q, forall i, (i < List.length (tracks sc))%nat ->
            valid (st i) = true -> distance pf (st i) (st (sdc sc)) = Fin (d i)).
  { exists (fun i => match distance pf (st i) (st (sdc sc)) with Fin q => q | NaN => 0%Q end).
    intros i Hi V.
    assert (E : valid_state sc i (current_step cfg) = Some (st i)).
    { rewrite valid_state_of by assumption. fold st. cbv zeta. rewrite V. reflexivity. }
    destruct (F i (st i) (or_introl E)) as [X Y]. unfold distance. rewrite SX, SY.
    destruct (center_x (st i)); [|congruence]. destruct (center_y (st i)); [|congruence].
    reflexivity. }
  destruct D as (d & D).
  assert (CB : forall a b, (a < List.length (tracks sc))%nat -> (b < List.length (tracks sc))%nat ->
     context_before pf sc (num_past_steps cfg - 1) (sdc sc) a b =
     if valid (st a) then (if valid (st b) then less (Fin (d a)) (Fin (d b)) else true)
     else if valid (st b) then false
     else valid_states (track_of sc b) <? valid_states (track_of sc a)).
  { intros a b Ha Hb. unfold context_before. cbv zeta. fold st.
    destruct (valid (st a)) eqn:Va; destruct (valid (st b)) eqn:Vb; cbn [orb andb]; try reflexivity.
    rewrite !D by assumption. reflexivity. }
  unfold strict_weak. split; [|split].
  - intros a Ha. rewrite CB by assumption. destruct (valid (st a)); [|apply Z.ltb_irrefl].
    apply less_fin_false. apply Qle_refl.
  - intros a b c Ha Hb Hc. rewrite !CB by assumption.
    destruct (valid (st a)), (valid (st b)), (valid (st c)); try congruence.
    + rewrite !less_fin. intros. eapply Qlt_trans; eassumption.
    + rewrite !Z.ltb_lt. lia.
  - intros a b c Ha Hb Hc. rewrite !CB by assumption.
    destruct (valid (st a)), (valid (st b)), (valid (st c)); try congruence.
    + rewrite !less_fin_false. intros. split; eapply Qle_trans; eassumption.
    + rewrite !Z.ltb_ge. lia.
Qed.

(** ** One row *)
Definition header (sc : scenario) (modeled : list nat) (row : option nat) : log :=
  match row with
  | None =>
      [Feature "state/id" minus_one; Feature "state/type" minus_one;
       Feature "state/objects_of_interest" (VInt (-1)); Feature "state/is_sdc" (VInt (-1));
       Feature "state/is_context" (VInt (-1)); Feature "state/tracks_to_predict" (VInt (-1));
       Feature "state/difficulty_level" (VInt (-1)); Counter "Padded_State_Feature" 1]
  | Some i =>
      [Feature "state/id" (num (inject_Z (id_of sc i)));
       Feature "state/type" (num (inject_Z (match the_track sc i with Some tr => object_type tr
                                                                     | None => 0 end)));
       Feature "state/is_sdc" (flag (Nat.eqb i (sdc sc)));
       Feature "state/is_context" (flag (negb (mem i modeled)));
       Feature "state/tracks_to_predict" (flag (mem i modeled));
       Feature "state/difficulty_level" (VInt (difficulty_of sc i));
       Feature "state/objects_of_interest" (flag (of_interest sc i));
       Counter "Agents_State_Feature" 1;
       Counter (object_type_counter (match the_track sc i with Some tr => object_type tr
                                                              | None => 0 end)) 1]
  end%string.

Lemma flag_b2z b : VInt (Z.b2z b) = flag b.
Proof. destruct b; reflexivity. Qed.

Lemma row_log pf cfg sc interest modeled (is_context : bool) row :
  well_formed sc -> row_ok sc row -> (forall i, mem i interest = of_interest sc i) ->
  (forall i, row = Some i -> mem i modeled = negb is_context) ->
  agent_features pf cfg sc (num_steps cfg - 1) (sdc sc) interest is_context row
  = Ok (header sc modeled row ++ body pf cfg sc row).
Proof.
  intros W R I C. unfold agent_features, add_state_features. cbv zeta.
  rewrite body_ok by assumption. cbn [bind]. rewrite <- flat_map_concat_map.
  fold (body pf cfg sc row). destruct row as [i|]; cbn [option_map header]; [|reflexivity].
  rewrite (the_track_of sc i R).
  unfold id_of. rewrite (the_track_of sc i R). rewrite I, !flag_b2z.
  rewrite (C i eq_refl), negb_involutive. reflexivity.
Qed.

Lemma header_tensor sc modeled row name : In name agent_names ->
  map Some (tensor ("state/" ++ name)%string (header sc modeled row)) = [agent_field sc modeled name row].
Proof.
  intros Hn. cbn [In agent_names] in Hn. destruct row as [i|];
    repeat (destruct Hn as [<-|Hn]; [reflexivity|]); destruct Hn.
Qed.
Lemma header_state_tensor sc modeled row f name : In name state_names ->
  tensor (state_key f name) (header sc modeled row) = [].
Proof.
  intros Hn. cbn [In state_names] in Hn. destruct row as [i|]; destruct f;
    repeat (destruct Hn as [<-|Hn]; [reflexivity|]); destruct Hn.
Qed.
Lemma header_keys sc modeled row : keys_in state_keys (header sc modeled row).
Proof. destruct row as [i|]; cbn [header]; keys_concrete. Qed.

(** ** All rows *)
Lemma StronglySorted_impl {A} (R S : A -> A -> Prop) (P : A -> Prop) l :
  (forall a b, P a -> P b -> R a b -> S a b) -> Forall P l -> StronglySorted R l -> StronglySorted S l.
Proof.
  intros H F SS. induction SS as [|x l SS IH HF]; [constructor|].
  inversion F as [|? ? Px Fl]; subst. constructor; [apply IH; exact Fl|].
  rewrite Forall_forall in *. intros y Hy. apply H; [exact Px|apply Fl; exact Hy|apply HF; exact Hy].
Qed.

Lemma strict_weak_mono (P Q : nat -> Prop) lt : (forall x, Q x -> P x) -> strict_weak P lt -> strict_weak Q lt.
Proof.
  intros H (A & B & C). split; [|split]; intros.
  - apply A. auto.
  - eapply (B a b c); auto.
  - eapply (C a b c); auto.
Qed.

Lemma Permutation_in_iff {A} (l l' : list A) : Permutation l l' -> forall x, In x l <-> In x l'.
Proof. intros P x. split; apply Permutation_in; [exact P|apply Permutation_sym; exact P]. Qed.

Lemma mapM_in {A B} (f : A -> result B) (g : A -> B) l :
  (forall x, In x l -> f x = Ok (g x)) -> mapM f l = Ok (map g l).
Proof.
  induction l as [|x l IH]; intros H; [reflexivity|]. cbn [mapM map].
  rewrite H by (left; reflexivity). cbn [bind]. rewrite IH; [reflexivity|].
  intros y Hy. apply H. right. exact Hy.
Qed.

Lemma capped_in cfg l x : In x (capped cfg l) -> In x l.
Proof. unfold capped. destruct (_ <? 0); [auto|]. apply in_firstn. Qed.

Lemma predictable_facts sc cfg i : In i (predictable sc cfg) ->
  (i < List.length (tracks sc))%nat /\ valid_now sc cfg i = true.
Proof.
  unfold predictable. rewrite distinct_in, filter_In. intros [_ V]. split; [|exact V].
  unfold valid_now, valid_state in V. destruct (nth_error (tracks sc) i) as [tr|] eqn:E; [|discriminate].
  apply nth_error_Some. congruence.
Qed.

Definition agents_log (pf : platform) (cfg : config) (sc : scenario) (modeled context : list nat)
    (rows : list (option nat)) (l : log) : Prop :=
  exists tail_rows, rows = map Some modeled ++ tail_rows
  /\ l = [Counter "Num_Modeled_Agents" (count modeled)]
         ++ flat_map (fun row => header sc modeled row ++ body pf cfg sc row) (map Some modeled)
         ++ [Counter "Num_Context_Agents" (count context)]
         ++ flat_map (fun row => header sc modeled row ++ body pf cfg sc row) tail_rows.

Theorem agents_ok pf cfg sc l : platform_ok pf -> well_formed sc -> representable sc cfg ->
  finite_now sc cfg ->
  add_sdc_and_agents_features pf cfg sc (num_steps cfg - 1) = Ok l ->
  1 <= num_past_steps cfg <= count (timestamps_seconds sc)
  /\ exists modeled context rows, rows_ok pf sc cfg modeled context rows
     /\ agents_log pf cfg sc modeled context rows l.
Proof.
  intros [PS PH] W Rp Fn H. unfold add_sdc_and_agents_features in H. cbv zeta in H.
  replace (num_steps cfg - 1 - num_future_steps cfg) with (num_past_steps cfg - 1) in H
    by (unfold num_steps; lia).
  destruct (interest_ok sc (num_past_steps cfg - 1)) as (interest & EI & MI).
  rewrite EI in H. cbn [bind] in H.
  destruct ((sdc_track_index sc <? 0) || _) eqn:ES; [discriminate|].
  fold (sdc sc) in H.
  destruct (get_modeled_agents cfg sc (num_steps cfg - 1)) as [m|] eqn:EM; [|discriminate].
  cbn [bind] in H. pose proof EM as EM0. apply (modeled_ok cfg sc m Rp) in EM0.
  destruct EM0 as (Em & HP & _).
  destruct m as [|m0 ms] eqn:Emm; [discriminate|]. rewrite <- Emm in *.
  assert (HP1 : 1 <= num_past_steps cfg) by (apply HP; rewrite Emm; discriminate).
  assert (Min : forall i, In i m -> (i < List.length (tracks sc))%nat /\ valid_now sc cfg i = true).
  { intros i Hi. apply predictable_facts with (cfg := cfg). rewrite Em in Hi.
    apply capped_in in Hi. exact Hi. }
  assert (HT : num_past_steps cfg <= count (timestamps_seconds sc)).
  { destruct (Min m0) as [I0 V0]; [rewrite Emm; left; reflexivity|].
    unfold valid_now, valid_state in V0. destruct W as (_ & _ & WL).
    destruct (nth_error (tracks sc) m0) as [tr|] eqn:E; [|discriminate].
    destruct (nth_error (states tr) (current_step cfg)) as [s|] eqn:E2; [|discriminate].
    assert (L : (current_step cfg < List.length (states tr))%nat) by (apply nth_error_Some; congruence).
    rewrite (WL tr (nth_error_In _ _ E)) in L. unfold current_step, count in *. lia. }
  split; [lia|].
  set (sorted := std_sort pf (modeled_before sc) (hash_order pf m)) in *.
  assert (SS : Permutation sorted m
               /\ StronglySorted (fun a b => modeled_before sc b a = false) sorted).
  { destruct (PS (modeled_before sc) (hash_order pf m) (modeled_before_swo sc _)) as [P1 P2].
    split; [|exact P2]. eapply Permutation_trans; [exact P1|apply PH]. }
  destruct SS as [SP SSo].
  set (context := filter (fun i => negb (mem i m)) (seq 0 (List.length (tracks sc)))) in *.
  assert (CI : forall i, In i context <-> (i < List.length (tracks sc))%nat /\ ~ In i m).
  { intros i. unfold context. rewrite filter_In, in_seq, negb_true_iff, mem_false.
    split; intros [A B]; split; lia || exact B. }
  set (ordered := std_sort pf (context_before pf sc (num_past_steps cfg - 1) (sdc sc)) context) in *.
  assert (OO : Permutation ordered context
     /\ StronglySorted (fun a b => context_before pf sc (num_past_steps cfg - 1) (sdc sc) b a = false)
          ordered).
  { apply PS. eapply strict_weak_mono; [|apply (context_before_swo pf sc cfg W HP1 HT Fn)].
    intros x Hx. apply CI in Hx. apply Hx. }
  destruct OO as [OP OS].
  destruct (mapM (fun i => agent_features pf cfg sc (num_steps cfg - 1) (sdc sc) interest false (Some i))
              sorted) as [ml|] eqn:E1; [|discriminate].
  cbn [bind] in H.
  match type of H with bind ?x _ = _ => destruct x as [cs|]; [|discriminate] end.
  cbn [bind] in H.
  destruct (Z.ltb_spec (max_num_agents cfg - size m) 0) as [HM|HM]; [discriminate|].
  destruct (mapM _ (resize _ ordered)) as [cl|] eqn:E2; [|discriminate].
  cbn [bind] in H. apply Ok_inj in H.
  assert (LS : size m = count sorted) by (unfold size, count; rewrite (Permutation_length SP); reflexivity).
  set (kept := firstn (Z.to_nat (max_num_agents cfg - count sorted)) ordered).
  assert (ER : resize (Z.to_nat (max_num_agents cfg - size m)) ordered
     = map Some kept ++ repeat None (Z.to_nat (max_num_agents cfg - count sorted - count kept))).
  { unfold resize. rewrite map_length, LS. fold kept. f_equal. f_equal. unfold count. lia. }
  assert (LK : (List.length kept <= Z.to_nat (max_num_agents cfg - count sorted))%nat)
    by apply firstn_le_length.
  assert (OI : forall i, In i ordered <-> (i < List.length (tracks sc))%nat /\ ~ In i sorted).
  { intros i. rewrite (Permutation_in_iff _ _ OP i), CI, (Permutation_in_iff _ _ SP i). reflexivity. }
  exists sorted, kept, (map Some sorted ++ resize (Z.to_nat (max_num_agents cfg - size m)) ordered).
  split.
  - constructor.
    + rewrite ER. reflexivity.
    + rewrite ER. unfold count. rewrite !app_length, !map_length, repeat_length.
      unfold count in *. lia.
    + rewrite <- Em. exact SP.
    + eapply (StronglySorted_impl _ _ (fun i => (i < List.length (tracks sc))%nat));
        [|apply Forall_forall|exact SSo].
      * intros a b Ha Hb. unfold modeled_before. rewrite Z.ltb_ge. unfold id_of.
        rewrite !the_track_of by assumption. lia.
      * intros i Hi. apply (Permutation_in_iff _ _ SP i) in Hi. apply Min in Hi. apply Hi.
    + exists ordered. split; [exact OI|]. split; [|split].
      * eapply Permutation_NoDup; [apply Permutation_sym; exact OP|].
        apply NoDup_filter, seq_NoDup.
      * eapply (StronglySorted_impl _ _ (fun i => (i < List.length (tracks sc))%nat));
          [|apply Forall_forall|exact OS].
        -- intros a b Ha Hb HC PR. apply (context_before_priority pf sc cfg b a W HP1 Hb Ha) in PR.
           congruence.
        -- intros i Hi. apply OI in Hi. apply Hi.
      * reflexivity.
  - exists (resize (Z.to_nat (max_num_agents cfg - size m)) ordered). split; [reflexivity|].
    rewrite <- H.
    assert (E1' : mapM (fun i => agent_features pf cfg sc (num_steps cfg - 1) (sdc sc) interest false
                          (Some i)) sorted
        = Ok (map (fun i => header sc sorted (Some i) ++ body pf cfg sc (Some i)) sorted)).
    { apply mapM_in. intros i Hi. apply row_log; try assumption.
      - cbn. apply (Permutation_in_iff _ _ SP i) in Hi. apply Min in Hi. apply Hi.
      - intros j Hj. injection Hj as <-. cbn [negb]. apply mem_spec. exact Hi. }
    rewrite E1' in E1. apply Ok_inj in E1. subst ml.
    assert (E2' : mapM (agent_features pf cfg sc (num_steps cfg - 1) (sdc sc) interest true)
                    (resize (Z.to_nat (max_num_agents cfg - size m)) ordered)
        = Ok (map (fun row => header sc sorted row ++ body pf cfg sc row)
                (resize (Z.to_nat (max_num_agents cfg - size m)) ordered))).
    { apply mapM_in. intros row Hr. rewrite ER in Hr. apply in_app_or in Hr.
      assert (K : row = None \/ exists i, row = Some i /\ In i ordered).
      { destruct Hr as [Hr|Hr].
        - right. apply in_map_iff in Hr. destruct Hr as (i & <- & Hi). exists i. split; [reflexivity|].
          apply in_firstn in Hi. exact Hi.
        - left. apply repeat_spec in Hr. exact Hr. }
      destruct K as [->|(i & -> & Hi)].
      - apply row_log; try assumption; [exact I|discriminate].
      - apply OI in Hi. apply row_log; try assumption; [apply Hi|].
        intros j Hj. injection Hj as <-. cbn [negb]. apply mem_false. apply Hi. }
    rewrite E2' in E2. apply Ok_inj in E2. subst cl.
    rewrite !flat_map_concat_map, map_map. rewrite LS.
    replace (Z.min (max_num_agents cfg - count sorted) (size context)) with (count kept); [reflexivity|].
    unfold kept, count, size. rewrite firstn_length, (Permutation_length OP).
    unfold count in *. lia.
Qed.
