(** The scene features as a function of the list of objects. *)
From Coq Require Import Reals Permutation Lra.
From Verif Require Import Base ResultLib ListLib MonadLib SimModel SimSpec SimProofs GeomModel TtcModel RoadModel MfeatModel MfeatSpec.
Open Scope list_scope.
Open Scope R_scope.

Definition obj_cells (o : obj R) := row_cells (o_x o) (o_y o) (o_length o) (o_width o) (o_heading o) (o_valid o).
Definition obj_boxes (o : obj R) := row_boxes (obj_cells o) (o_z o) (o_height o).
Lemma cells_of_objs l : cells_of (of_objs l) = map obj_cells l.
Proof.
  unfold cells_of, of_objs. cbn [tr_x tr_y tr_length tr_width tr_heading tr_valid].
  induction l as [|o l IH]; [reflexivity|]. cbn [map table_cells]. now rewrite IH.
Qed.
Lemma boxes_of_objs l : boxes_of (of_objs l) = map obj_boxes l.
Proof.
  unfold boxes_of. rewrite cells_of_objs. unfold of_objs. cbn [tr_z tr_height].
  induction l as [|o l IH]; [reflexivity|]. cbn [map table_boxes]. now rewrite IH.
Qed.
Lemma kinematic_rows_objs f (l : list (obj R)) :
  kinematic_rows f (map o_x l) (map o_y l) (map o_z l) (map o_heading l) =
  mapM (fun o => f (o_x o) (o_y o) (o_z o) (o_heading o)) l.
Proof. induction l as [|o l IH]; [reflexivity|]. cbn [map kinematic_rows mapM]. now rewrite IH. Qed.
Definition obj_ade (p : obj R * obj R) : option R :=
  mean_error (o_valid (snd p)) (displacement (o_x (fst p)) (o_y (fst p)) (o_z (fst p)) (o_x (snd p)) (o_y (snd p)) (o_z (snd p))).
Lemma ade_rows_objs (l : list (obj R)) : forall l' : list (obj R),
  ade_rows (map o_x l) (map o_y l) (map o_z l) (map o_x l') (map o_y l') (map o_z l') (map o_valid l') =
  map obj_ade (combine l l').
Proof. induction l as [|o l IH]; intros [|o' l']; [reflexivity..|]. cbn [map ade_rows combine]. now rewrite IH. Qed.

Lemma once_of_nodup (l : list Z) id : NoDup l -> In id l -> occurs_once l id.
Proof.
  intros N H. apply In_nth_error in H. destruct H as (i & H). exists i. split; [exact H|].
  intros j Hj. pose proof (proj1 (NoDup_nth_error l) N) as Q. symmetry. apply Q.
  - apply nth_error_Some. congruence.
  - congruence.
Qed.

Lemma gather_by (l : list (obj R)) ids : NoDup (map o_id l) -> incl ids (map o_id l) ->
  exists os, gather_objects_by_id (of_objs l) ids = Ok (of_objs os) /\ map o_id os = ids /\
    Forall2 (fun id o => In o l /\ o_id o = id) ids os.
Proof. intros N H. apply gather_ids_of. intros id Hid. apply once_of_nodup; auto. Qed.

Lemma forall2_in {A B} (P : B -> Prop) (Q : A -> B -> Prop) l l' : Forall2 (fun a b => P b /\ Q a b) l l' -> forall b, In b l' -> P b.
Proof. induction 1 as [|a b l l' (HP & HQ) H IH]; intros c Hc; [destruct Hc|destruct Hc as [<-|Hc]; auto]. Qed.

Lemma nodup_of_ids (l : list (obj R)) : NoDup (map o_id l) -> NoDup l.
Proof. apply NoDup_map_inv. Qed.
Lemma same_id (l : list (obj R)) o o' : NoDup (map o_id l) -> In o l -> In o' l -> o_id o = o_id o' -> o = o'.
Proof.
  intros N H H' E. apply (occurs_once_objs l (o_id o)); auto. apply once_of_nodup; [exact N|]. now apply in_map.
Qed.

Lemma perm_by_ids (l os : list (obj R)) : NoDup (map o_id l) -> (forall o, In o os -> In o l) ->
  Permutation (map o_id os) (map o_id l) -> Permutation os l.
Proof.
  intros N H P. apply NoDup_Permutation.
  - apply nodup_of_ids. now apply (Permutation_NoDup (Permutation_sym P)).
  - now apply nodup_of_ids.
  - intros o. split; [apply H|]. intros Ho.
    assert (In (o_id o) (map o_id os)) as Q by (apply (Permutation_in _ (Permutation_sym P)); now apply in_map).
    apply in_map_iff in Q. destruct Q as (o' & E & Ho'). replace o with o'; [exact Ho'|].
    apply (same_id l); auto.
Qed.

(** The ids of the others. *)
Definition other_ids (ids all : list Z) := filter (fun i => negb (zmem i ids)) (nodup Z.eq_dec all).
Lemma split_ids ids all : NoDup all -> NoDup ids -> incl ids all -> Permutation (ids ++ other_ids ids all) all.
Proof.
  intros Na Ni Hi. unfold other_ids. rewrite nodup_fixed_point by exact Na.
  apply NoDup_Permutation; [|exact Na|].
  - apply nodup_app; repeat split.
    + exact Ni.
    + now apply NoDup_filter.
    + intros x Hx Q. apply filter_In in Q. destruct Q as (_ & Q). apply negb_true_iff in Q.
      apply zmem_in in Hx. congruence.
  - intros x. rewrite in_app_iff, filter_In, negb_true_iff. split.
    + intros [H|(H & _)]; auto.
    + intros H. destruct (zmem x ids) eqn:E; [left; now apply zmem_in|right; auto].
Qed.
Lemma mask_ids ids rest : (forall i, In i rest -> ~ In i ids) ->
  map (fun i => zmem i ids) (ids ++ rest) = first_mask (length ids) (length rest).
Proof.
  intros H. unfold first_mask. rewrite map_app. f_equal.
  - assert (forall l, incl l ids -> map (fun i => zmem i ids) l = repeat true (length l)) as G.
    { induction l as [|x l IH]; intros Q; [reflexivity|]. cbn [map length repeat]. f_equal.
      - apply zmem_in, Q. now left.
      - apply IH. intros y Hy. apply Q. now right. }
    apply G, incl_refl.
  - induction rest as [|x l IH]; [reflexivity|]. cbn [map length repeat]. f_equal.
    + destruct (zmem x ids) eqn:E; [|reflexivity]. apply zmem_in in E. destruct (H x (or_introl eq_refl) E).
    + apply IH. intros y Hy. apply H. now right.
Qed.

Definition assemble {S} (X : extractors S) (sc : full_scenario S) (ct : challenge) (use_log : bool)
    (os rest logs : list (obj R)) : result features :=
  let t := of_objs (os ++ rest) in
  let mask := first_mask (length os) (length rest) in
  let validity := if use_log then map o_valid logs else map o_valid os in
  do kin <- mapM (fun o => kinematic X (o_x o) (o_y o) (o_z o) (o_heading o)) os;
  do distances <- nearest_feature t mask;
  do ttc <- ttc_feature t mask;
  do road <- road_feature t mask (road_edges_of (map_features sc));
  do red <- red_feature X sc (length os) t mask;
  do ade <- match ct with
            | SIM_AGENTS => if negb (Nat.eqb (last_dim (map o_x os)) (last_dim (map o_x logs))) then Err RuntimeError
                            else Ok (map obj_ade (combine os logs))
            | SCENARIO_GEN => Ok (repeat (Some 0) (length validity))
            end;
  Ok {| f_object_id := map o_id os; f_object_type := [map o_type os];
        f_valid := [after_current ct validity]; f_ade := [ade];
        f_speed := [after_current ct (map k_speed kin)]; f_accel := [after_current ct (map k_accel kin)];
        f_turn := [after_current ct (map k_turn kin)]; f_turn_accel := [after_current ct (map k_turn_accel kin)];
        f_distance := [after_current ct distances]; f_collision := [map (map is_colliding) (after_current ct distances)];
        f_ttc := [after_current ct ttc];
        f_road := [after_current ct road]; f_offroad := [map (map is_offroad) (after_current ct road)];
        f_red := [after_current ct red] |}.

Lemma core {S} (X : extractors S) (sc : full_scenario S) js ct b (l lf : list (obj R)) ids :
  listing X ->
  match ct with
  | SIM_AGENTS => joint_scene_to_trajectories js (agents sc) b
  | SCENARIO_GEN => simulated_scenariogen_to_trajectories js (agents sc) ct
  end = Ok (of_objs l) ->
  from_scenario (agents sc) = Ok (of_objs lf) ->
  (forall id, In id (map o_id l) -> occurs_once (map o_id lf) id) ->
  get_evaluation_sim_agent_ids (agents sc) ct = Ok ids -> ids <> [] -> NoDup ids ->
  incl ids (map o_id l) -> NoDup (map o_id l) ->
  exists os rest logs, compute_metric_features X sc js ct b = assemble X sc ct b os rest logs /\
    map o_id os = ids /\ map o_id logs = ids /\ Permutation (os ++ rest) l /\
    (forall o, In o logs -> In o lf) /\ map o_id rest = order X (other_ids ids (map o_id l)).
Proof.
  intros HX Es Ef Hf Ei Hne Ni Hi Nl.
  set (all := map o_id l) in *.
  assert (Permutation (ids ++ order X (other_ids ids all)) all) as P.
  { eapply Permutation_trans; [apply Permutation_app_head, HX|]. now apply split_ids. }
  destruct (gather_ids_of lf all Hf) as (lg & Eg & Hlg & Glg).
  destruct (gather_by l ids Nl Hi) as (os & Eo & Ho & Go).
  destruct (gather_by l (ids ++ order X (other_ids ids all)) Nl) as (ts & Et & Ht & Gt).
  { intros i Q. now apply (Permutation_in _ P). }
  destruct (gather_by lg ids) as (logs & El & Hl & Gl); [rewrite Hlg; assumption..|].
  apply Forall2_app_inv_l in Gt. destruct Gt as (os' & rest & G1 & G2 & ->).
  assert (os' = os) as ->.
  { clear -G1 Go Nl. revert os Go. induction G1 as [|i o ids os' (A & B) G IH]; intros os Go; inversion Go as [|i' q ids' qs (A' & B') G' E1 E2]; subst; [reflexivity|].
    f_equal; [apply (same_id l); auto; congruence|]. apply IH. assumption. }
  exists os, rest, logs. 
  assert (map o_id rest = order X (other_ids ids all)) as Hr.
  { rewrite map_app in Ht. rewrite Ho in Ht. now apply app_inv_head in Ht. }
  split; [|split; [exact Ho|split; [exact Hl|split; [|split]]]].
  - unfold compute_metric_features. rewrite Es. cbn [bind]. rewrite Ef. cbn [bind].
    change (tr_id (of_objs l)) with all. rewrite Eg. cbn [bind]. rewrite Ei. cbn [bind].
    rewrite id_tensor_ok by exact Hne. cbn [bind]. rewrite Eo. cbn [bind].
    change (filter (fun i => negb (zmem i ids)) (nodup Z.eq_dec all)) with (other_ids ids all).
    rewrite Et. cbn [bind]. rewrite El. cbn [bind]. unfold assemble.
    change (tr_id (of_objs (os ++ rest))) with (map o_id (os ++ rest)). rewrite map_app, Ho, Hr.
    rewrite mask_ids.
    2:{ intros i Q. apply (Permutation_in _ (HX _)) in Q. apply filter_In in Q. destruct Q as (_ & Q).
        apply negb_true_iff in Q. intros R0. apply zmem_in in R0. congruence. }
    replace (length ids) with (length os) by (rewrite <- Ho; now rewrite map_length).
    replace (length (order X (other_ids ids all))) with (length rest) by (rewrite <- Hr; now rewrite map_length).
    unfold of_objs at 1 2 3 4. cbn [tr_x tr_y tr_z tr_heading]. rewrite kinematic_rows_objs.
    unfold ade_feature. unfold of_objs at 6 7 8 9 10 11 12 13 14.
    cbn [tr_x tr_y tr_z tr_valid of_objs tr_id tr_type]. rewrite ade_rows_objs, Ho. reflexivity.
  - apply perm_by_ids; [exact Nl| |].
    + intros o Q. apply in_app_or in Q. destruct Q as [Q|Q]; [apply (forall2_in (fun o => In o l) (fun id o => o_id o = id) _ _ G1 o Q)|apply (forall2_in (fun o => In o l) (fun id o => o_id o = id) _ _ G2 o Q)].
    + rewrite map_app, Ho, Hr. exact P.
  - intros o Q. apply (forall2_in (fun o => In o lg) (fun id o => o_id o = id) _ _ Gl) in Q.
    apply (forall2_in (fun o => In o lf) (fun id o => o_id o = id) _ _ Glg o Q).
  - exact Hr.
Qed.
