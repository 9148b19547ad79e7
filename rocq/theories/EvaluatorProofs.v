(** The evaluator refines the list of pending updates. *)
From Coq Require Import String.
From Verif Require Import Base ResultLib MonadLib ListLib ParseModel ParseMapProofs EvaluatorModel EvaluatorSpec.
Open Scope list_scope.

Section Proofs.
Context {R M : Type}.
Notation dict := (list (string * array R)).
Notation store := (list (string * list (array R))).

Lemma has_key_in {V} k (d : list (string * V)) : has_key k d = true <-> In k (map fst d).
Proof.
  unfold has_key. rewrite existsb_exists. split.
  - intros (e & I & E). apply String.eqb_eq in E. subst k. apply in_map. exact I.
  - intros I. apply in_map_iff in I. destruct I as (e & <- & I). exists e. split; [exact I|].
    apply String.eqb_refl.
Qed.
Lemma has_key_map {V} k (d : list (string * V)) : has_key k d = existsb (String.eqb k) (map fst d).
Proof. unfold has_key. induction d as [|e d IH]; [reflexivity|]. cbn. rewrite IH. reflexivity. Qed.

Lemma check_fields_eq fields (d : dict) :
  check_fields fields d = if has_fields fields d then Ok tt else Err ValueError.
Proof.
  unfold check_fields, has_fields.
  replace (forallb (fun k => has_key k d) fields)
    with (forallb (fun k => existsb (String.eqb k) (map fst d)) fields); [reflexivity|].
  induction fields as [|k l IH]; [reflexivity|]. cbn [forallb]. rewrite IH, has_key_map. reflexivity.
Qed.

(** A store that holds the values of some dictionaries. *)
Definition represents (s : store) (ds : list dict) : Prop :=
  (forall k, get String.eqb [] k s = values k ds)
  /\ (forall k, In k (map fst s) <-> values k ds <> []).

Lemma values_app k (ds ds' : list dict) : values k (ds ++ ds') = values k ds ++ values k ds'.
Proof. apply flat_map_app. Qed.

Lemma append_represents s ds d : represents s ds -> represents (append_all s d) (ds ++ [d]).
Proof.
  intros [G K].
  change (append_all s d) with (grouped String.eqb [] fst (fun e => push (snd e)) d s).
  assert (V : forall k, values k (ds ++ [d])
              = values k ds ++ map snd (filter (fun e => String.eqb (fst e) k) d)).
  { intros k. rewrite values_app. unfold values at 2. cbn [flat_map]. rewrite app_nil_r. reflexivity. }
  split; intros k; rewrite V.
  - rewrite (grouped_get _ _ _ _ _ eq_test_string), G.
    exact (fold_push snd (filter (fun e => String.eqb (fst e) k) d) (values k ds)).
  - rewrite (grouped_keys _ _ _ _ _ eq_test_string), K. split.
    + intros [H|(e & I & E)] X; apply app_eq_nil in X; destruct X as [X1 X2]; [exact (H X1)|].
      apply map_eq_nil in X2.
      assert (Y : In e (filter (fun e => String.eqb (fst e) k) d))
        by (apply filter_In; split; [exact I|apply String.eqb_eq; exact E]).
      rewrite X2 in Y. destruct Y.
    + intros H. destruct (values k ds) as [|a l]; [right|left; discriminate].
      cbn [app] in H. destruct (filter (fun e => String.eqb (fst e) k) d) as [|e l] eqn:F; [contradiction|].
      assert (Y : In e (filter (fun e => String.eqb (fst e) k) d)) by (rewrite F; left; reflexivity).
      apply filter_In in Y. destruct Y as [Y1 Y2]. apply String.eqb_eq in Y2. exists e. split; assumption.
Qed.

Lemma lookup_joined s ds k : represents s ds -> lookup k s = joined k ds.
Proof.
  intros [G K]. unfold lookup, joined. rewrite G.
  destruct (has_key k s) eqn:E.
  - apply has_key_in in E. apply K in E. destruct (values k ds); [contradiction|reflexivity].
  - destruct (values k ds) as [|a l] eqn:V; [reflexivity|]. exfalso.
    assert (X : In k (map fst s)) by (apply K; rewrite V; discriminate).
    apply has_key_in in X. congruence.
Qed.
Lemma optional_joined s ds k : represents s ds ->
  (if has_key k s then do x <- lookup k s; Ok (Some x) else Ok None) = joined_optional k ds.
Proof.
  intros H. pose proof H as [G K]. rewrite (lookup_joined _ _ _ H). unfold joined, joined_optional.
  destruct (has_key k s) eqn:E.
  - apply has_key_in in E. apply K in E. destruct (values k ds); [contradiction|reflexivity].
  - destruct (values k ds) as [|a l] eqn:V; [reflexivity|]. exfalso.
    assert (X : In k (map fst s)) by (apply K; rewrite V; discriminate).
    apply has_key_in in X. congruence.
Qed.

Definition holds_updates (st : state R) (us : list (dict * dict)) : Prop :=
  represents (predictions st) (kept_predictions us) /\ represents (groundtruths st) (kept_groundtruths us).

Lemma reset_holds : holds_updates reset_states [].
Proof. split; split; intros k; cbn; [reflexivity|split; [intros []|intros H; apply H; reflexivity]|reflexivity|
  split; [intros []|intros H; apply H; reflexivity]]. Qed.

Lemma update_holds st us g p : holds_updates st us -> holds_updates (snd (update_state st g p)) (us ++ [(g, p)]).
Proof.
  intros [P G]. unfold holds_updates, kept_predictions, kept_groundtruths, update_state.
  rewrite !check_fields_eq, !filter_app, !map_app. cbn [filter]. unfold good. cbn [snd fst].
  change (good_predictions (g, p)) with (has_fields required_prediction_fields p).
  change (good_groundtruths (g, p)) with (has_fields required_groundtruth_fields g).
  destruct (has_fields required_prediction_fields p); cbn [andb map].
  - destruct (has_fields required_groundtruth_fields g); cbn [snd predictions groundtruths map];
      rewrite ?app_nil_r; split; try (apply append_represents); assumption.
  - cbn [snd]. rewrite !app_nil_r. split; assumption.
Qed.
Lemma update_outcome (st : state R) g p :
  fst (update_state st g p) = if good (g, p) then Ok tt else Err ValueError.
Proof.
  unfold update_state, good. rewrite !check_fields_eq.
  change (good_predictions (g, p)) with (has_fields required_prediction_fields p).
  change (good_groundtruths (g, p)) with (has_fields required_groundtruth_fields g).
  destruct (has_fields required_prediction_fields p); cbn [andb]; [|reflexivity].
  destruct (has_fields required_groundtruth_fields g); reflexivity.
Qed.

Lemma evaluate_args_eq st us : holds_updates st us -> evaluate_args st = arguments us.
Proof.
  intros [P G]. unfold evaluate_args, arguments. cbv zeta.
  rewrite !(lookup_joined _ _ _ P), (optional_joined _ _ _ G), !(lookup_joined _ _ _ G). reflexivity.
Qed.

Variable op : op_args R -> result M.
Lemma evaluate_eq st us : holds_updates st us -> evaluate op st = answer op us.
Proof. intros H. unfold evaluate, answer. rewrite (evaluate_args_eq _ _ H). reflexivity. Qed.

Lemma run_expected cs : forall st us, holds_updates st us -> fst (run op st cs) = expected op us cs.
Proof.
  induction cs as [|c cs IH]; intros st us H; [reflexivity|]. cbn [run]. destruct c as [g p| | |]; cbn [step expected].
  - pose proof (IH _ _ (update_holds _ _ g p H)) as E. destruct (run op (snd (update_state st g p)) cs).
    exact E.
  - unfold result_. rewrite (evaluate_eq _ _ H). destruct (answer op us) as [m|e] eqn:A; cbn [is_ok].
    + pose proof (IH _ _ reset_holds) as E. destruct (run op reset_states cs). cbn [fst] in *. rewrite E. reflexivity.
    + pose proof (IH _ _ H) as E. destruct (run op st cs). cbn [fst] in *. rewrite E. reflexivity.
  - rewrite (evaluate_eq _ _ H). pose proof (IH _ _ H) as E. destruct (run op st cs). cbn [fst] in *.
    rewrite E. reflexivity.
  - pose proof (IH _ _ reset_holds) as E. destruct (run op reset_states cs). exact E.
Qed.
Lemma history_answers cs : fst (run op reset_states cs) = expected op [] cs.
Proof. apply run_expected. exact reset_holds. Qed.

(** Several updates and one. *)
Lemma concat_one (a : array R) : concat_arrays [a] = Ok a.
Proof. cbn. rewrite app_nil_r. destruct a. reflexivity. Qed.
Lemma merges_joined k (ds : list dict) d : merges k ds d -> joined k [d] = joined k ds.
Proof.
  unfold merges, joined. destruct (values k ds) as [|a l]; [intros ->; reflexivity|].
  intros (b & E & ->). rewrite E. apply concat_one.
Qed.
Lemma merges_optional k (ds : list dict) d : merges k ds d -> joined_optional k [d] = joined_optional k ds.
Proof.
  unfold merges, joined_optional. destruct (values k ds) as [|a l]; [intros ->; reflexivity|].
  intros (b & E & ->). rewrite E, concat_one. reflexivity.
Qed.
Lemma filter_all {A} (f : A -> bool) l : Forall (fun x => f x = true) l -> filter f l = l.
Proof. induction 1 as [|x l H _ IH]; [reflexivity|]. cbn. rewrite H, IH. reflexivity. Qed.

Lemma key_values k (d : dict) : In k (map fst d) <-> values k [d] <> [].
Proof.
  unfold values. cbn [flat_map]. rewrite app_nil_r. split.
  - intros I. apply in_map_iff in I. destruct I as (e & E & I). intros X. apply map_eq_nil in X.
    assert (Y : In e (filter (fun e => String.eqb (fst e) k) d))
      by (apply filter_In; split; [exact I|apply String.eqb_eq; exact E]).
    rewrite X in Y. destruct Y.
  - intros H. destruct (filter _ d) as [|e l] eqn:F; [contradiction|].
    assert (Y : In e (filter (fun e => String.eqb (fst e) k) d)) by (rewrite F; left; reflexivity).
    apply filter_In in Y. destruct Y as [Y1 Y2]. apply String.eqb_eq in Y2. subst k. apply in_map. exact Y1.
Qed.
Lemma has_fields_forall fields (d : dict) :
  has_fields fields d = true <-> forall k, In k fields -> In k (map fst d).
Proof.
  unfold has_fields. rewrite forallb_forall. split; intros H k I; specialize (H k I).
  - apply existsb_exists in H. destruct H as (x & X & E). apply String.eqb_eq in E. subst. exact X.
  - apply existsb_exists. exists k. split; [exact H|apply String.eqb_refl].
Qed.
Lemma merges_key k (ds : list dict) d : merges k ds d -> (exists e, In e ds /\ In k (map fst e)) -> In k (map fst d).
Proof.
  intros H (e & I & Ke). apply key_values. unfold merges in H.
  destruct (values k ds) as [|a l] eqn:V.
  - exfalso. apply key_values in Ke. apply in_split in I. destruct I as (l1 & l2 & ->).
    change (e :: l2) with ([e] ++ l2) in V. rewrite !values_app in V.
    apply app_eq_nil in V. destruct V as [_ V]. apply app_eq_nil in V. destruct V as [V _]. exact (Ke V).
  - destruct H as (b & _ & ->). discriminate.
Qed.

Lemma merged_good (us : list (dict * dict)) g p : us <> [] -> Forall (fun u => good u = true) us -> merged us g p -> good (g, p) = true.
Proof.
  intros N F [HP HG]. destruct us as [|u us]; [contradiction|]. inversion F as [|? ? U _]; subst.
  unfold good in *. apply andb_true_iff in U. destruct U as [UP UG]. apply andb_true_iff.
  unfold good_predictions, good_groundtruths in *.
  split; apply has_fields_forall; rewrite has_fields_forall in UP, UG.
  - intros k I. cbn [snd]. apply (merges_key _ _ _ (HP k)). exists (snd u). split; [left; reflexivity|].
    exact (UP k I).
  - intros k I. cbn [fst]. apply (merges_key _ _ _ (HG k)). exists (fst u). split; [left; reflexivity|].
    exact (UG k I).
Qed.

Lemma merged_answer (us : list (dict * dict)) g p : us <> [] -> Forall (fun u => good u = true) us -> merged us g p ->
  answer op [(g, p)] = answer op us.
Proof.
  intros N F Hm. pose proof (merged_good us g p N F Hm) as Gd. destruct Hm as [HP HG].
  assert (F1 : Forall (fun u => good_predictions u = true) us).
  { eapply Forall_impl; [|exact F]. intros u U. apply andb_true_iff in U. exact (proj1 U). }
  assert (Gp : good_predictions (g, p) = true) by (apply andb_true_iff in Gd; exact (proj1 Gd)).
  unfold answer, arguments, kept_predictions, kept_groundtruths. cbv zeta.
  rewrite (filter_all _ _ F1), (filter_all _ _ F). cbn [filter]. rewrite Gp, Gd. cbn [map fst snd].
  rewrite !(fun k => merges_joined k _ _ (HP k)), !(fun k => merges_joined k _ _ (HG k)), (merges_optional _ _ _ (HG _)).
  reflexivity.
Qed.

(** Rows. *)
Lemma concat_rows (l : list (array R)) a : concat_arrays l = Ok a -> rows a = flat_map rows l.
Proof.
  destruct l as [|b l]; cbn [concat_arrays]; [discriminate|]. destruct (forallb _ l); [|discriminate].
  intros E. apply Ok_inj in E. subst a. reflexivity.
Qed.
Lemma joined_rows k (ds : list dict) a : joined k ds = Ok a -> rows a = flat_map rows (values k ds).
Proof.
  unfold joined. destruct (values k ds) as [|b l]; [discriminate|]. apply concat_rows.
Qed.

(** A key with one value in a dictionary. *)
Lemma single_value k (d : dict) : NoDup (map fst d) -> In k (map fst d) ->
  exists a, values k [d] = [a] /\ In (k, a) d.
Proof.
  unfold values. cbn [flat_map]. rewrite app_nil_r. induction d as [|[k0 v] d IH]; intros N I; [destruct I|].
  cbn [map fst] in N. inversion N as [|? ? N1 N2]; subst. cbn [filter fst].
  destruct (String.eqb k0 k) eqn:E.
  - apply String.eqb_eq in E. subst k0. exists v. cbn [map snd]. split; [|left; reflexivity].
    replace (filter (fun e => String.eqb (fst e) k) d) with (@nil (string * array R)); [reflexivity|].
    symmetry. destruct (filter _ d) as [|e l] eqn:F; [reflexivity|]. exfalso. apply N1.
    assert (Y : In e (filter (fun e => String.eqb (fst e) k) d)) by (rewrite F; left; reflexivity).
    apply filter_In in Y. destruct Y as [Y1 Y2]. apply String.eqb_eq in Y2. subst k. apply in_map. exact Y1.
  - destruct I as [I|I]; [cbn in I; subst; rewrite String.eqb_refl in E; discriminate|].
    destruct (IH N2 I) as (a & V & J). exists a. split; [exact V|right; exact J].
Qed.
Lemma values_cons k (d : dict) ds : values k (d :: ds) = values k [d] ++ values k ds.
Proof. unfold values. cbn [flat_map]. rewrite app_nil_r. reflexivity. Qed.

Lemma values_rows k (count : dict -> nat) (ds : list dict) :
  Forall (fun d => NoDup (map fst d) /\ In k (map fst d) /\ aligned [k] (count d) d) ds ->
  List.length (flat_map rows (values k ds)) = list_sum (map count ds).
Proof.
  induction 1 as [|d ds (N & I & A) _ IH]; [reflexivity|]. rewrite values_cons, flat_map_app, app_length, IH.
  destruct (single_value k d N I) as (a & -> & J). cbn [flat_map]. rewrite app_nil_r.
  change (list_sum (map count (d :: ds))) with (count d + list_sum (map count ds))%nat.
  rewrite (A k a (or_introl eq_refl) J : List.length (rows a) = count d). reflexivity.
Qed.
Lemma joined_count k (count : dict -> nat) (ds : list dict) a :
  Forall (fun d => NoDup (map fst d) /\ In k (map fst d) /\ aligned [k] (count d) d) ds ->
  joined k ds = Ok a -> row_count a = list_sum (map count ds).
Proof. intros F J. unfold row_count. rewrite (joined_rows _ _ _ J). apply values_rows. exact F. Qed.

Lemma values_with_key k (ds : list dict) : values k ds = values k (filter (with_key k) ds).
Proof.
  induction ds as [|d ds IH]; [reflexivity|]. rewrite values_cons. cbn [filter].
  destruct (with_key k d) eqn:W.
  - rewrite (values_cons k d (filter (with_key k) ds)), IH. reflexivity.
  - rewrite IH. replace (values k [d]) with (@nil (array R)); [reflexivity|]. symmetry.
    destruct (values k [d]) as [|a l] eqn:V; [reflexivity|]. exfalso.
    assert (X : In k (map fst d)) by (apply key_values; rewrite V; discriminate).
    unfold with_key in W. assert (Y : existsb (String.eqb k) (map fst d) = true); [|congruence].
    apply existsb_exists. exists k. split; [exact X|apply String.eqb_refl].
Qed.
Lemma optional_count k (count : dict -> nat) (ds : list dict) a :
  Forall (fun d => NoDup (map fst d) /\ aligned [k] (count d) d) ds ->
  joined_optional k ds = Ok (Some a) -> row_count a = list_sum (map count (filter (with_key k) ds)).
Proof.
  intros F J. unfold joined_optional in J. unfold row_count.
  rewrite values_with_key in J.
  destruct (values k (filter (with_key k) ds)) as [|b l] eqn:V; [discriminate|].
  dbind J c E. apply Ok_inj in J. assert (c = a) by congruence. subst c.
  rewrite (concat_rows _ _ E), <- V. apply values_rows. apply Forall_forall. intros d I.
  apply filter_In in I. destruct I as [I W]. rewrite Forall_forall in F. destruct (F d I) as [N A].
  split; [exact N|]. split; [|exact A]. unfold with_key in W. apply existsb_exists in W.
  destruct W as (x & X & Y). apply String.eqb_eq in Y. subst. exact X.
Qed.

Lemma kept_all (us : list (dict * dict)) : Forall (fun u => good u = true) us ->
  kept_predictions us = map snd us /\ kept_groundtruths us = map fst us.
Proof.
  intros F. unfold kept_predictions, kept_groundtruths.
  assert (F1 : Forall (fun u => good_predictions u = true) us).
  { eapply Forall_impl; [|exact F]. intros u U. apply andb_true_iff in U. exact (proj1 U). }
  rewrite (filter_all _ _ F1), (filter_all _ _ F). split; reflexivity.
Qed.

Lemma arguments_rows (np ng : dict -> nat) (us : list (dict * dict)) a :
  Forall (fun u => good u = true
     /\ NoDup (map fst (snd u)) /\ aligned prediction_fields (np (snd u)) (snd u)
     /\ NoDup (map fst (fst u))
     /\ aligned ("ground_truth_speed"%string :: groundtruth_fields) (ng (fst u)) (fst u)) us ->
  arguments us = Ok a ->
  Forall (fun x => row_count x = list_sum (map np (map snd us)))
    [a_pred_bbox a; a_pred_type a; a_pred_score a; a_pred_frame_id a; a_pred_overlap_nlz a]
  /\ Forall (fun x => row_count x = list_sum (map ng (map fst us)))
    [a_gt_bbox a; a_gt_type a; a_gt_frame_id a; a_gt_difficulty a]
  /\ forall s, a_gt_speed a = Some s ->
       row_count s = list_sum (map ng (filter (with_key "ground_truth_speed") (map fst us))).
Proof.
  intros F E.
  assert (FG : Forall (fun u => good u = true) us)
    by (eapply Forall_impl; [|exact F]; intros u U; exact (proj1 U)).
  unfold arguments in E. destruct (kept_all us FG) as [-> ->] in E. cbv zeta in E.
  dbind E pb E1. dbind E pt E2. dbind E ps E3. dbind E pf E4. dbind E pn E5.
  dbind E gb E6. dbind E gty E7. dbind E gf E8. dbind E gd E9. dbind E gs E10.
  apply Ok_inj in E. subst a.
  cbn [a_pred_bbox a_pred_type a_pred_score a_pred_frame_id a_pred_overlap_nlz a_gt_bbox a_gt_type
       a_gt_frame_id a_gt_difficulty a_gt_speed].
  assert (P : forall k, In k prediction_fields ->
    Forall (fun d => NoDup (map fst d) /\ In k (map fst d) /\ aligned [k] (np d) d) (map snd us)).
  { intros k I. apply Forall_forall. intros d J. apply in_map_iff in J. destruct J as (u & <- & J).
    rewrite Forall_forall in F. destruct (F u J) as (U1 & U2 & U3 & _). split; [exact U2|]. split.
    - apply andb_true_iff in U1. destruct U1 as [U1 _]. exact (proj1 (has_fields_forall _ _) U1 k I).
    - intros k' x [<-|[]] X. exact (U3 k x I X). }
  assert (G : forall k, In k groundtruth_fields ->
    Forall (fun d => NoDup (map fst d) /\ In k (map fst d) /\ aligned [k] (ng d) d) (map fst us)).
  { intros k I. apply Forall_forall. intros d J. apply in_map_iff in J. destruct J as (u & <- & J).
    rewrite Forall_forall in F. destruct (F u J) as (U1 & _ & _ & U2 & U3). split; [exact U2|]. split.
    - apply andb_true_iff in U1. destruct U1 as [_ U1]. exact (proj1 (has_fields_forall _ _) U1 k I).
    - intros k' x [<-|[]] X. exact (U3 k x (or_intror I) X). }
  split; [|split].
  - repeat constructor; (eapply joined_count; [|eassumption]); apply P; cbn; tauto.
  - repeat constructor; (eapply joined_count; [|eassumption]); apply G; cbn; tauto.
  - intros s ->. eapply optional_count; [|exact E10]. apply Forall_forall. intros d J.
    apply in_map_iff in J. destruct J as (u & <- & J). rewrite Forall_forall in F.
    destruct (F u J) as (_ & _ & _ & U2 & U3). split; [exact U2|].
    intros k' x [<-|[]] X. exact (U3 _ x (or_introl eq_refl) X).
Qed.

(** Other keys. *)
Lemma values_without k k' (ds : list dict) : k <> k' ->
  values k (map (filter (fun e => negb (String.eqb (fst e) k'))) ds) = values k ds.
Proof.
  intros N. unfold values. induction ds as [|d ds IH]; [reflexivity|]. cbn [map flat_map]. rewrite IH. f_equal.
  f_equal. induction d as [|e d IHd]; [reflexivity|]. cbn [filter].
  destruct (String.eqb (fst e) k') eqn:E'; cbn [negb filter].
  - apply String.eqb_eq in E'. rewrite IHd, E'. destruct (String.eqb_spec k' k); [congruence|reflexivity].
  - rewrite IHd. reflexivity.
Qed.
Lemma fields_without fields k' (d : dict) : ~ In k' fields ->
  has_fields fields (filter (fun e => negb (String.eqb (fst e) k')) d) = has_fields fields d.
Proof.
  intros N. apply Bool.eq_true_iff_eq. rewrite !has_fields_forall. split; intros H k I; specialize (H k I).
  - apply in_map_iff in H. destruct H as (e & <- & J). apply filter_In in J. apply in_map. exact (proj1 J).
  - apply in_map_iff in H. destruct H as (e & E & J). apply in_map_iff. exists e. split; [exact E|].
    apply filter_In. split; [exact J|]. destruct (String.eqb_spec (fst e) k'); [|reflexivity].
    exfalso. apply N. congruence.
Qed.
Lemma other_keys k' (us : list (dict * dict)) :
  ~ In k' ("ground_truth_speed"%string :: prediction_fields ++ groundtruth_fields) ->
  answer op (map (fun u => (filter (fun e => negb (String.eqb (fst e) k')) (fst u),
                            filter (fun e => negb (String.eqb (fst e) k')) (snd u))) us) = answer op us.
Proof.
  intros N. set (strip := filter (fun e : string * array R => negb (String.eqb (fst e) k'))).
  set (us' := map _ us).
  assert (NP : ~ In k' prediction_fields) by (intros X; apply N; right; apply in_or_app; left; exact X).
  assert (NG : ~ In k' groundtruth_fields) by (intros X; apply N; right; apply in_or_app; right; exact X).
  assert (P : kept_predictions us' = map strip (kept_predictions us)
              /\ kept_groundtruths us' = map strip (kept_groundtruths us)).
  { unfold us', kept_predictions, kept_groundtruths. clear us'. induction us as [|u us [IH1 IH2]]; [split; reflexivity|].
    assert (Q1 : good_predictions (strip (fst u), strip (snd u)) = good_predictions u)
      by (exact (fields_without _ _ _ NP)).
    assert (Q2 : good (strip (fst u), strip (snd u)) = good u).
    { unfold good. rewrite Q1. f_equal. exact (fields_without _ _ _ NG). }
    cbn [map filter]. fold strip. rewrite Q1, Q2.
    split; [destruct (good_predictions u)|destruct (good u)]; cbn [map fst snd]; rewrite ?IH1, ?IH2; try reflexivity;
      assumption. }
  destruct P as [P1 P2]. unfold answer, arguments. rewrite P1, P2. cbv zeta.
  assert (J : forall k ds, k <> k' -> joined k (map strip ds) = joined k ds)
    by (intros k ds D; unfold joined; rewrite (values_without _ _ _ D); reflexivity).
  assert (JO : forall k ds, k <> k' -> joined_optional k (map strip ds) = joined_optional k ds)
    by (intros k ds D; unfold joined_optional; rewrite (values_without _ _ _ D); reflexivity).
  rewrite JO by (intros <-; apply N; left; reflexivity).
  rewrite !J by (intros <-; apply N; cbn; tauto). reflexivity.
Qed.

Lemma list_sum_filter {A} (f : A -> bool) (c : A -> nat) l :
  list_sum (map c (filter f l)) = list_sum (map c l) <-> forall x, In x l -> f x = false -> c x = 0%nat.
Proof.
  assert (Le : forall l, (list_sum (map c (filter f l)) <= list_sum (map c l))%nat).
  { induction l0 as [|x l0 IH]; [apply le_n|]. cbn [filter].
    change (list_sum (map c (x :: l0))) with (c x + list_sum (map c l0))%nat.
    destruct (f x).
    - change (list_sum (map c (x :: filter f l0))) with (c x + list_sum (map c (filter f l0)))%nat. lia.
    - lia. }
  induction l as [|x l IH]; [split; [intros _ x []|reflexivity]|]. cbn [filter].
  change (list_sum (map c (x :: l))) with (c x + list_sum (map c l))%nat. specialize (Le l).
  destruct (f x) eqn:Fx.
  - change (list_sum (map c (x :: filter f l))) with (c x + list_sum (map c (filter f l)))%nat.
    split.
    + intros E. assert (E' : list_sum (map c (filter f l)) = list_sum (map c l)) by lia.
      intros y [<-|I] Fy; [congruence|]. exact (proj1 IH E' y I Fy).
    + intros H. rewrite (proj2 IH); [reflexivity|]. intros y I. apply H. right. exact I.
  - split.
    + intros E. intros y [<-|I] Fy; [lia|]. apply (proj1 IH); [lia|exact I|exact Fy].
    + intros H. rewrite (proj2 IH); [|intros y I; apply H; right; exact I].
      rewrite (H x (or_introl eq_refl) Fx). reflexivity.
Qed.

Lemma speed_rows (np ng : dict -> nat) (us : list (dict * dict)) a s :
  Forall (fun u => good u = true
     /\ NoDup (map fst (snd u)) /\ aligned prediction_fields (np (snd u)) (snd u)
     /\ NoDup (map fst (fst u))
     /\ aligned ("ground_truth_speed"%string :: groundtruth_fields) (ng (fst u)) (fst u)) us ->
  arguments us = Ok a -> a_gt_speed a = Some s ->
  (row_count s = row_count (a_gt_bbox a)
   <-> forall u, In u us -> with_key "ground_truth_speed" (fst u) = false -> ng (fst u) = 0%nat).
Proof.
  intros F E S. destruct (arguments_rows np ng us a F E) as (_ & G & H). rewrite (H s S).
  inversion G as [|? ? G1 _]; subst. rewrite G1, list_sum_filter. split.
  - intros X u I W. apply X; [apply in_map; exact I|exact W].
  - intros X d I W. apply in_map_iff in I. destruct I as (u & <- & I). exact (X u I W).
Qed.

Lemma rejected_predictions (st : state R) g p : good_predictions (g, p) = false ->
  update_state st g p = (Err ValueError, st).
Proof.
  intros H. unfold update_state. rewrite check_fields_eq. change (has_fields required_prediction_fields p)
    with (good_predictions (g, p)). rewrite H. reflexivity.
Qed.
Lemma failed_result st e : evaluate op st = Err e -> result_ op st = (Err e, st).
Proof. intros H. unfold result_. rewrite H. reflexivity. Qed.
Lemma done_result st m : evaluate op st = Ok m -> result_ op st = (Ok m, reset_states).
Proof. intros H. unfold result_. rewrite H. reflexivity. Qed.
End Proofs.
