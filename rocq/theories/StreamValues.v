From Coq Require Import String Ascii Permutation FinFun.
From Verif Require Import Base ResultLib BreakdownModel BreakdownSpec BreakdownNames StreamModel StreamSpec StreamProofs StreamDict.
Open Scope list_scope.
Open Scope Z_scope.

(** ** Names of real configurations *)
Fixpoint slash_free (s : string) : bool :=
  match s with EmptyString => true | String c s' => negb (Ascii.eqb c slash) && slash_free s' end.
Lemma slash_free_iff s : slash_free s = true <-> no_slash s.
Proof.
  unfold no_slash. induction s as [|c s IH]; cbn [slash_free list_ascii_of_string In]; [tauto|].
  rewrite andb_true_iff, negb_true_iff, Ascii.eqb_neq, IH. intuition.
Qed.
Lemma slash_free_app a b : slash_free (a ++ b) = slash_free a && slash_free b.
Proof. induction a as [|c a IH]; cbn [String.append slash_free]; [reflexivity|]. rewrite IH, andb_assoc. reflexivity. Qed.
Lemma cat_free l : forallb slash_free l = true -> slash_free (cat l) = true.
Proof.
  unfold cat. induction l as [|a l IH]; cbn [forallb String.concat]; [reflexivity|]. intros H. apply andb_true_iff in H as [H1 H2].
  destruct l as [|b l]; [exact H1|]. rewrite slash_free_app, H1. cbn [andb String.append]. exact (IH H2).
Qed.
Lemma py_index_in {A} (l : list A) i a : py_index l i = Ok a -> In a l.
Proof. unfold py_index. destruct (nth_error l (Z.to_nat i)) eqn:E; [|discriminate]. intros [= <-]. apply nth_error_In in E. exact E. Qed.
Lemma type_free t : In t py_types -> slash_free (type_name_of_num t) = true.
Proof. cbn [py_types In]. intros H. repeat (destruct H as [<-|H]; [reflexivity|]). destruct H. Qed.
Lemma bucket_free g b : In b (py_buckets g) -> slash_free b = true.
Proof. destruct g; cbn [py_buckets In]; intros H; repeat (destruct H as [<-|H]; [reflexivity|]); destruct H. Qed.
Lemma shard_free g s n : py_shard_name g s = Ok n -> slash_free n = true.
Proof.
  destruct g; cbn [py_shard_name]; try discriminate; try (intros [= <-]; reflexivity);
    try (intros H; apply py_index_in, bucket_free in H; exact H).
  all: destruct (py_index py_types _) as [t|] eqn:T; cbn [bind]; [|discriminate]; apply py_index_in, type_free in T.
  all: try (destruct (py_index (py_buckets _) _) as [b|] eqn:B; cbn [bind]; [|discriminate]; apply py_index_in, bucket_free in B).
  all: intros [= <-]; apply cat_free; cbn [forallb]; rewrite T, ?B; reflexivity.
Qed.
Theorem names_no_slash c names : py_names c = Ok names -> Forall no_slash names.
Proof.
  unfold py_names. destruct (mapM _ _) as [ls|] eqn:E; cbn [bind]; [|discriminate]. intros [= <-].
  apply mapM_inv in E. apply Forall_forall. intros n I. apply in_concat in I as (l & I & J).
  assert (G : forall (P : list string -> Prop) (f : nat * genid -> result (list string)) xs rs,
            Forall2 (fun a b => f a = Ok b) xs rs -> (forall a b, f a = Ok b -> P b) -> forall b, In b rs -> P b).
  { clear. intros P f xs rs F H. induction F as [|a b xs rs A _ IH]; intros y I; [destruct I|]. destruct I as [<-|I]; eauto. }
  refine (G (fun l => forall n, In n l -> no_slash n) _ _ _ E _ l I n J). clear. intros [i g] l.
  destruct (py_num_shards g) as [k|]; cbn [bind]; [|discriminate].
  destruct (mapM _ _) as [ns|] eqn:E; cbn [bind]; [|discriminate]. intros [= <-] n I. apply in_concat in I as (l & I & J).
  apply mapM_inv in E. revert E. generalize (zrange k) as ss. intros ss E. revert I. induction E as [|s x ss ns A _ IH]; intros I; [destruct I|]. destruct I as [->|I]; [|exact (IH I)].
  destruct (py_index (difficulties c) (Z.of_nat i)) as [lv|]; cbn [bind] in A; [|discriminate].
  destruct (py_shard_name g s) as [nm|] eqn:S; cbn [bind] in A; [|discriminate]. apply shard_free in S.
  apply slash_free_iff. destruct lv as [|l0 lv].
  - injection A as <-. destruct J as [<-|[]]. apply cat_free. cbn [forallb]. rewrite S. reflexivity.
  - injection A as <-. rewrite <- (map_cons (fun l => cat [nm; "_"%string; level_name l])) in J.
    apply in_map_iff in J as (lv0 & <- & _). apply cat_free. cbn [forallb]. rewrite S. destruct lv0; reflexivity.
Qed.

(** Names without repetition: the update is kept exactly when some name is. *)
Lemma last_nodup names name i : NoDup names -> nth_error names i = Some name -> last_at names name i.
Proof.
  intros N E. split; [exact E|]. intros j J. assert (B : (i < length names)%nat) by (apply nth_error_Some; congruence).
  rewrite (proj1 (NoDup_nth_error names) N i j B); [lia|congruence].
Qed.
Lemma first_kept_exists filter names : (exists n, In n names /\ kept filter n) -> exists i, first_kept filter names i.
Proof.
  induction names as [|x names IH]; intros (n & I & K); [destruct I|].
  destruct (keepb filter x) eqn:X.
  - exists 0%nat. split; [exists x; split; [reflexivity|apply keepb_iff; exact X]|]. intros j ? L. lia.
  - destruct I as [->|I]; [apply keepb_iff in K; congruence|]. destruct (IH (ex_intro _ n (conj I K))) as [i [(m & A & B) C]].
    exists (S i). split; [exists m; split; assumption|]. intros [|j] y L J; cbn [nth_error] in J.
    + injection J as ->. rewrite <- keepb_iff, X. discriminate.
    + exact (C j y ltac:(lia) J).
Qed.
Lemma carried_iff filter names : NoDup names ->
  ((exists i name, first_kept filter names i /\ last_at names name i) <-> exists n, In n names /\ kept filter n).
Proof.
  intros N. split.
  - intros (i & name & [(n & A & K) _] & _). exists n. split; [apply nth_error_In in A; exact A|exact K].
  - intros H. destruct (first_kept_exists _ _ H) as [i F]. destruct F as [(n & A & K) C]. exists i, n.
    split; [split; [exists n; split; assumption|exact C]|]. apply last_nodup; assumption.
Qed.

(** The statements for the three functions. *)
Lemma detection_nodup show recall filter names : NoDup (map fst (detection_metric_ops show recall filter names)).
Proof. rewrite detection_gloop. apply gloop_nodup. Qed.
Lemma tracking_nodup names : NoDup (map fst (tracking_metric_ops names)).
Proof. unfold tracking_metric_ops. rewrite plain_gloop. apply gloop_nodup. Qed.
Lemma motion_nodup names : NoDup (map fst (motion_metric_ops names)).
Proof. unfold motion_metric_ops. rewrite plain_gloop. apply gloop_nodup. Qed.

Theorem detection_once show recall filter names s b : Forall no_slash names ->
  let d := detection_metric_ops show recall filter names in
  ((exists i name, first_kept filter names i /\ last_at names name i) ->
     run_updates Detection d s b = run_update Detection s b /\ run_updates_together Detection d s b = run_update Detection s b) /\
  (~ (exists i name, first_kept filter names i /\ last_at names name i) ->
     run_updates Detection d s b = Ok s /\ run_updates_together Detection d s b = Ok s).
Proof. intros NS d. exact (updates_once _ d filter names _ _ (detection_reports _ _ _ _ NS) (detection_nodup _ _ _ _) (detection_first _ _) s b). Qed.
Theorem tracking_once names s b : Forall no_slash names ->
  let d := tracking_metric_ops names in
  ((exists i name, first_kept None names i /\ last_at names name i) ->
     run_updates Tracking d s b = run_update Tracking s b /\ run_updates_together Tracking d s b = run_update Tracking s b) /\
  (~ (exists i name, first_kept None names i /\ last_at names name i) ->
     run_updates Tracking d s b = Ok s /\ run_updates_together Tracking d s b = Ok s).
Proof. intros NS d. exact (updates_once _ d None names _ _ (tracking_reports _ NS) (tracking_nodup _) tracking_first s b). Qed.
Theorem motion_once names s b : Forall no_slash names ->
  let d := motion_metric_ops names in
  ((exists i name, first_kept None names i /\ last_at names name i) ->
     run_updates MotionFamily d s b = run_update MotionFamily s b /\ run_updates_together MotionFamily d s b = run_update MotionFamily s b) /\
  (~ (exists i name, first_kept None names i /\ last_at names name i) ->
     run_updates MotionFamily d s b = Ok s /\ run_updates_together MotionFamily d s b = Ok s).
Proof. intros NS d. exact (updates_once _ d None names _ _ (motion_reports _ NS) (motion_nodup _) motion_first s b). Qed.

(** A configuration without repeated generators or levels. *)
Theorem config_once show recall filter c names s b : NoDup (generators c) -> (forall l, In l (difficulties c) -> NoDup l) ->
  py_names c = Ok names -> (exists n, In n names /\ kept filter n) ->
  run_updates Detection (detection_metric_ops show recall filter names) s b = run_update Detection s b /\
  run_updates_together Detection (detection_metric_ops show recall filter names) s b = run_update Detection s b.
Proof.
  intros G L P K. pose proof (names_no_slash c names P) as NS.
  assert (N : NoDup names).
  { pose proof (names_agree_all c) as A. destruct (cpp_names c) as [ns|] eqn:E.
    - apply (names_nodup c names G L). unfold agree in A. rewrite P in A. congruence.
    - unfold agree in A. rewrite P in A. destruct A. }
  destruct (detection_once show recall filter names s b NS) as [A _]. apply A. apply carried_iff; assumption.
Qed.

(** ** Recall at a precision *)
Open Scope Q_scope.
Lemma qmax_l a b : a <= qmax a b.
Proof. unfold qmax. destruct (Qle_bool a b) eqn:E; [apply Qle_bool_iff, E|apply Qle_refl]. Qed.
Lemma qmax_r a b : b <= qmax a b.
Proof.
  unfold qmax. destruct (Qle_bool a b) eqn:E; [apply Qle_refl|]. destruct (Qlt_le_dec a b) as [H|H]; [|exact H].
  apply Qlt_le_weak, Qle_bool_iff in H. congruence.
Qed.
Lemma fold_qmax l : forall x, (In (fold_left qmax l x) (x :: l)) /\ forall y, In y (x :: l) -> y <= fold_left qmax l x.
Proof.
  induction l as [|a l IH]; intros x; cbn [fold_left].
  - split; [left; reflexivity|]. intros y [->|[]]. apply Qle_refl.
  - destruct (IH (qmax x a)) as [I B]. split.
    + destruct I as [I|I]; [|right; right; exact I]. rewrite <- I. unfold qmax. destruct (Qle_bool x a); [right; left; reflexivity|left; reflexivity].
    + intros y H. assert (T : qmax x a <= fold_left qmax l (qmax x a)) by (apply B; left; reflexivity).
      destruct H as [->|[->|H]]; [apply Qle_trans with (2 := T), qmax_l|apply Qle_trans with (2 := T), qmax_r|].
      apply B. right. exact H.
Qed.
Lemma masked p x : masked_recall p x = if negb (Qle_bool (fst x) p) then snd x else 0.
Proof. reflexivity. Qed.
Lemma above p (x : Q * Q) : negb (Qle_bool (fst x) p) = true <-> p < fst x.
Proof.
  rewrite negb_true_iff. split; intros H.
  - destruct (Qlt_le_dec p (fst x)) as [L|L]; [exact L|]. apply Qle_bool_iff in L. congruence.
  - apply not_true_is_false. rewrite Qle_bool_iff. apply Qlt_not_le, H.
Qed.
Theorem recall_best p pr : pr <> [] -> (forall x, In x pr -> 0 <= snd x) ->
  exists v, recall_at p pr = Some v /\ best_recall p pr v.
Proof.
  intros NE NN. unfold recall_at. destruct (map (masked_recall p) pr) as [|x l] eqn:M; [destruct pr; [congruence|discriminate]|].
  exists (fold_left qmax l x). split; [reflexivity|]. destruct (fold_qmax l x) as [I B]. rewrite <- M in I, B. split.
  - intros y J A. apply (in_map (masked_recall p)) in J as J'. apply B in J'. rewrite masked, (proj2 (above p y) A) in J'. exact J'.
  - apply in_map_iff in I as (y & E & J). rewrite masked in E. destruct (negb (Qle_bool (fst y) p)) eqn:A.
    + left. exists y. split; [exact J|]. split; [apply above; exact A|exact E].
    + right. split; [symmetry; exact E|]. intros z Jz Az. apply (in_map (masked_recall p)) in Jz as J'. apply B in J'.
      rewrite masked, (proj2 (above p z) Az) in J'. rewrite <- E in J'. apply Qle_antisym; [exact J'|]. exact (NN z Jz).
Qed.
Theorem recall_one pr : pr <> [] -> (forall x, In x pr -> fst x <= 1) -> recall_at 1 pr = Some 0.
Proof.
  intros NE H. unfold recall_at. destruct (map (masked_recall 1) pr) as [|x l] eqn:M; [destruct pr; [congruence|discriminate]|].
  destruct (fold_qmax l x) as [I _]. rewrite <- M in I. apply in_map_iff in I as (y & E & J). rewrite <- E, masked.
  specialize (H y J). apply Qle_bool_iff in H. rewrite H. reflexivity.
Qed.

(** ** Motion *)
Open Scope Z_scope.
Theorem documented_accepted b m k n tp tg a ids :
  motion_sizes (documented b m k n tp tg a ids) =
  if Z.eqb a n then Ok (Some m, Some k, Some n, Some tp, Some tg) else Err AssertionError.
Proof.
  unfold motion_sizes, documented, assert_dim. cbn [nth_error same_dim s_prediction_trajectory s_ground_truth_trajectory].
  cbn [bind Z.eqb Pos.eqb]. destruct (Z.eqb a n) eqn:E; cbn [bind]; [|reflexivity].
  cbn [nth_error same_dim s_prediction_score s_ground_truth_is_valid s_prediction_ground_truth_indices s_prediction_ground_truth_indices_mask s_object_type s_object_id].
  rewrite E, !Z.eqb_refl. cbn [bind]. destruct ids; cbn [nth_error same_dim]; rewrite ?E; reflexivity.
Qed.
Lemma range_nodup dec n : (forall x y, 0 <= x -> 0 <= y -> dec x = dec y -> x = y) -> NoDup (data (default_scenario_id dec n)).
Proof.
  intros I. cbn [default_scenario_id data]. apply Injective_map_NoDup; [|apply seq_NoDup].
  intros x y [= E]. apply I in E; lia.
Qed.
Theorem default_ids dec sizes : (forall x y, 0 <= x -> 0 <= y -> dec x = dec y -> x = y) ->
  forall k l i j, (i < nth k sizes 0)%nat -> (j < nth l sizes 0)%nat ->
    (nth i (data (default_scenario_id dec (nth k sizes 0%nat))) (CS "") = nth j (data (default_scenario_id dec (nth l sizes 0%nat))) (CS "") <-> i = j).
Proof.
  intros I k l i j A B.
  assert (V : forall n r, (r < n)%nat -> nth r (data (default_scenario_id dec n)) (CS "") = CS (dec (Z.of_nat r))).
  { intros n r L. cbn [default_scenario_id data]. set (g := fun i => CS (dec (Z.of_nat i))).
    rewrite (nth_indep _ (CS "") (g 0%nat)) by (rewrite map_length, seq_length; exact L). rewrite map_nth, seq_nth by exact L. reflexivity. }
  rewrite !V by assumption. split; [|intros ->; reflexivity]. intros [= E]. apply I in E; lia.
Qed.
Theorem default_ids_distinct dec sizes : (forall x y, 0 <= x -> 0 <= y -> dec x = dec y -> x = y) ->
  (NoDup (concat (map (fun n => data (default_scenario_id dec n)) sizes)) <->
   forall k l, k <> l -> nth k sizes 0%nat = 0%nat \/ nth l sizes 0%nat = 0%nat).
Proof.
  intros I. induction sizes as [|n sizes IH].
  - cbn. split; [intros _ [|k] [|l] _; left; reflexivity|constructor].
  - cbn [map concat]. destruct n as [|n].
    + cbn [default_scenario_id data seq map app]. rewrite IH. split; intros H k l Q.
      * destruct k as [|k]; [left; reflexivity|]. destruct l as [|l]; [right; reflexivity|]. cbn [nth]. apply H. congruence.
      * apply (H (S k) (S l)). congruence.
    + split.
      * intros N k l Q.
        assert (Z0 : forall j, nth j sizes 0%nat = 0%nat).
        { intros j. destruct (nth j sizes 0%nat) as [|m] eqn:E; [reflexivity|]. exfalso.
          assert (J : In (S m) sizes). { rewrite <- E. apply nth_In. destruct (Nat.lt_ge_cases j (length sizes)) as [L|L]; [exact L|]. rewrite nth_overflow in E by exact L. discriminate. }
          cbn [default_scenario_id data seq map app] in N. inversion N as [|? ? N1 _]; subst. apply N1. apply in_or_app. right.
          apply in_concat. exists (data (default_scenario_id dec (S m))). split; [apply in_map_iff; exists (S m); split; [reflexivity|exact J]|].
          cbn [default_scenario_id data seq map]. left. reflexivity. }
        destruct k as [|k]; [|left; cbn [nth]; apply Z0]. destruct l as [|l]; [congruence|]. right. cbn [nth]. apply Z0.
      * intros H. assert (Z0 : forall m, In m sizes -> m = 0%nat).
        { intros m J. apply In_nth with (d := 0%nat) in J as (j & _ & E). destruct (H 0%nat (S j) ltac:(congruence)) as [Q|Q]; cbn [nth] in Q; [discriminate|congruence]. }
        replace (concat (map (fun n => data (default_scenario_id dec n)) sizes)) with (@nil cell).
        -- rewrite app_nil_r. apply range_nodup, I.
        -- clear -Z0. induction sizes as [|m sizes IH]; [reflexivity|]. cbn [map concat]. rewrite (Z0 m (or_introl eq_refl)).
           cbn [default_scenario_id data seq map app]. apply IH. intros y J. apply Z0. right. exact J.
Qed.

(** ** Splitting the data into batches *)
Definition feeds (f : family) (bs : list (list (string * tensor))) : list event := map (fun b => Feed f 0%nat b) bs.
Lemma fed_feeds f x bs : forall acc, fed f x (feeds f bs) acc = acc ++ concat (map (given x) bs).
Proof.
  induction bs as [|b bs IH]; intros acc; cbn [feeds map fed concat]; [rewrite app_nil_r; reflexivity|].
  rewrite (proj2 (same_family_iff f f) eq_refl). rewrite IH, app_assoc. reflexivity.
Qed.
Lemma feeds_history ls f d bs : declares (ls f) d -> Forall (batch_ok (ls f)) bs -> history_ok ls (Init f d :: feeds f bs).
Proof.
  intros D B. split.
  - intros e [<-|I]; [exact D|]. apply in_map_iff in I as (b & <- & I). rewrite Forall_forall in B. exact (B b I).
  - intros h1 g c b h2 E. destruct h1 as [|e h1]; cbn [app] in E; [discriminate|]. injection E as <- E.
    assert (I : In (Feed g c b) (feeds f bs)) by (rewrite E; apply in_or_app; right; left; reflexivity).
    apply in_map_iff in I as (b' & [= <- <- <-] & _). exists d. left. reflexivity.
Qed.
Theorem split_independent l f d bs bs' s0 s0' : layout_ok l -> declares l d -> Forall (batch_ok l) bs -> Forall (batch_ok l) bs' ->
  (forall x, concat (map data (concat (map (given x) bs))) = concat (map data (concat (map (given x) bs'))) /\
             list_sum (map first_dim (concat (map (given x) bs))) = list_sum (map first_dim (concat (map (given x) bs')))) ->
  exists s s', run s0 (Init f d :: feeds f bs) = Ok s /\ run s0' (Init f d :: feeds f bs') = Ok s' /\
    forall x, In x (map fst l) -> s (variable_name f x) = s' (variable_name f x) /\ s (variable_name f x) <> None.
Proof.
  intros LO D B B' E.
  destruct (accumulates (fun _ => l) (Init f d :: feeds f bs) s0 (fun _ => LO) (feeds_history (fun _ => l) f d bs D B)) as (s & R & A).
  destruct (accumulates (fun _ => l) (Init f d :: feeds f bs') s0' (fun _ => LO) (feeds_history (fun _ => l) f d bs' D B')) as (s' & R' & A').
  exists s, s'. split; [exact R|]. split; [exact R'|]. intros x I. apply in_map_iff in I as ([y t] & <- & I). cbn [fst].
  rewrite (A f (ex_intro _ d (or_introl eq_refl)) y t I), (A' f (ex_intro _ d (or_introl eq_refl)) y t I). cbn [fed].
  rewrite (proj2 (same_family_iff f f) eq_refl), !fed_feeds. cbn [app]. destruct (E y) as [E1 E2]. unfold all_rows. rewrite E1, E2.
  split; [reflexivity|discriminate].
Qed.

(** ** The declared fields *)
Ltac layout_tac := split; [cbn; repeat constructor; cbn [In]; intros H; repeat (destruct H as [H|H]; [discriminate|]); destruct H
                          |intros x t I; cbn in I; repeat (destruct I as [I|I]; [injection I as <- <-; cbn; lia|]); destruct I].
Theorem detection_layout b : b <> BOX_UNKNOWN -> layout_ok (detection_fields (box_width b)) /\ declares (detection_fields (box_width b)) (detection_decl b).
Proof. intros N. destruct b; [congruence| | |]; (split; [layout_tac|reflexivity]). Qed.
Theorem tracking_layout b : b <> BOX_UNKNOWN -> layout_ok (tracking_fields (box_width b)) /\ declares (tracking_fields (box_width b)) (tracking_decl b).
Proof. intros N. destruct b; [congruence| | |]; (split; [layout_tac|reflexivity]). Qed.
Theorem motion_layout m k n tp tg : (0 < m)%nat -> (0 < k)%nat -> (0 < n)%nat -> (0 < tp)%nat -> (0 < tg)%nat ->
  layout_ok (motion_fields m k n tp tg) /\
  declares (motion_fields m k n tp tg) (motion_decl (Z.of_nat m) (Z.of_nat k) (Z.of_nat n) (Z.of_nat tp) (Z.of_nat tg)).
Proof.
  intros. split; [|reflexivity]. split.
  - cbn. repeat constructor; cbn [In]; intros Q; repeat (destruct Q as [Q|Q]; [discriminate|]); destruct Q.
  - intros x t I. unfold motion_fields in I. cbn [In] in I.
    repeat (destruct I as [I|I]; [injection I as <- <-; unfold size; cbn [fold_right]; repeat apply Nat.mul_pos_pos; first [assumption|lia]|]); destruct I.
Qed.
(** ** The batches that are fed *)
Lemma zero_speed_still boxes t : zero_speed boxes = Ok t -> still boxes t.
Proof.
  unfold zero_speed, rows. destruct (shape boxes) as [|n rest] eqn:E; cbn [bind]; [discriminate|]. intros Q. injection Q as <-. exists n, rest. split; [exact E|]. split; [reflexivity|]. cbn [data].
  split; [apply repeat_length|]. intros c I. apply repeat_spec in I. exact I.
Qed.
Ltac nodup_tac := cbn [map fst]; repeat constructor; cbn [In]; intros H; repeat (destruct H as [H|H]; [discriminate|]); destruct H.
Ltac fields_tac := intros ? ?; cbn [In]; split;
  [intros H; repeat (destruct H as [H|H]; [injection H as <- <-; tauto|]); destruct H
  |intros H; repeat (destruct H as [[-> ->]|H]; [tauto|]); destruct H as [-> ->]; tauto].
Theorem detection_fed x b : detection_dict x = Ok b -> detection_feeds x b.
Proof.
  unfold detection_dict. destruct (default (d_ground_truth_speed x) _) as [speed|] eqn:D; cbn [bind]; [|discriminate]. intros E. injection E as <-. exists speed. split; [|split; [nodup_tac|fields_tac]].
  unfold argument_or. destruct (d_ground_truth_speed x); cbn [default] in D; [injection D as <-; reflexivity|apply zero_speed_still; exact D].
Qed.
Theorem tracking_fed x b : tracking_dict x = Ok b -> tracking_feeds x b.
Proof.
  unfold tracking_dict. destruct (default (t_ground_truth_speed x) _) as [speed|] eqn:D; cbn [bind]; [|discriminate].
  destruct (default (t_prediction_overlap_nlz x) _) as [nlz|] eqn:F; cbn [bind]; [|discriminate]. intros E. injection E as <-. exists speed, nlz. split; [|split; [|split; [nodup_tac|fields_tac]]].
  - unfold argument_or. destruct (t_ground_truth_speed x); cbn [default] in D; [injection D as <-; reflexivity|apply zero_speed_still; exact D].
  - unfold argument_or. destruct (t_prediction_overlap_nlz x); cbn [default] in F; injection F as <-; [reflexivity|]. split; [reflexivity|]. cbn [data]. split; [apply map_length|].
    intros c I. apply in_map_iff in I. destruct I as (y & <- & _). reflexivity.
Qed.
Lemma repeat_concat_nth {A} (l : list A) b : forall i j, (i < b)%nat -> (j < length l)%nat -> nth_error (concat (repeat l b)) (i * length l + j) = nth_error l j.
Proof.
  induction b as [|b IH]; intros i j I J; [lia|]. cbn [repeat concat]. destruct i as [|i].
  - cbn [Nat.mul Nat.add]. apply nth_error_app1. exact J.
  - rewrite nth_error_app2 by (cbn [Nat.mul]; lia). replace (S i * length l + j - length l)%nat with (i * length l + j)%nat by (cbn [Nat.mul]; lia). apply IH; [lia|exact J].
Qed.
Theorem motion_fed dec n x b : motion_dict dec n x = Ok b -> motion_feeds dec n x b.
Proof.
  unfold motion_dict. destruct (default (m_object_id x) _) as [ids|] eqn:D; cbn [bind]; [|discriminate].
  destruct (default (m_scenario_id x) _) as [sc|] eqn:F; cbn [bind]; [|discriminate]. intros E. injection E as <-. exists ids, sc. split; [|split; [|split; [nodup_tac|fields_tac]]].
  - unfold argument_or. destruct (m_object_id x); cbn [default] in D; [injection D as <-; reflexivity|]. unfold rows in D. destruct (shape (m_prediction_trajectory x)) as [|k rest] eqn:Sh; cbn [bind] in D; [discriminate|].
    injection D as <-. exists k, rest. split; [exact Sh|]. split; [reflexivity|]. cbn [data default_object_id]. set (l := map (fun j => CI (Z.of_nat j)) (seq 0 n)).
    assert (L : length l = n) by (unfold l; rewrite map_length; apply seq_length). split.
    + clear -L. induction k as [|k IH]; [reflexivity|]. cbn [repeat concat Nat.mul]. rewrite app_length, IH, L. reflexivity.
    + intros i j I J. rewrite <- L at 1. rewrite repeat_concat_nth by lia. unfold l. rewrite nth_error_map, (nth_error_nth' _ 0%nat) by (rewrite seq_length; exact J).
      rewrite seq_nth by exact J. reflexivity.
  - unfold argument_or. destruct (m_scenario_id x); cbn [default] in F; [injection F as <-; reflexivity|]. unfold rows in F. destruct (shape (m_prediction_trajectory x)) as [|k rest] eqn:Sh; cbn [bind] in F; [discriminate|].
    injection F as <-. exists k, rest. split; [exact Sh|]. split; [reflexivity|]. cbn [data default_scenario_id]. split; [rewrite map_length; apply seq_length|].
    intros i I. rewrite nth_error_map, (nth_error_nth' _ 0%nat) by (rewrite seq_length; exact I). rewrite seq_nth by exact I. reflexivity.
Qed.
Theorem fed_exists_detection x : (exists b, detection_dict x = Ok b) <-> (d_ground_truth_speed x = None -> shape (d_ground_truth_bbox x) <> []).
Proof.
  unfold detection_dict, zero_speed, rows. destruct (d_ground_truth_speed x); cbn [default bind]; [split; [discriminate|intros _; eexists; reflexivity]|].
  destruct (shape (d_ground_truth_bbox x)); cbn [bind]; split; [intros [b E]; discriminate|intros H; exfalso; apply H; reflexivity|discriminate|intros _; eexists; reflexivity].
Qed.
(** ** Static sizes *)
Lemma assert_dim_iff t k n u : assert_dim t k n = Ok u <-> nth_error t k = Some n.
Proof.
  unfold assert_dim, same_dim. destruct u, (nth_error t k) as [[d|]|]; destruct n as [n|]; try (split; congruence).
  - destruct (Z.eqb_spec d n); split; congruence.
Qed.
Theorem sizes_exact x m k n tp tg : motion_sizes x = Ok (m, k, n, tp, tg) <-> agreeing x m k n tp tg.
Proof.
  unfold motion_sizes, agreeing. split.
  - destruct (s_prediction_trajectory x) as [|b [|m' [|k' [|n' [|tp' [|two [|? ?]]]]]]] eqn:P; try discriminate.
    destruct (s_ground_truth_trajectory x) as [|b' [|a [|tg' [|seven [|? ?]]]]] eqn:G; try discriminate. intros E.
    do 12 (match type of E with (bind (assert_dim ?t ?i ?v) _) = _ => let H := fresh "H" in destruct (assert_dim t i v) as [?|] eqn:H; cbn [bind] in E; [apply assert_dim_iff in H|discriminate] end).
    assert (O : match s_object_id x with None => Ok tt | Some t => assert_dim t 1 n' end = Ok tt) by (destruct (match s_object_id x with None => _ | Some _ => _ end) as [[]|]; [reflexivity|discriminate]).
    rewrite O in E. cbn [bind] in E. injection E as -> -> -> -> ->. cbn [nth_error] in *. repeat match goal with H : Some _ = Some _ |- _ => injection H as -> end.
    split; [eexists; reflexivity|]. split; [eexists; reflexivity|]. do 9 (split; [assumption|]). intros t T. rewrite T in O. apply assert_dim_iff in O. exact O.
  - intros ((b & ->) & (b' & ->) & H1 & H2 & H3 & H4 & H5 & H6 & H7 & H8 & H9 & H10).
    assert (A : forall t i v, nth_error t i = Some v -> assert_dim t i v = Ok tt) by (intros; apply assert_dim_iff; assumption).
    rewrite (A [b; m; k; n; tp; Some 2] 5%nat (Some 2) eq_refl), (A [b'; n; tg; Some 7] 1%nat n eq_refl), (A [b'; n; tg; Some 7] 3%nat (Some 7) eq_refl). cbn [bind].
    rewrite (A _ _ _ H1), (A _ _ _ H2), (A _ _ _ H3), (A _ _ _ H4), (A _ _ _ H5), (A _ _ _ H6), (A _ _ _ H7), (A _ _ _ H8), (A _ _ _ H9). cbn [bind].
    destruct (s_object_id x) as [t|]; [rewrite (A _ _ _ (H10 t eq_refl))|]; reflexivity.
Qed.
Theorem unknown_box s : initialize Detection s (detection_decl BOX_UNKNOWN) = Err ValueError /\
  initialize Tracking s (tracking_decl BOX_UNKNOWN) = Err ValueError.
Proof. split; reflexivity. Qed.

(** ** Witnesses *)
Definition one_row (n : nat) : tensor := Tensor [1%nat; n] (repeat (CF 1) n).
Theorem width_witness : exists v u t n m rest rest', shape v = n :: rest /\ length (data v) = (n * size rest)%nat /\
  shape u = m :: rest' /\ length (data u) = (m * size rest')%nat /\ rest <> rest' /\ updated v u = Ok t.
Proof.
  exists (Tensor [4%nat; 5%nat] (repeat (CF 1) 20)), (one_row 4), (Tensor [6%nat; 4%nat] (repeat (CF 1) 24)), 4%nat, 1%nat, [5%nat], [4%nat].
  repeat split. discriminate.
Qed.
Theorem calls_witness : exists ls h f x s t, (forall g, layout_ok (ls g)) /\ history_ok ls h /\ In (x, t) (ls f) /\
  run (fun _ => None) h = Ok s /\ s (variable_name f x) <> Some (all_rows t (fed_to_call f 1 x h [])).
Proof.
  set (x := "prediction_score"%string). set (b := [(x, Tensor [1%nat] [CF 1])]).
  set (d := [(x, [0])]). set (h := [Init Detection d; Feed Detection 0 b; Feed Detection 1 b]).
  exists (fun _ => [(x, [])]), h, Detection, x.
  destruct (accumulates (fun _ => [(x, [])]) h (fun _ => None)) as (s & R & A).
  - intros _. split; [repeat constructor; intros []|]. intros y t [[= <- <-]|[]]. cbn. lia.
  - split.
    + intros e [<-|[<-|[<-|[]]]]; cbn [event_ok]; [reflexivity| |]; (constructor; [|constructor]); (split; [reflexivity|]); exists 1%nat; split; reflexivity.
    + intros h1 f c b' h2 E. destruct h1 as [|e h1]; [discriminate|]. injection E as <- E. exists d. left. f_equal.
      destruct h1 as [|e h1]; [injection E as <- <- <- _; reflexivity|]. injection E as _ E.
      destruct h1 as [|e' h1]; [injection E as <- <- <- _; reflexivity|]. injection E as _ E. destruct h1; discriminate.
  - exists s, []. split; [|split; [|split; [left; reflexivity|split; [exact R|]]]].
    + intros _. split; [repeat constructor; intros []|]. intros y t [[= <- <-]|[]]. cbn. lia.
    + split.
      * intros e [<-|[<-|[<-|[]]]]; cbn [event_ok]; [reflexivity| |]; (constructor; [|constructor]); (split; [reflexivity|]); exists 1%nat; split; reflexivity.
      * intros h1 f c b' h2 E. destruct h1 as [|e h1]; [discriminate|]. injection E as <- E. exists d. left. f_equal.
        destruct h1 as [|e h1]; [injection E as <- <- <- _; reflexivity|]. injection E as _ E.
        destruct h1 as [|e' h1]; [injection E as <- <- <- _; reflexivity|]. injection E as _ E. destruct h1; discriminate.
    + rewrite (A Detection (ex_intro _ d (or_introl eq_refl)) x [] (or_introl eq_refl)). cbn. discriminate.
Qed.
Theorem repeated_witness : exists c names, py_names c = Ok names /\ names <> [] /\
  forall show s b, run_updates Detection (detection_metric_ops show None None names) s b = Ok s /\
                   run_updates Tracking (tracking_metric_ops names) s b = Ok s.
Proof.
  exists {| generators := [ONE_SHARD; ONE_SHARD]; difficulties := [[]; [LEVEL_2]]; cutoffs := [] |},
         ["ONE_SHARD_LEVEL_2"; "ONE_SHARD_LEVEL_2"]%string.
  split; [reflexivity|]. split; [discriminate|]. intros show s b. split; reflexivity.
Qed.
Theorem filter_witness : exists c names filter, NoDup (generators c) /\ py_names c = Ok names /\ names <> [] /\
  forall show s b, run_updates Detection (detection_metric_ops show None (Some filter) names) s b = Ok s.
Proof.
  exists {| generators := [ONE_SHARD]; difficulties := [[]]; cutoffs := [] |}, ["ONE_SHARD_LEVEL_2"]%string, "VEHICLE"%string.
  split; [repeat constructor; intros []|]. split; [reflexivity|]. split; [discriminate|]. intros show s b. reflexivity.
Qed.
Theorem perfect_witness : exists pr : list (Q * Q), In (1, 1)%Q pr /\ (forall x, In x pr -> (fst x <= 1)%Q) /\ recall_at 1 pr = Some 0%Q.
Proof. exists [(1, 1)%Q]. split; [left; reflexivity|]. split; [intros x [<-|[]]; apply Qle_refl|reflexivity]. Qed.
Theorem repeated_ids_witness dec : exists sizes k l i j, k <> l /\ (i < nth k sizes 0)%nat /\ (j < nth l sizes 0)%nat /\
  nth i (data (default_scenario_id dec (nth k sizes 0%nat))) (CS "") = nth j (data (default_scenario_id dec (nth l sizes 0%nat))) (CS "").
Proof. exists [2; 2]%nat, 0%nat, 1%nat, 1%nat, 1%nat. split; [discriminate|]. cbn [nth]. split; [lia|]. split; [lia|reflexivity]. Qed.
