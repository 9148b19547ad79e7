(** MOT over sequences, its invariants, and its instances with the two matchers. *)
From Coq Require Import Permutation.
From Verif Require Import Base ResultLib ListLib MatcherModel MatcherSpec MatcherProofs ScoreFirstProofs
  HungarianSpec MotModel MotSpec MotMapProofs MotProofs MotFrameProofs.
Open Scope Z_scope.

Lemma init_ok : state_ok mot_init.
Proof.
  split; [|split]; [split; constructor|split; constructor|]. intros g h. unfold maps_to. simpl. tauto.
Qed.

Lemma eval_all_ok fs : forall st, Forall mframe_ok fs -> state_ok st ->
  exists st' ms, eval_all st fs = Ok (st', ms) /\ state_ok st' /\ length ms = length fs.
Proof.
  induction fs as [|f fs IH]; intros st Hf Hs; cbn [eval_all].
  - exists st, []. auto.
  - inversion Hf as [|f' fs' H1 H2]; subst.
    destruct (eval_correct st f H1 Hs) as (st1 & nw & E & Hs1 & _). rewrite E. cbn [bind fst].
    destruct (IH st1 H2 Hs1) as (st' & ms & E' & Hs' & L). rewrite E'. cbn [bind fst snd].
    exists st', (nw :: ms). split; [reflexivity|]. split; [exact Hs'|]. simpl. lia.
Qed.
Lemma reachable_ok st : reachable st -> state_ok st.
Proof.
  intros (fs & ms & Hf & E). destruct (eval_all_ok fs mot_init Hf init_ok) as (st' & ms' & E' & Hs & _).
  rewrite E in E'. injection E' as <- _. exact Hs.
Qed.
Lemma eval_all_snoc fs : forall st f, eval_all st (fs ++ [f]) =
  do r <- eval_all st fs; do r' <- eval (fst r) f; Ok (fst r', snd r ++ [snd r']).
Proof.
  induction fs as [|a fs IH]; intros st f; cbn [app eval_all].
  - cbn [bind fst snd app]. destruct (eval st f) as [[st' nw]|e]; reflexivity.
  - destruct (eval st a) as [[st1 nw]|e]; cbn [bind fst snd]; [|reflexivity].
    rewrite IH. destruct (eval_all st1 fs) as [[st2 ms]|e]; cbn [bind fst snd]; [|reflexivity].
    destruct (eval st2 f) as [[st3 nw']|e]; reflexivity.
Qed.
Lemma reachable_step st f st' nw : reachable st -> mframe_ok f -> eval st f = Ok (st', nw) -> reachable st'.
Proof.
  intros (fs & ms & Hf & E) H Ef. exists (fs ++ [f]), (ms ++ [nw]). split.
  - apply Forall_app. split; [exact Hf|]. constructor; [exact H|constructor].
  - rewrite eval_all_snoc, E. cbn [bind fst]. rewrite Ef. reflexivity.
Qed.

Lemma eval_reachable st f : reachable st -> mframe_ok f ->
  exists st' nw, eval st f = Ok (st', nw) /\ reachable st' /\
    correspondences st f st' nw /\ accounting st f st' nw.
Proof.
  intros Hr Hf. destruct (eval_correct st f Hf (reachable_ok st Hr)) as (st' & nw & E & _ & H1 & H2).
  exists st', nw. split; [exact E|]. split; [eapply reachable_step; eauto|]. auto.
Qed.

(** Ground truths counted = matched + missed. *)
Lemma counted_split f nw st st' : mframe_ok f -> correspondences st f st' nw ->
  countb (counted_gt f nw) (gsub f) = Z.of_nat (length nw) + countb (missed_gt f nw) (gsub f).
Proof.
  intros Hf Hc. rewrite (countb_split (counted_gt f nw) (fun y => matched_gt nw (nth y (gids f) 0%nat))).
  f_equal.
  - rewrite (countb_ext _ (fun y => matched_gt nw (nth y (gids f) 0%nat))).
    2:{ intros y _. unfold counted_gt. destruct (matched_gt nw _); reflexivity || apply andb_false_r. }
    rewrite <- (countb_map (fun y => nth y (gids f) 0%nat) (matched_gt nw)).
    unfold countb. f_equal. rewrite <- (map_length fst nw). fold (keys nw).
    apply Permutation_length. apply NoDup_Permutation.
    + apply NoDup_filter, (fo_gt_ids _ Hf).
    + apply (co_one _ _ _ _ Hc).
    + intros g. rewrite filter_In, matched_gt_spec. split; [tauto|]. intros H. split; [|exact H].
      apply keys_in in H. destruct H as (h & H). destruct (co_pairs _ _ _ _ Hc g h H) as (x & y & _ & Hy & _).
      unfold gt_of in Hy. apply find_some in Hy. destruct Hy as [Hy1 Hy2]. apply Nat.eqb_eq in Hy2.
      apply in_map_iff. eauto.
  - apply countb_ext. intros y _. unfold counted_gt, missed_gt.
    destruct (matched_gt nw _), (Nat.leb _ _); reflexivity.
Qed.

Lemma countb_nonneg {A} (p : A -> bool) l : 0 <= countb p l.
Proof. unfold countb. lia. Qed.

Definition totals_ok (m : measurement) : Prop :=
  objects_gt m = matches m + misses m /\ 0 <= misses m /\ 0 <= fps m /\ 0 <= matches m /\
  0 <= mismatches m <= 2 * matches m.

Lemma countb_le {A} (p : A -> bool) l : countb p l <= Z.of_nat (length l).
Proof. pose proof (countb_compl p l). pose proof (countb_nonneg (fun a => negb (p a)) l). lia. Qed.

Lemma reachable_totals st : reachable st -> totals_ok (meas st).
Proof.
  intros (fs & ms & Hf & E). revert st ms E. induction fs as [|f fs IH] using rev_ind; intros st ms E.
  - cbn in E. injection E as <- _. unfold totals_ok. cbn. lia.
  - apply Forall_app in Hf. destruct Hf as [Hf1 Hf2]. inversion Hf2 as [|f' l Hf0 _]; subst.
    rewrite eval_all_snoc in E. destruct (eval_all mot_init fs) as [[st0 ms0]|e] eqn:E0; cbn [bind fst] in E; [|discriminate].
    destruct (eval st0 f) as [[st1 nw]|e] eqn:E1; cbn [bind fst snd] in E; [|discriminate].
    injection E as <- _.
    assert (Hr : reachable st0) by (exists fs, ms0; auto).
    destruct (eval_correct st0 f Hf0 (reachable_ok _ Hr)) as (st' & nw' & E' & _ & Hc & Ha).
    rewrite E1 in E'. injection E' as <- <-.
    destruct (IH Hf1 st0 ms0 eq_refl) as (A & B & C & D & F).
    destruct Ha as [H1 H2 H3 H4 H5 _].
    pose proof (counted_split f nw st0 st1 Hf0 Hc) as Hs.
    pose proof (countb_nonneg (missed_gt f nw) (gsub f)).
    pose proof (countb_nonneg (false_pd f nw) (nodup Nat.eq_dec (map (fun x => nth x (pids f) 0%nat) (psub f)))).
    pose proof (countb_nonneg (switched (gt_pd st0)) nw). pose proof (countb_nonneg (stolen f (gt_pd st0)) nw).
    pose proof (countb_le (switched (gt_pd st0)) nw). pose proof (countb_le (stolen f (gt_pd st0)) nw).
    unfold totals_ok. rewrite H1, H2, H3, H4, H5. lia.
Qed.

(** Duplicate ground truth ids are fatal. *)
Lemma build_gt_dup ids : forall sub, Forall (fun x => x < length ids)%nat sub ->
  ~ NoDup (map (fun x => nth x ids 0%nat) sub) ->
  foldM (fun m ix => do id <- nth_result ids (snd ix) IndexError;
           if mhas id m then Err CheckFailed else Ok (memplace id (fst ix) m)) (enum sub) [] = Err CheckFailed.
Proof.
  induction sub as [|a sub IH] using rev_ind; intros Hf Hn; [exfalso; apply Hn; constructor|].
  apply Forall_app in Hf. destruct Hf as [Hf Ha]. inversion Ha as [|a' l Ha' _]; subst.
  rewrite enum_snoc, foldM_app.
  destruct (ListDec.NoDup_dec Nat.eq_dec (map (fun x => nth x ids 0%nat) sub)) as [Hd|Hd].
  - rewrite build_fold_strict by assumption. cbn [bind foldM fst snd].
    rewrite (MotMapProofs.nth_result_ok ids a _ 0%nat) by exact Ha'. cbn [bind].
    rewrite map_app in Hn. cbn [map] in Hn.
    replace (mhas (nth a ids 0%nat) (first_map (map (fun x => nth x ids 0%nat) sub))) with true; [reflexivity|].
    symmetry. apply mhas_spec. rewrite first_map_keys.
    destruct (in_dec Nat.eq_dec (nth a ids 0%nat) (map (fun x => nth x ids 0%nat) sub)) as [H|H]; [exact H|].
    exfalso. apply Hn. apply nodup_app; [exact Hd|constructor; [intros []|constructor]|].
    intros x Hx [<-|[]]. contradiction.
  - rewrite IH by assumption. reflexivity.
Qed.
Lemma eval_duplicate_gt st f : Forall (fun x => x < length (pids f))%nat (psub f) ->
  Forall (fun y => y < length (gids f))%nat (gsub f) ->
  ~ NoDup (map (fun y => nth y (gids f) 0%nat) (gsub f)) -> eval st f = Err CheckFailed.
Proof.
  intros Hp Hg Hn. unfold eval, build_pd_map. rewrite (build_fold (pids f) (psub f) Hp). cbn [bind].
  unfold build_gt_map. rewrite (build_gt_dup (gids f) (gsub f) Hg Hn). reflexivity.
Qed.

(** ** Instances *)
Section Instances.
Context {box : Type}.
Variable cfg : config box.
Variable fr : frame box.

Record track_info := { t_pids : list nat; t_gids : list nat; t_nlz : list bool; t_diff : list nat;
  t_psub : list nat; t_gsub : list nat; t_level : nat; t_iter : amap -> amap }.
Definition hungarian_frame (t : track_info) : mframe :=
  {| pids := t_pids t; gids := t_gids t; pnlz := t_nlz t; gdiff := t_diff t; psub := t_psub t; gsub := t_gsub t;
     canm := can_match box cfg fr; iouv := iou box cfg fr; matchf := hungarian_match box cfg fr;
     level := t_level t; iter := t_iter t |}.
(** [order ps] is the order std::sort produces for the prediction subset [ps]. *)
Definition score_first_frame (order : list nat -> list nat) (t : track_info) : mframe :=
  {| pids := t_pids t; gids := t_gids t; pnlz := t_nlz t; gdiff := t_diff t; psub := t_psub t; gsub := t_gsub t;
     canm := can_match box cfg fr; iouv := iou box cfg fr;
     matchf := fun ps gs => score_first_match box cfg fr (order ps) ps gs [] [];
     level := t_level t; iter := t_iter t |}.

Record info_ok (t : track_info) : Prop := {
  io_pids : length (t_pids t) = length (preds fr); io_gids : length (t_gids t) = length (gts fr);
  io_nlz : length (t_nlz t) = length (preds fr); io_diff : length (t_diff t) = length (gts fr);
  io_psub : subset_ok (preds fr) (t_psub t); io_gsub : subset_ok (gts fr) (t_gsub t);
  io_ids : NoDup (map (fun y => nth y (t_gids t) 0%nat) (t_gsub t));
  io_iter : forall m, Permutation (t_iter t m) m }.

Hypothesis Hfr : frame_ok cfg fr.

Lemma can_total x y : (x < length (preds fr))%nat -> (y < length (gts fr))%nat ->
  exists p g, nth_error (preds fr) x = Some p /\ nth_error (gts fr) y = Some g /\
    can_match box cfg fr x y = Ok (allowedb cfg p g) /\ iou box cfg fr x y = Ok (pair_iou cfg p g).
Proof.
  intros Hx Hy. destruct (nth_error (preds fr) x) as [p|] eqn:Ep.
  2:{ apply nth_error_None in Ep. lia. }
  destruct (nth_error (gts fr) y) as [g|] eqn:Eg.
  2:{ apply nth_error_None in Eg. lia. }
  exists p, g. split; [reflexivity|]. split; [reflexivity|].
  split; [apply can_match_ok; assumption|apply iou_ok; assumption].
Qed.
Lemma selected_nth (l : list (object box)) sub i o : selected l sub i = Some o ->
  nth_error l (nth i sub 0%nat) = Some o.
Proof.
  unfold selected. destruct (nth_error sub i) as [k|] eqn:E; [|discriminate].
  intros H. erewrite nth_error_nth by exact E. exact H.
Qed.
Lemma pair_ok_can ps gs i j : pair_ok cfg fr ps gs i j ->
  can_match box cfg fr (nth i ps 0%nat) (nth j gs 0%nat) = Ok true.
Proof.
  intros (p & g & Hp & Hg & Ha). apply selected_nth in Hp, Hg.
  rewrite (can_match_ok cfg fr Hfr _ _ _ _ Hp Hg). f_equal. now apply allowedb_spec.
Qed.

Lemma nodup_bounded_length (l : list nat) n : NoDup l -> Forall (fun x => x < n)%nat l -> (length l <= n)%nat.
Proof.
  intros Hn Hf. rewrite <- (seq_length n 0). apply NoDup_incl_length; [exact Hn|].
  intros x Hx. rewrite Forall_forall in Hf. apply in_seq. specialize (Hf x Hx). lia.
Qed.

Lemma hungarian_frame_ok t : info_ok t -> mframe_ok (hungarian_frame t).
Proof.
  intros [H1 H2 H3 H4 H5 H6 H7 H8]. constructor; cbn [hungarian_frame pids gids pnlz gdiff psub gsub iter]; try congruence.
  - constructor; cbn [hungarian_frame pids gids canm iouv matchf]; rewrite H1, H2.
    + intros x y Hx Hy. destruct (can_total x y Hx Hy) as (p & g & _ & _ & E & _). eauto.
    + intros x y Hx Hy. destruct (can_total x y Hx Hy) as (p & g & _ & _ & _ & E). eauto.
    + intros ps gs _ _ Hps Hgs. destruct (hungarian_match_correct cfg fr Hfr ps gs Hps Hgs) as (pm & gm & E & A & B & _).
      exists pm, gm. split; [exact E|]. split; [exact A|]. intros i j Hij. apply pair_ok_can.
      destruct B as (_ & B & _). apply (B i j Hij).
  - rewrite H1. exact H5.
  - rewrite H2. exact H6.
  - exact H8.
Qed.
Lemma score_first_frame_ok order t : info_ok t ->
  (forall ps, Forall (fun x => x < length (preds fr))%nat ps -> score_order fr ps (order ps)) ->
  mframe_ok (score_first_frame order t).
Proof.
  intros [H1 H2 H3 H4 H5 H6 H7 H8] Ho. constructor; cbn [score_first_frame pids gids pnlz gdiff psub gsub iter]; try congruence.
  - constructor; cbn [score_first_frame pids gids canm iouv matchf]; rewrite H1, H2.
    + intros x y Hx Hy. destruct (can_total x y Hx Hy) as (p & g & _ & _ & E & _). eauto.
    + intros x y Hx Hy. destruct (can_total x y Hx Hy) as (p & g & _ & _ & _ & E). eauto.
    + intros ps gs Hpn Hgn Hps Hgs. destruct (Ho ps Hps) as [Hperm _].
      destruct (score_first_correct cfg fr Hfr ps gs Hps Hgs (nodup_bounded_length _ _ Hpn Hps)
        (nodup_bounded_length _ _ Hgn Hgs) (order ps) Hperm) as (pm & gm & E & A & B & _).
      exists pm, gm. split; [exact E|]. split; [exact A|]. intros i j Hij. apply pair_ok_can.
      destruct B as (_ & B & _). apply (B i j Hij).
  - rewrite H1. exact H5.
  - rewrite H2. exact H6.
  - exact H8.
Qed.
End Instances.

(** ** Hash order witness *)
Definition flat_cfg : config nat :=
  {| thresholds := [0; 1#2]%Q; iou_fn := fun a b => if Nat.eqb a b then 1%Q else (1#2)%Q; affinity_fn := None |}.
Definition two : frame nat := {| preds := [mk 1 5 0; mk 1 5 0]; gts := [mk 1 6 0; mk 1 6 0] |}.
Definition one : frame nat := {| preds := [mk 1 7 0]; gts := [mk 1 7 0] |}.
Definition info2 (it : amap -> amap) : track_info :=
  {| t_pids := [10; 11]%nat; t_gids := [20; 21]%nat; t_nlz := [false; false]; t_diff := [1; 1]%nat;
     t_psub := [0; 1]%nat; t_gsub := [0; 1]%nat; t_level := 2; t_iter := it |}.
Definition info1 (it : amap -> amap) : track_info :=
  {| t_pids := [10]%nat; t_gids := [20]%nat; t_nlz := [false]; t_diff := [1]%nat;
     t_psub := [0]%nat; t_gsub := [0]%nat; t_level := 2; t_iter := it |}.
Definition rev_gts (m : amap) : amap :=
  match m with (k, _) :: _ => if Nat.eqb k 20 then rev m else m | [] => m end.
Definition flicker (it : amap -> amap) : list mframe :=
  [hungarian_frame flat_cfg two (info2 it); hungarian_frame flat_cfg one (info1 it)].

Lemma flat_ok fr : (forall p, In p (preds fr) -> otype p = 1%nat) -> frame_ok flat_cfg fr.
Proof.
  intros H. split; [|split].
  - intros p Hp. rewrite (H p Hp). simpl. lia.
  - intros p g _ _ _. cbn [iou_fn flat_cfg]. destruct (Nat.eqb _ _); split; discriminate.
  - intros f Hf. discriminate Hf.
Qed.
Lemma rev_gts_perm m : Permutation (rev_gts m) m.
Proof.
  unfold rev_gts. destruct m as [|[k v] m]; [reflexivity|]. destruct (Nat.eqb k 20); [|reflexivity].
  apply Permutation_sym, Permutation_rev.
Qed.
Lemma flicker_ok it : (forall m, Permutation (it m) m) -> Forall mframe_ok (flicker it).
Proof.
  intros H. constructor; [|constructor; [|constructor]].
  - apply hungarian_frame_ok.
    + apply flat_ok. intros p [<-|[<-|[]]]; reflexivity.
    + constructor; cbn; try reflexivity; try (repeat constructor; simpl; lia); auto.
  - apply hungarian_frame_ok.
    + apply flat_ok. intros p [<-|[]]; reflexivity.
    + constructor; cbn; try reflexivity; try (repeat constructor; simpl; lia); auto.
Qed.
Definition final_mismatches (r : result (mot * list amap)) : Z :=
  match r with Ok (st, _) => mismatches (meas st) | Err _ => -1 end.
Lemma flicker_runs :
  final_mismatches (eval_all mot_init (flicker (fun m => m))) = 0 /\
  final_mismatches (eval_all mot_init (flicker rev_gts)) = 2.
Proof. split; vm_compute; reflexivity. Qed.
