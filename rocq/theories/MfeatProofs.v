(** Proofs about the scene features. *)
From Coq Require Import Reals Permutation Lra.
From Verif Require Import Base ResultLib ListLib MonadLib SimModel SimSpec SimProofs GeomModel TtcModel RoadModel MfeatModel MfeatSpec MfeatCore.
From Verif Require GeomSpec GeomNearestProofs TtcProofs RoadProofs.
Open Scope list_scope.
Open Scope R_scope.

Lemma increasing_nodup l : increasing l -> NoDup l.
Proof.
  induction 1 as [|a l H _ IH]; constructor; [|exact IH]. intros Q. specialize (H a Q). lia.
Qed.

Lemma scorable_reaches sc n : @uniform R sc n -> (10 < n)%nat -> reaches_current sc.
Proof. intros (_ & _ & H) L t Ht. rewrite (H t Ht). exact L. Qed.

(** * The table of a scorable scene *)
Lemma av_required n sc js : scorable_for n sc js -> exists id, evaluated_agent sc id.
Proof.
  intros (_ & _ & _ & _ & Hi & _). destruct (Hi (sdc_track_index sc) (or_introl eq_refl)) as (t & Ht).
  exists (track_id t), (sdc_track_index sc), t. auto.
Qed.
Lemma scene_nonempty n sc js : scorable_for n sc js -> js <> [].
Proof.
  intros H. destruct (av_required n sc js H) as (id & He). destruct H as (_ & (_ & Ha) & _ & _ & _ & Hr).
  apply Hr, Ha in He. destruct js; [destruct He|discriminate].
Qed.

Lemma agent_unique n sc js b id o tr o' tr' : scorable_for n sc js -> sim_agent sc js b id o tr -> sim_agent sc js b id o' tr' ->
  o = o' /\ tr = tr'.
Proof.
  intros (_ & (_ & Ha) & N & Ho & _) (s & cur & Hs & Es & Ht & Et & Hc & ->) (s' & cur' & Hs' & Es' & Ht' & Et' & Hc' & ->).
  assert (tr = tr') as <-.
  { apply (once_track (tracks sc) id); [|assumption..]. apply Ho, Ha. rewrite <- Es. now apply in_map. }
  assert (s = s') as <-.
  { clear -N Hs Hs' Es Es'. apply In_nth_error in Hs, Hs'. destruct Hs as (i & Hi), Hs' as (j & Hj).
    assert (i = j) as <-; [|congruence].
    apply (proj1 (NoDup_nth_error _) N); [rewrite map_length; apply nth_error_Some; congruence|].
    rewrite !nth_error_map', Hi, Hj. cbn. congruence. }
  split; [congruence|reflexivity].
Qed.

Lemma agent_exists n sc js b id : scorable_for n sc js -> In id (map sim_id js) -> exists o tr, sim_agent sc js b id o tr.
Proof.
  intros (_ & (_ & Ha) & _) H. pose proof (proj1 (Ha id) H) as (t & st & Ht & Et & Hc & _).
  apply in_map_iff in H. destruct H as (s & Es & Hs).
  exists (simulated_object t st s (if b then map s_valid (skipn 11 (states t)) else repeat true 80)), t.
  exists s, st. repeat split; auto.
Qed.

Lemma agent_id sc js b id o tr : sim_agent sc js b id o tr -> o_id o = id.
Proof. intros (s & cur & _ & _ & _ & E & _ & ->). exact E. Qed.

Lemma sim_table n sc js b : scorable_for n sc js ->
  exists l, joint_scene_to_trajectories js sc b = Ok (of_objs l) /\ map o_id l = map sim_id js /\
    forall o, In o l <-> exists tr, sim_agent sc js b (o_id o) o tr.
Proof.
  intros H. pose proof H as ((Hu & Ln) & Ha & N & Ho & Hi & He).
  destruct (joint_scene_ok js sc n b Hu (scorable_reaches _ _ Hu Ln) Ha (scene_nonempty _ _ _ H) Ho)
    as (t & Et & Hn & Hid & Hobj).
  destruct (of_objs_exists _ t Hn) as (l & -> & Hl). exists l. split; [exact Et|]. split; [exact Hid|].
  assert (forall k s o tr, nth_error js k = Some s -> sim_agent sc js b (sim_id s) o tr -> nth_error l k = Some o) as G.
  { intros k s o tr Hk Hag. pose proof Hag as (s' & cur & Hs' & Es' & Ht & Etr & Hc & Eo).
    assert (s' = s) as ->.
    { assert (In s js) as Hs by (eapply nth_error_In; eassumption).
      clear -N Hs' Hs Es'. apply In_nth_error in Hs, Hs'. destruct Hs as (i & Hi), Hs' as (j & Hj).
      assert (i = j) as <-; [|congruence].
      apply (proj1 (NoDup_nth_error _) N); [rewrite map_length; apply nth_error_Some; congruence|].
      rewrite !nth_error_map', Hi, Hj. cbn. congruence. }
    apply of_objs_nth. rewrite Eo. apply Hobj with (tr := tr); assumption. }
  intros o. split.
  - intros Hin. apply In_nth_error in Hin. destruct Hin as (k & Hk).
    assert (k < length js)%nat as L by (rewrite <- Hl; apply nth_error_Some; congruence).
    apply nth_error_Some in L. destruct (nth_error js k) as [s|] eqn:Es; [|congruence].
    destruct (agent_exists n sc js b (sim_id s) H) as (o' & tr & Hag); [apply in_map; eapply nth_error_In; eassumption|].
    pose proof (G k s o' tr Es Hag) as Q. assert (o' = o) as -> by congruence. exists tr.
    rewrite (agent_id _ _ _ _ _ _ Hag). exact Hag.
  - intros (tr & Hag). pose proof Hag as (s & cur & Hs & Es & _). apply In_nth_error in Hs. destruct Hs as (k & Hk).
    rewrite <- Es in Hag. eapply nth_error_In, (G k s o tr Hk Hag).
Qed.

Lemma logged_table sc n : @uniform R sc n -> from_scenario sc = Ok (of_objs (map track_object (tracks sc))).
Proof. intros H. rewrite (from_scenario_ok sc n H). reflexivity. Qed.

(** * The features of a scorable scene *)
Lemma features_shape {S} n (X : extractors S) (sc : full_scenario S) js b : scorable_for n (agents sc) js -> listing X ->
  exists ids os rest trs, compute_metric_features X sc js SIM_AGENTS b = assemble X sc SIM_AGENTS b os rest (map track_object trs) /\
    increasing ids /\ (forall id, In id ids <-> evaluated_agent (agents sc) id) /\
    map o_id os = ids /\ Forall2 (fun o tr => sim_agent (agents sc) js b (o_id o) o tr) os trs /\
    (forall o, In o (os ++ rest) -> exists tr, sim_agent (agents sc) js b (o_id o) o tr) /\
    Permutation (map o_id (os ++ rest)) (map sim_id js).
Proof.
  intros H HX. pose proof H as ((Hu & Ln) & Ha & N & Ho & Hi & He).
  destruct (sim_table n (agents sc) js b H) as (l & El & Hid & Hin).
  destruct (proj2 (eval_ids_total (agents sc)) Hi) as (ids & Ei).
  destruct (eval_ids_exact _ _ Ei) as (Hinc & Hev).
  assert (incl ids (map o_id l)) as Hincl.
  { intros id Q. rewrite Hid. apply Ha, He. now apply Hev. }
  assert (forall id, In id (map o_id l) -> occurs_once (map o_id (map track_object (tracks (agents sc)))) id) as Honce.
  { intros id Q. rewrite map_map. cbn [track_object o_id]. apply Ho, Ha. now rewrite <- Hid. }
  assert (ids <> []) as Hne.
  { destruct (av_required _ _ _ H) as (id & Q). apply Hev in Q. destruct ids; [destruct Q|discriminate]. }
  destruct (core X sc js SIM_AGENTS b l (map track_object (tracks (agents sc))) ids HX El (logged_table _ _ Hu) Honce Ei Hne (increasing_nodup _ Hinc) Hincl)
    as (os & rest & logs & Ec & E1 & E2 & P & Hlogs & _); [now rewrite Hid|].
  assert (exists trs, logs = map track_object trs /\ forall t, In t trs -> In t (tracks (agents sc))) as (trs & -> & Htrs).
  { clear -Hlogs. induction logs as [|o logs IH]; [exists []; split; [reflexivity|intros t []]|].
    destruct IH as (trs & -> & Ht); [intros q Q; apply Hlogs; now right|].
    destruct (proj1 (in_map_iff _ _ _) (Hlogs o (or_introl eq_refl))) as (t & <- & Q).
    exists (t :: trs). split; [reflexivity|]. intros u [<-|Hu]; auto. }
  exists ids, os, rest, trs. split; [exact Ec|]. split; [exact Hinc|]. split; [exact Hev|]. split; [exact E1|].
  assert (forall o, In o (os ++ rest) -> exists tr, sim_agent (agents sc) js b (o_id o) o tr) as G.
  { intros o Q. apply Hin. now apply (Permutation_in _ P). }
  split; [|split; [exact G|rewrite <- Hid; now apply Permutation_map]].
  rewrite map_map in E2. cbn [track_object o_id] in E2. rewrite <- E1 in E2.
  assert (forall o, In o os -> exists tr, sim_agent (agents sc) js b (o_id o) o tr) as G'
    by (intros o Q; apply G, in_or_app; now left).
  clear -E2 G' Htrs Ho Ha. revert os E2 G'. induction trs as [|t trs IH]; intros [|o os] E2 G'; try discriminate; [constructor|].
  cbn [map] in E2. injection E2 as Q1 Q2. constructor.
  - destruct (G' o (or_introl eq_refl)) as (tr & Hag). replace t with tr; [exact Hag|].
    pose proof Hag as (s & cur & Hs & Es & Ht & Et & _).
    apply (once_track (tracks (agents sc)) (o_id o)); [|assumption|apply Htrs; now left|assumption|exact Q1].
    apply Ho, Ha. rewrite <- Es. now apply in_map.
  - apply IH; [intros u Hu; apply Htrs; now right|assumption|intros q Q; apply G'; now right].
Qed.

(** * Lengths *)
Lemma agent_lengths n sc js b id o tr : scorable_for n sc js -> sim_agent sc js b id o tr ->
  length (o_x o) = 91%nat /\ length (o_y o) = 91%nat /\ length (o_z o) = 91%nat /\ length (o_heading o) = 91%nat /\
  length (o_length o) = 91%nat /\ length (o_width o) = 91%nat /\ length (o_height o) = 91%nat /\ length (o_valid o) = (11 + (if b then n - 11 else 80))%nat /\
  length (states tr) = n.
Proof.
  intros (((_ & _ & Hu) & Ln) & (Hf & _) & _) (s & cur & Hs & _ & Ht & _ & _ & ->). specialize (Hu tr Ht).
  destruct (Hf s Hs) as (L1 & L2 & L3 & L4). change (steps SIM_AGENTS) with 80%nat in *.
  unfold simulated_object. cbn [o_x o_y o_z o_heading o_length o_width o_height o_valid].
  rewrite !app_length, !map_length, !firstn_length, !repeat_length, Hu.
  assert (length (if b then map s_valid (skipn 11 (states tr)) else repeat true 80) = (if b then n - 11 else 80)%nat) as ->.
  { destruct b; [rewrite map_length, skipn_length, Hu; reflexivity|apply repeat_length]. }
  rewrite L1, L2, L3, L4, (Nat.min_l 11 n) by lia. cbn [Nat.add]. repeat split; try assumption; reflexivity.
Qed.
Lemma row_cells_length x y l w h v n : length x = n -> length y = n -> length l = n -> length w = n -> length h = n -> length v = n ->
  length (row_cells x y l w h v) = n.
Proof.
  revert y l w h v n. induction x as [|a x IH]; intros [|b y] [|c l] [|d w] [|e h] [|u v] n; cbn [length row_cells]; intros; try lia.
  destruct n as [|n]; [lia|]. f_equal. apply IH; lia.
Qed.
Lemma row_cells_nth x y l w h v t : forall c, nth_error (row_cells x y l w h v) t = Some c <->
  exists a b p q r u, nth_error x t = Some a /\ nth_error y t = Some b /\ nth_error l t = Some p /\ nth_error w t = Some q /\
    nth_error h t = Some r /\ nth_error v t = Some u /\ c = ({| bx := a; by_ := b; blength := p; bwidth := q; bheading := r |}, u).
Proof.
  revert y l w h v t. induction x as [|a x IH]; intros y l w h v t c0.
  - cbn [row_cells]. split; [destruct t; discriminate|]. intros (a & b & p & q & r & u & E & _). destruct t; discriminate.
  - destruct y as [|b y], l as [|c l], w as [|d w], h as [|e h], v as [|u v]; cbn [row_cells];
      try (split; [destruct t; discriminate|intros (? & ? & ? & ? & ? & ? & ? & ? & ? & ? & ? & ? & ?); destruct t; discriminate]).
    destruct t as [|t]; cbn [nth_error]; [|apply IH]. split.
    + intros [= <-]. exists a, b, c, d, e, u. repeat split.
    + intros (a' & b' & p & q & r & u' & E1 & E2 & E3 & E4 & E5 & E6 & ->). congruence.
Qed.
Lemma obj_cell_iff o t c : nth_error (obj_cells o) t = Some c <-> object_cell o t c.
Proof. apply row_cells_nth. Qed.
Lemma obj_cells_length sc js b id o tr : scorable sc js -> sim_agent sc js b id o tr -> length (obj_cells o) = 91%nat.
Proof.
  intros H Hag. destruct (agent_lengths _ _ _ _ _ _ _ H Hag) as (L1 & L2 & _ & L4 & L5 & L6 & _ & L8 & _).
  apply row_cells_length; try assumption. rewrite L8. destruct b; reflexivity.
Qed.

(** * Masks *)
Lemma select_first {A} (a b : list A) m n : length a = m -> length b = n -> select (first_mask m n) (a ++ b) = a.
Proof.
  intros <- <-. unfold select, first_mask. induction a as [|x a IH].
  - cbn [length repeat app]. induction b as [|y b IHb]; [reflexivity|]. cbn [length repeat combine filter fst]. exact IHb.
  - cbn [length repeat app combine filter fst map snd]. now rewrite IH.
Qed.
Lemma first_mask_nth m n k : (k < m)%nat -> nth_error (first_mask m n) k = Some true.
Proof.
  intros H. unfold first_mask. rewrite nth_error_app1 by (now rewrite repeat_length).
  revert k H. induction m as [|m IH]; intros [|k] H; [lia..|reflexivity|]. cbn [repeat nth_error]. apply IH. lia.
Qed.
Lemma first_mask_length m n : length (first_mask m n) = (m + n)%nat.
Proof. unfold first_mask. now rewrite app_length, !repeat_length. Qed.
Lemma first_mask_count m n : count_occ bool_dec (first_mask m n) true = m.
Proof.
  unfold first_mask. rewrite count_occ_app.
  assert (count_occ bool_dec (repeat true m) true = m) as -> by (induction m as [|m IH]; [reflexivity|cbn [repeat]; rewrite count_occ_cons_eq by reflexivity; now rewrite IH]).
  assert (count_occ bool_dec (repeat false n) true = 0%nat) as -> by (induction n as [|n IH]; [reflexivity|cbn [repeat]; rewrite count_occ_cons_neq by discriminate; exact IH]).
  lia.
Qed.
