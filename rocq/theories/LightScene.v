(** Violations of one object and the whole function. *)
From Coq Require Import QArith Lqa ZArith List Lia Bool.
From Verif Require Import Base ResultLib MonadLib KinematicProofs RoadBoxProofs LightModel LightSpec LightProofs LightWholeProofs.
From Verif Require GeomModel GeomSceneSpec GeomNearestProofs.
Import ListNotations.
Open Scope Q_scope.

Lemma gather_ok {A} (l : list A) i x : nth_error l i = Some x -> gather l i = Ok x.
Proof. unfold gather. now intros ->. Qed.
Lemma gather_total {A} (l : list A) i : (i < length l)%nat -> exists x, gather l i = Ok x /\ nth_error l i = Some x.
Proof. intros H. destruct (nth_length l i H) as [x Hx]. exists x. split; [now apply gather_ok|assumption]. Qed.

Section Scene.
Variables (r : roads) (signals : list (list signal)) (row : list vpt).
Notation rows := (map (fun l : list pt * Z => (snd l, pad (max_length r) (fst l))) r).
Hypothesis Hlen : forall l, In l r -> (2 <= length (fst l))%nat.
Hypothesis Hnear : forall l q, In l r -> In q (fst l) -> near_origin q.
Hypothesis Hne : r <> [].
Hypothesis Hsig : forall l s, In l signals -> In s l -> near_origin (s_stop s).
Hypothesis Hrow : forall c, In c row -> near_origin (fst c).
Hypothesis HL : length signals = length row.
Lemma stop_near u l id : nth_error signals u = Some l -> near_origin (snd (signal_at id l)).
Proof.
  intros E. apply nth_error_In in E. destruct (signal_at_spec id l) as [[b [s [a [-> [_ [_ ->]]]]]]|[_ ->]]; cbn [snd].
  - apply (Hsig _ s E). apply in_or_app. right. now left.
  - unfold near_origin. cbn. lra.
Qed.
(** The violation with respect to the signals of one lane. *)
Definition violation_of (t : nat) (id : Z) : Prop :=
  exists u q vq p s stop' c c',
    t = S u /\ nth_error row u = Some (q, vq) /\ nth_error row t = Some (p, true) /\
    drives_on r p id /\ shown signals t id s /\ red s /\ stop_at signals u id stop' /\
    stop_direction r id stop' c' /\ along q stop' c' < 0 /\
    stop_direction r id (s_stop s) c /\ 0 < along p (s_stop s) c.
Lemma behind_ok u l id p : nth_error signals u = Some l -> exists b, behind rows id l p = Ok b /\
  forall row', find_lane id rows = Some row' -> (b = true <-> exists c, stop_direction r id (snd (signal_at id l)) c /\ along p (snd (signal_at id l)) c < 0).
Proof.
  intros E. assert (N := stop_near u l id E). unfold behind. destruct (find_lane id rows) as [row'|] eqn:Ef.
  - destruct (stop_segment_total r Hlen Hnear row' id _ N Ef) as [a [b [Es D]]]. rewrite Es. cbn [bind]. eexists. split; [reflexivity|].
    intros _ _. rewrite rel_less. split.
    + intros H. eexists. split; [exact D|exact H].
    + intros [c [D' H]]. now rewrite (direction_unique r id _ _ _ D D').
  - destruct (stop_segment_none r Hlen Hnear Hne id _ N Ef) as [s Es]. rewrite Es. cbn [bind]. eexists. split; [reflexivity|]. discriminate.
Qed.
Lemma ahead_ok u l id p : nth_error signals u = Some l -> exists b, ahead rows id l p = Ok b /\
  forall row', find_lane id rows = Some row' -> (b = true <-> exists c, stop_direction r id (snd (signal_at id l)) c /\ 0 < along p (snd (signal_at id l)) c).
Proof.
  intros E. assert (N := stop_near u l id E). unfold ahead. destruct (find_lane id rows) as [row'|] eqn:Ef.
  - destruct (stop_segment_total r Hlen Hnear row' id _ N Ef) as [a [b [Es D]]]. rewrite Es. cbn [bind]. eexists. split; [reflexivity|].
    intros _ _. rewrite rel_more. split.
    + intros H. eexists. split; [exact D|exact H].
    + intros [c [D' H]]. now rewrite (direction_unique r id _ _ _ D D').
  - destruct (stop_segment_none r Hlen Hnear Hne id _ N Ef) as [s Es]. rewrite Es. cbn [bind]. eexists. split; [reflexivity|]. discriminate.
Qed.
Lemma violates_spec t id : (t < length row)%nat -> exists b, violates rows signals row t id = Ok b /\ (b = true <-> violation_of t id).
Proof.
  intros Ht. unfold violates. destruct (gather_total row t Ht) as [[p v] [G1 N1]]. rewrite G1. cbn [bind fst snd].
  assert (Np : near_origin p) by (apply (Hrow (p, v)); now apply nth_error_In in N1).
  destruct (lane_exists r Hlen Hnear Hne p Np) as [i [k [En Ch]]]. rewrite En. cbn [bind fst].
  assert (exists lane0 id0, nth_error r i = Some (lane0, id0)) as [lane0 [id0 Ei]] by (destruct Ch as [lane [id' [_ [_ [_ [H _]]]]]]; eauto).
  rewrite (gather_ok rows i (id0, pad (max_length r) lane0)) by (now rewrite nth_error_map, Ei). cbn [bind fst].
  destruct (gather_total signals t ltac:(lia)) as [here [G2 N2]]. rewrite G2. cbn [bind].
  assert (D0 : drives_on r p id0) by (exists i, k, lane0; auto).
  assert (Fd : drives_on r p id -> exists row', find_lane id rows = Some row').
  { intros D. assert (F := find_first r id). destruct (find_lane id rows) as [x|]; [eauto|]. exfalso.
    destruct D as [i' [k' [l' [_ E']]]]. apply nth_error_In in E'. now apply (F l'). }
  destruct t as [|u].
  { cbn [bind]. eexists. split; [reflexivity|]. rewrite andb_false_r. split; [discriminate|]. intros [u [q [vq [p' [s [st [c [c' [E _]]]]]]]]]. discriminate. }
  destruct (gather_total row u ltac:(lia)) as [[q vq] [G3 N3]]. rewrite G3. cbn [bind fst].
  destruct (gather_total signals u ltac:(lia)) as [there [G4 N4]]. rewrite G4. cbn [bind].
  destruct (behind_ok u there id q N4) as [bb [Eb Hb]]. rewrite Eb. cbn [bind].
  destruct (ahead_ok (S u) here id p N2) as [ba [Ea Ha]]. rewrite Ea. cbn [bind].
  eexists. split; [reflexivity|]. rewrite !andb_true_iff. split.
  - intros [[[[Hv Hc] Hs] Hf] [Hbb Hba]]. apply Z.eqb_eq in Hc. subst id0.
    destruct (find_lane id rows) as [row'|] eqn:Ef; [|discriminate].
    apply (Hb row' eq_refl) in Hbb. apply (Ha row' eq_refl) in Hba. destruct Hbb as [c' [D' A']]. destruct Hba as [c [D A]].
    apply (red_code signals (S u) here id N2) in Hs. destruct Hs as [s [Hs R]].
    rewrite (shown_code signals (S u) here id N2 s Hs) in D, A. cbn [snd] in D, A.
    exists u, q, vq, p, s, (snd (signal_at id there)), c, c'. split; [reflexivity|]. split; [assumption|].
    split; [rewrite N1, Hv; reflexivity|]. split; [assumption|]. split; [assumption|]. split; [assumption|].
    split; [now apply (stop_code signals u there id N4)|]. auto.
  - intros [u' [q' [vq' [p' [s [st [c [c' [E [H1 [H2 [H3 [H4 [H5 [H6 [H7 [H8 [H9 H10]]]]]]]]]]]]]]]]]].
    injection E as <-. rewrite N3 in H1. injection H1 as <- <-. rewrite N1 in H2. injection H2 as <- ->.
    destruct (Fd H3) as [row' Ef]. assert (id0 = id) by now apply (drives_unique r p). subst id0.
    apply (stop_code signals u there id N4) in H6. subst st.
    assert (R : is_stop (signal_at id here) = true) by (apply (red_code signals (S u) here id N2); eauto).
    rewrite Ef. split; [split; [split; [split; [reflexivity|apply Z.eqb_refl]|assumption]|reflexivity]|].
    split; [apply (Hb row' Ef); eauto|]. apply (Ha row' Ef). rewrite (shown_code signals (S u) here id N2 s H4). cbn [snd]. eauto.
Qed.
Lemma violation_at_spec order t : lists_set order -> (t < length row)%nat ->
  exists b, violation_at order rows signals row t = Ok b /\ (b = true <-> violation r signals row t).
Proof.
  intros Ho Ht. unfold violation_at. destruct (mapM_total (violates rows signals row t) (all_lane_ids order signals)) as [l El].
  { intros id _. destruct (violates_spec t id Ht) as [b [E _]]. eauto. }
  rewrite El. cbn [bind]. eexists. split; [reflexivity|]. rewrite existsb_exists. split.
  - intros [b [Hb ->]]. destruct (mapM_of _ _ _ El true Hb) as [id [_ E]]. destruct (violates_spec t id Ht) as [b' [E' I]].
    rewrite E in E'. apply Ok_inj in E'. subst b'. destruct (proj1 I eq_refl) as [u [q [vq [p [s [st [c [c' H]]]]]]]].
    exists u, q, vq, p, id, s, st, c, c'. exact H.
  - intros [u [q [vq [p [id [s [st [c [c' H]]]]]]]]]. assert (Hi : In id (all_lane_ids order signals)).
    { destruct H as [_ [_ [_ [_ [[b [a [E [Hs _]]]] _]]]]]. assert (I : In id (order (map s_lane (concat signals)))).
      { apply Ho. apply in_map_iff. exists s. split; [assumption|]. apply in_concat. apply nth_error_In in E. exists (b ++ s :: a). split; [assumption|].
        apply in_or_app. right. now left. }
      unfold all_lane_ids. destruct (order _); [destruct I|assumption]. }
    destruct (mapM_into _ _ _ El id Hi) as [b [Hb E]]. exists b. split; [assumption|]. destruct (violates_spec t id Ht) as [b' [E' I]].
    rewrite E in E'. apply Ok_inj in E'. subst b'. apply I. exists u, q, vq, p, s, st, c, c'. exact H.
Qed.
End Scene.
(** ** The whole *)
Section Whole.
Variables (order : list Z -> list Z) (num_steps : nat) (objects : list (list vpt)) (mask : list bool).
Variables (lanes : list (list pt)) (ids : list Z) (signals : list (list signal)).
Notation r := (usable lanes ids).
Notation compute := (compute_red_light_violation order num_steps objects mask lanes ids signals).
Hypothesis Ho : lists_set order.
Hypothesis Hmask : length mask = length objects.
Hypothesis Hrows : forall row, In row objects -> length row = num_steps.
Hypothesis Hids : length lanes = length ids.
Hypothesis Hb : bounded lanes signals objects.
Hypothesis Husable : exists lane, In lane lanes /\ (2 <= length lane)%nat.
Hypothesis Heval : In true mask.
Hypothesis Hsteps : length signals = num_steps.
Hypothesis Htwo : (2 <= num_steps)%nat.
Lemma usable_in l : In l r -> In (fst l) lanes /\ (2 <= length (fst l))%nat.
Proof.
  intros H. apply filter_In in H. destruct H as [H L]. apply Nat.leb_le in L. split; [|assumption].
  destruct l as [lane id]. now apply in_combine_l in H.
Qed.
Lemma usable_ne : r <> [].
Proof.
  destruct Husable as [lane [Hl L]]. apply In_nth_error in Hl. destruct Hl as [i Hi].
  destruct (nth_length ids i) as [id Eid]; [rewrite <- Hids; apply nth_error_Some; congruence|].
  assert (I : In (lane, id) r).
  { apply filter_In. split; [|now apply Nat.leb_le]. apply (nth_error_In _ i). now apply nth_combine. }
  intros C. rewrite C in I. destruct I.
Qed.
Lemma select_ne : GeomModel.select mask objects <> [].
Proof.
  apply In_nth_error in Heval. destruct Heval as [g Hg].
  destruct (nth_length objects g) as [row Er]; [rewrite <- Hmask; apply nth_error_Some; congruence|].
  assert (E := GeomNearestProofs.select_nth mask objects g row Hg Er). intros C. rewrite C in E. destruct (GeomSceneSpec.row_of mask g); discriminate.
Qed.
Lemma select_in row : In row (GeomModel.select mask objects) -> In row objects.
Proof.
  intros H. apply (Permutation.Permutation_in _ (GeomNearestProofs.select_perm mask objects Hmask)). apply in_or_app. now left.
Qed.
Lemma compute_eq : compute = mapM (fun row => mapM (violation_at order (map (fun l : list pt * Z => (snd l, pad (max_length r) (fst l))) r) signals row) (seq 0 num_steps))
                                  (GeomModel.select mask objects).
Proof.
  unfold compute_red_light_violation. destruct lanes as [|l0 ls] eqn:El; [destruct Husable as [x [[] _]]|]. rewrite <- El in *.
  destruct signals as [|s0 ss] eqn:Es; [cbn in Hsteps; lia|]. rewrite <- Es in *.
  rewrite Hids, Nat.eqb_refl. cbn [negb]. unfold tensorize. change (kept lanes ids) with r. assert (U := usable_ne).
  destruct r as [|r0 rs] eqn:Er; [congruence|]. rewrite <- Er. cbn [bind]. assert (S0 := select_ne).
  destruct (GeomModel.select mask objects) as [|o os] eqn:Eo; [congruence|]. rewrite <- Eo.
  rewrite Hsteps, Nat.eqb_refl. cbn [negb]. replace (Nat.eqb num_steps 1) with false by (symmetry; apply Nat.eqb_neq; lia). reflexivity.
Qed.
Lemma row_spec row t : In row objects -> (t < num_steps)%nat ->
  exists b, violation_at order (map (fun l : list pt * Z => (snd l, pad (max_length r) (fst l))) r) signals row t = Ok b /\ (b = true <-> violation r signals row t).
Proof.
  intros Hi Ht. destruct Hb as [B1 [B2 B3]]. assert (L := Hrows row Hi). apply violation_at_spec; try assumption; try lia.
  - intros l Hl. now apply usable_in.
  - intros l q Hl. apply B1. now apply usable_in.
  - apply usable_ne.
  - intros c Hc. now apply (B3 row).
Qed.
Lemma light_total : exists out, compute = Ok out /\ length out = count_occ bool_dec mask true /\ forall x, In x out -> length x = num_steps.
Proof.
  rewrite compute_eq. edestruct (mapM_total (fun row => mapM (violation_at order (map (fun l : list pt * Z => (snd l, pad (max_length r) (fst l))) r) signals row) (seq 0 num_steps))
                                  (GeomModel.select mask objects)) as [out E].
  { intros row Hi. apply mapM_total. intros t Ht. apply in_seq in Ht. destruct (row_spec row t (select_in row Hi) ltac:(lia)) as [b [E _]]. eauto. }
  exists out. split; [assumption|]. split.
  - rewrite (mapM_length _ _ _ E). now apply GeomNearestProofs.select_length.
  - intros x Hx. destruct (mapM_of _ _ _ E x Hx) as [row [_ F]]. rewrite (mapM_length _ _ _ F). apply seq_length.
Qed.
Lemma light_value out g row t : compute = Ok out -> nth_error mask g = Some true -> nth_error objects g = Some row -> (t < num_steps)%nat ->
  exists b, cell_of out (GeomSceneSpec.row_of mask g) t = Some b /\ (b = true <-> violation r signals row t).
Proof.
  rewrite compute_eq. intros E Hg Er Ht. assert (Hs := GeomNearestProofs.select_nth mask objects g row Hg Er).
  destruct (mapM_at _ _ _ E _ _ Hs) as [x [Hx Ex]]. destruct (mapM_at _ _ _ Ex t t) as [b [Hb' Eb]].
  { rewrite (nth_error_nth' _ 0%nat) by now rewrite seq_length. now rewrite seq_nth. }
  exists b. unfold cell_of. rewrite Hx. split; [assumption|].
  destruct (row_spec row t (nth_error_In _ _ Er) Ht) as [b' [E' I]]. rewrite Eb in E'. apply Ok_inj in E'. now subst.
Qed.
End Whole.
