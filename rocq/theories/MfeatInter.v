(** The interactive, road and light features of a scorable scene. *)
From Coq Require Import Reals Permutation Lra.
From Verif Require Import Base ResultLib ListLib MonadLib SimModel SimSpec SimProofs GeomModel GeomSceneSpec TtcModel RoadModel RoadSpec.
From Verif Require GeomNearestProofs TtcProofs RoadProofs RoadBoxProofs.
From Verif Require Import MfeatModel MfeatSpec MfeatCore MfeatProofs MfeatRows.
Open Scope list_scope.
Open Scope R_scope.

Lemma row_of_first m n k : (k <= m)%nat -> row_of (first_mask m n) k = k.
Proof.
  intros H. unfold row_of, first_mask. rewrite firstn_app, repeat_length, firstn_repeat.
  replace (k - m)%nat with 0%nat by lia. rewrite firstn_O, app_nil_r, Nat.min_l by lia. clear H.
  induction k as [|k IH]; [reflexivity|]. cbn [repeat]. rewrite count_occ_cons_eq by reflexivity. now rewrite IH.
Qed.

Lemma at_step_objs l g t c : at_step (map obj_cells l) g t = Some c <-> exists o, nth_error l g = Some o /\ object_cell o t c.
Proof.
  unfold at_step. rewrite nth_error_map'. destruct (nth_error l g) as [o|]; cbn [option_map].
  - rewrite obj_cell_iff. split; [eauto|]. intros (o' & [= <-] & H). exact H.
  - split; [discriminate|]. intros (o & H & _). discriminate.
Qed.

Section scene.
Context {S : Type} (X : extractors S) (sc : full_scenario S) (js : list (sim_trajectory R)) (b : bool).
Hypothesis H : scorable (agents sc) js.
Variables os rest : list (obj R).
Hypothesis Hids : os <> [].
Hypothesis G : forall o, In o (os ++ rest) -> exists tr, sim_agent (agents sc) js b (o_id o) o tr.
Hypothesis P : Permutation (map o_id (os ++ rest)) (map sim_id js).
Local Notation l := (os ++ rest).
Local Notation mask := (first_mask (length os) (length rest)).

Lemma steps_91 : last_dim (tr_x (of_objs l)) = 91%nat.
Proof.
  destruct os as [|o os']; [contradiction|]. cbn [of_objs tr_x map app last_dim].
  destruct (G o (or_introl eq_refl)) as (tr & Hag). apply (agent_lengths _ _ _ _ _ _ _ H Hag).
Qed.
Lemma steps_91_valid : last_dim (tr_valid (of_objs l)) = 91%nat.
Proof.
  destruct os as [|o os']; [contradiction|]. cbn [of_objs tr_valid map app last_dim].
  destruct (G o (or_introl eq_refl)) as (tr & Hag). destruct (agent_lengths _ _ _ _ _ _ _ H Hag) as (_ & _ & _ & _ & _ & _ & _ & L & _).
  rewrite L. destruct b; reflexivity.
Qed.
Lemma cells_91 r : In r (map obj_cells l) -> length r = 91%nat.
Proof.
  intros Q. apply in_map_iff in Q. destruct Q as (o & <- & Ho). destruct (G o Ho) as (tr & Hag).
  apply (obj_cells_length _ _ _ _ _ _ H Hag).
Qed.
Lemma mask_objs {B} (f : obj R -> B) : length mask = length (map f l).
Proof. now rewrite first_mask_length, map_length, app_length. Qed.

(** Every agent of the scene is listed, once. *)
Lemma listed id o tr : sim_agent (agents sc) js b id o tr -> exists g, nth_error l g = Some o.
Proof.
  intros Hag. apply In_nth_error. pose proof Hag as (s & cur & Hs & Es & _).
  assert (In id (map o_id l)) as Q by (apply (Permutation_in _ (Permutation_sym P)); rewrite <- Es; now apply in_map).
  apply in_map_iff in Q. destruct Q as (o' & Eo & Ho). destruct (G o' Ho) as (tr' & Hag'). rewrite Eo in Hag'.
  now destruct (agent_unique _ _ _ _ _ _ _ _ _ H Hag Hag') as (-> & _).
Qed.
Lemma listed_once g g' o o' : nth_error l g = Some o -> nth_error l g' = Some o' -> (Nat.eqb g g' = Z.eqb (o_id o') (o_id o)).
Proof.
  intros E E'. assert (NoDup (map o_id l)) as N.
  { apply (Permutation_NoDup (Permutation_sym P)). apply H. }
  destruct (Nat.eqb_spec g g') as [<-|D].
  - assert (o = o') as <- by congruence. symmetry. apply Z.eqb_refl.
  - symmetry. apply Z.eqb_neq. intros Q. apply D. apply (proj1 (NoDup_nth_error _) N).
    + rewrite map_length. apply nth_error_Some. congruence.
    + rewrite !nth_error_map', E, E'. cbn. congruence.
Qed.
Lemma os_listed k o : nth_error os k = Some o -> nth_error l k = Some o /\ (k < length os)%nat.
Proof.
  intros E. assert (k < length os)%nat by (apply nth_error_Some; congruence). split; [|assumption].
  now rewrite nth_error_app1.
Qed.

Lemma compared_iff same e c v : masked_distance CORNER_ROUNDING_FACTOR same e c = Ok v <-> compared_as same e c v.
Proof.
  unfold masked_distance, compared_as, CORNER_ROUNDING_FACTOR, EXTREMELY_LARGE_DISTANCE.
  destruct (box_distance (7 / 10) (fst e) (fst c)) as [d|er]; cbn [bind].
  - split.
    + intros Q. apply Ok_inj in Q. exists d. split; [reflexivity|]. rewrite <- Q. destruct (snd e && snd c), same; try reflexivity; ring.
    + intros (d' & Q & ->). apply Ok_inj in Q. subst d'. f_equal. destruct (snd e && snd c), same; try reflexivity; ring.
  - split; [discriminate|]. intros (d & Q & _). discriminate.
Qed.

Lemma nearest_rows ds : nearest_feature (of_objs l) mask = Ok ds ->
  length ds = length os /\
  forall k o t, nth_error os k = Some o -> (t < 91)%nat ->
    exists row d, nth_error ds k = Some row /\ length row = 91%nat /\ nth_error row t = Some d /\
      nearest_distance (agents sc) js b (o_id o) t d.
Proof.
  unfold nearest_feature. rewrite steps_91, cells_of_objs. intros E.
  destruct (GeomNearestProofs.whole_total CORNER_ROUNDING_FACTOR 91 (map obj_cells l) mask (mask_objs _) cells_91) as (ds' & E' & L & FL).
  assert (ds' = ds) as -> by congruence. rewrite first_mask_count in L. split; [exact L|].
  intros k o t Ek Ht. destruct (os_listed k o Ek) as (El & Lk).
  destruct (GeomNearestProofs.whole_entry _ _ _ _ _ E k t (first_mask_nth _ _ _ Lk) Ht) as (d & Ed & Hd).
  destruct (GeomNearestProofs.nearest_value _ _ _ (mask_objs _) k t d (first_mask_nth _ _ _ Lk) Hd) as (e & Ee & Hall & g & c & Ec & Hc).
  rewrite row_of_first in Ed by lia. unfold entry in Ed. destruct (nth_error ds k) as [row|] eqn:Er; [|discriminate].
  exists row, d. split; [reflexivity|]. split; [rewrite Forall_forall in FL; apply FL; eapply nth_error_In; eassumption|].
  split; [exact Ed|].
  apply at_step_objs in Ee. destruct Ee as (o1 & Eo1 & He). assert (o1 = o) as -> by congruence.
  destruct (G o) as (tr & Hag); [eapply nth_error_In; eassumption|].
  split.
  - apply at_step_objs in Ec. destruct Ec as (o' & Eo' & Hc'). destruct (G o') as (tr' & Hag'); [eapply nth_error_In; eassumption|].
    exists (o_id o'), o, tr, o', tr', e, c. split; [exact Hag|]. split; [exact Hag'|]. split; [exact He|]. split; [exact Hc'|].
    rewrite <- (listed_once k g o o' El Eo'). now apply compared_iff.
  - intros v (id' & o2 & tr2 & o' & tr' & e2 & c2 & Hag2 & Hag' & He2 & Hc2 & Hcmp).
    destruct (agent_unique _ _ _ _ _ _ _ _ _ H Hag Hag2) as (<- & _).
    assert (e2 = e) as -> by (apply obj_cell_iff in He, He2; congruence).
    destruct (listed _ _ _ Hag') as (g' & Eg').
    assert (g' < length (map obj_cells l))%nat as Lg by (rewrite map_length; apply nth_error_Some; congruence).
    destruct (Hall g' Lg) as (c3 & d3 & Ec3 & Hd3 & Hle). apply at_step_objs in Ec3. destruct Ec3 as (o3 & Eo3 & Hc3).
    assert (o3 = o') as -> by congruence. assert (c3 = c2) as -> by (apply obj_cell_iff in Hc3, Hc2; congruence).
    rewrite (listed_once k g' o o' El Eg'), (agent_id _ _ _ _ _ _ Hag') in Hd3. apply compared_iff in Hcmp.
    assert (d3 = v) as <- by congruence. exact Hle.
Qed.

Lemma collision_rows ds : agents_sized (agents sc) js b -> nearest_feature (of_objs l) mask = Ok ds ->
  forall k o t, nth_error os k = Some o -> (t < 91)%nat ->
    exists row d, nth_error ds k = Some row /\ nth_error row t = Some d /\
      (is_colliding d = true <-> exists c id' o' tr' c', object_cell o t (c, true) /\ id' <> o_id o /\
          sim_agent (agents sc) js b id' o' tr' /\ object_cell o' t (c', true) /\ overlap (7 / 10) c c').
Proof.
  intros Hsz. unfold nearest_feature. rewrite steps_91, cells_of_objs. intros E k o t Ek Ht.
  destruct (os_listed k o Ek) as (El & Lk).
  assert (sized (map obj_cells l)) as Hs.
  { intros g u c Q. apply at_step_objs in Q. destruct Q as (o' & Eo' & Q). destruct (G o') as (tr' & Hag'); [eapply nth_error_In; eassumption|].
    exact (Hsz _ _ _ _ _ Hag' Q). }
  assert (0 <= CORNER_ROUNDING_FACTOR < 1) as Hf by (unfold CORNER_ROUNDING_FACTOR; lra).
  destruct (GeomNearestProofs.whole_collision _ _ _ _ _ E Hf Hs k t (first_mask_nth _ _ _ Lk) Ht) as (d & Ed & Hd).
  rewrite row_of_first in Ed by lia. unfold entry in Ed. destruct (nth_error ds k) as [row|] eqn:Er; [|discriminate].
  exists row, d. split; [reflexivity|]. split; [exact Ed|]. rewrite Hd. split.
  - intros (c & g' & c' & V & D & V' & O). apply at_step_objs in V, V'. destruct V as (o1 & E1 & V), V' as (o' & E' & V').
    assert (o1 = o) as -> by congruence. destruct (G o') as (tr' & Hag'); [eapply nth_error_In; eassumption|].
    exists c, (o_id o'), o', tr', c'. split; [exact V|]. split; [|auto].
    intros Q. pose proof (listed_once k g' o o' El E') as W. rewrite Q, Z.eqb_refl in W. apply Nat.eqb_eq in W. congruence.
  - intros (c & id' & o' & tr' & c' & V & D & Hag' & V' & O). destruct (listed _ _ _ Hag') as (g' & Eg').
    exists c, g', c'. split; [apply at_step_objs; eauto|]. split; [|split; [apply at_step_objs; eauto|exact O]].
    intros ->. assert (o' = o) as -> by congruence. apply D. symmetry. exact (agent_id _ _ _ _ _ _ Hag').
Qed.

Lemma nearest_total : exists ds, nearest_feature (of_objs l) mask = Ok ds.
Proof.
  unfold nearest_feature. rewrite steps_91, cells_of_objs.
  destruct (GeomNearestProofs.whole_total CORNER_ROUNDING_FACTOR 91 (map obj_cells l) mask (mask_objs _) cells_91) as (ds & E & _). eauto.
Qed.
Lemma ttc_total : exists ds, ttc_feature (of_objs l) mask = Ok ds /\ length ds = length os /\ forall r, In r ds -> length r = 91%nat.
Proof.
  unfold ttc_feature. rewrite steps_91, cells_of_objs.
  destruct (TtcProofs.whole_ok STEP_DURATION 91 (map obj_cells l) mask (mask_objs _) ltac:(lia) cells_91) as (ds & E & L & Hr).
  rewrite first_mask_count in L. eauto.
Qed.

(** The road. *)
Lemma row_boxes_nth cells : forall z ht t c, nth_error (row_boxes cells z ht) t = Some c <->
  nth_error cells t = Some (b_box (fst c), snd c) /\ nth_error z t = Some (b_z (fst c)) /\ nth_error ht t = Some (b_height (fst c)).
Proof.
  induction cells as [|a cells IH]; intros [|u z] [|w ht] [|t] [[bb bz bh] v]; cbn [row_boxes nth_error b_box b_z b_height fst snd];
    try (split; [discriminate|intros (Q1 & Q2 & Q3); discriminate]).
  - destruct a as (a1 & a2). cbn [fst snd]. split.
    + intros [= <- <- <- <-]. repeat split.
    + intros ([= <- <-] & [= <-] & [= <-]). reflexivity.
  - apply IH.
Qed.
Lemma object_box_iff o t bb v : nth_error (obj_boxes o) t = Some (bb, v) <-> object_box o t bb v.
Proof. unfold obj_boxes, object_box. rewrite row_boxes_nth. cbn [fst snd]. now rewrite obj_cell_iff. Qed.
Lemma cell_at_objs g t c : cell_at (map obj_boxes l) g t = Some c <-> exists o, nth_error l g = Some o /\ nth_error (obj_boxes o) t = Some c.
Proof.
  unfold cell_at. rewrite nth_error_map'. destruct (nth_error l g) as [o|]; cbn [option_map].
  - split; [eauto|]. intros (o' & [= <-] & Q). exact Q.
  - split; [discriminate|]. intros (o & Q & _). discriminate.
Qed.
Lemma boxes_91 o : In o l -> length (obj_boxes o) = 91%nat.
Proof.
  intros Ho. destruct (G o Ho) as (tr & Hag). destruct (agent_lengths _ _ _ _ _ _ _ H Hag) as (_ & _ & L3 & _ & _ & _ & L7 & _).
  pose proof (obj_cells_length _ _ _ _ _ _ H Hag) as L. unfold obj_boxes.
  assert (forall c z ht n, length c = n -> length z = n -> length ht = n -> length (row_boxes c z ht) = n) as Q.
  { induction c as [|a c IH]; intros [|u z] [|w ht] n; cbn [length row_boxes]; intros; try lia. destruct n as [|n]; [lia|]. f_equal. apply IH; lia. }
  now apply Q.
Qed.
Lemma road_rows_of road out : road_feature (of_objs l) mask road = Ok out ->
  (exists p, In p road /\ (2 <= length p)%nat) /\ length out = length os /\
  forall k o, nth_error os k = Some o -> exists row, nth_error out k = Some row /\ length row = 91%nat /\
    forall t bb v, object_box o t bb v -> exists d, nth_error row t = Some d /\
      (v = false -> d = -10000000000) /\
      (v = true -> (exists q, is_bottom_corner bb q /\ point_distance road q d) /\
         forall q d', is_bottom_corner bb q -> point_distance road q d' -> d' <= d).
Proof.
  unfold road_feature. rewrite boxes_of_objs. intros E.
  assert (exists p, In p road /\ (2 <= length p)%nat) as Hp.
  { destruct (existsb (fun p : list pt3 => Nat.leb 2 (length p)) road) eqn:Q.
    - apply existsb_exists in Q. destruct Q as (p & Hp & Q). apply Nat.leb_le in Q. eauto.
    - rewrite RoadBoxProofs.road_error in E; [discriminate|]. intros p Hp.
      destruct (Nat.leb_spec 2 (length p)) as [W|W]; [|exact W]. exfalso.
      assert (existsb (fun p : list pt3 => Nat.leb 2 (length p)) road = true) as V by (apply existsb_exists; exists p; split; [exact Hp|now apply Nat.leb_le]).
      congruence. }
  split; [exact Hp|].
  destruct (RoadBoxProofs.road_total (map obj_boxes l) mask road (mask_objs _) Hp) as (out' & E' & L & Hrow).
  assert (out' = out) as -> by congruence. rewrite first_mask_count in L. split; [exact L|].
  intros k o Ek. destruct (os_listed k o Ek) as (El & Lk).
  destruct (Hrow k (obj_boxes o) (first_mask_nth _ _ _ Lk)) as (row & Er & Lr); [now apply map_nth_error|].
  rewrite row_of_first in Er by lia. exists row. split; [exact Er|]. split; [rewrite Lr; apply boxes_91; eapply nth_error_In; eassumption|].
  intros t bb v Hb. apply object_box_iff in Hb.
  destruct (RoadBoxProofs.road_entry (map obj_boxes l) mask road out k t bb v E (first_mask_nth _ _ _ Lk)) as (d & Ed & Hd).
  { apply cell_at_objs. eauto. }
  rewrite row_of_first in Ed by lia. unfold entry in Ed. rewrite Er in Ed. exists d. split; [exact Ed|exact Hd].
Qed.

Lemma first_table : evaluated_first (agents sc) js b (map o_id os) (of_objs l).
Proof.
  unfold evaluated_first. split; [|split; [|split]].
  - assert (length l = length js) as <- by (rewrite <- (map_length o_id l), (Permutation_length P), map_length; reflexivity).
    apply of_objs_n.
  - cbn [of_objs tr_id]. rewrite map_app, map_length, <- (map_length o_id os), firstn_app, Nat.sub_diag, firstn_O, app_nil_r. apply firstn_all.
  - cbn [of_objs tr_id]. exact P.
  - cbn [of_objs tr_id]. intros k id o tr Hk Hag. apply of_objs_nth. rewrite nth_error_map' in Hk.
    destruct (nth_error l k) as [o'|] eqn:E; [|discriminate]. cbn [option_map] in Hk.
    destruct (G o') as (tr' & Hag'); [eapply nth_error_In; eassumption|].
    assert (o_id o' = id) as Q by congruence. rewrite Q in Hag'.
    now destruct (agent_unique _ _ _ _ _ _ _ _ _ H Hag Hag') as (-> & _).
Qed.
End scene.

Lemma road_edges_eq l : road_edges_of l = road_edges l.
Proof.
  unfold road_edges_of, road_edges. assert (forall acc, fold_left (fun acc f => match f with RoadEdge p => acc ++ [p] | _ => acc end) l acc =
    acc ++ flat_map (fun f : map_feature pt3 => match f with RoadEdge p => [p] | _ => [] end) l) as Q.
  { induction l as [|f l IH]; intros acc; cbn [fold_left flat_map]; [now rewrite app_nil_r|]. rewrite IH. destruct f; [now rewrite <- app_assoc|reflexivity..]. }
  apply (Q []).
Qed.
Lemma street_lanes_eq l : street_lanes l = (map fst (surface_streets l), map snd (surface_streets l)).
Proof.
  unfold street_lanes, surface_streets. assert (forall acc, fold_left (fun acc f => match f with
      | Lane i ty p => if Z.eqb ty TYPE_SURFACE_STREET then (fst acc ++ [i], snd acc ++ [p]) else acc | _ => acc end) l acc =
    (fst acc ++ map fst (flat_map surface_street l), snd acc ++ map snd (flat_map surface_street l))) as Q.
  { induction l as [|f l IH]; intros acc; cbn [fold_left flat_map]; [cbn [map]; rewrite !app_nil_r; now destruct acc|]. rewrite IH, !map_app.
    destruct f as [p|i ty p|]; cbn [surface_street map app]; [reflexivity| |reflexivity].
    unfold TYPE_SURFACE_STREET. destruct (Z.eqb_spec ty 2) as [->|D]; cbn [fst snd map app].
    - now rewrite <- !app_assoc.
    - assert (match ty with 2%Z => [(i, p)] | _ => [] end = []) as ->; [|reflexivity].
      destruct ty as [|[|[| |]|]|]; try reflexivity. contradiction. }
  rewrite Q. reflexivity.
Qed.
