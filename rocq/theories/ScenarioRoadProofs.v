(** Road graph samples of the scenario conversion. *)
From Coq Require Import String Sorting.Permutation Lqa.
From Verif Require Import Base ResultLib MonadLib ListLib ScenarioModel ScenarioSpec.
Open Scope list_scope.
Open Scope Z_scope.

(** ** Logs *)
Lemma tensor_app k a b : tensor k (a ++ b) = tensor k a ++ tensor k b.
Proof. apply flat_map_app. Qed.

Lemma tensor_concat k ls : tensor k (List.concat ls) = flat_map (tensor k) ls.
Proof.
  induction ls as [|l ls IH]; [reflexivity|].
  cbn [List.concat flat_map]. rewrite tensor_app, IH. reflexivity.
Qed.

Lemma tensor_flat_map {A} k (f : A -> log) l : tensor k (flat_map f l) = flat_map (fun x => tensor k (f x)) l.
Proof.
  induction l as [|x l IH]; [reflexivity|].
  cbn [flat_map]. rewrite tensor_app, IH. reflexivity.
Qed.

Lemma counter_app k a b : counter k (a ++ b) = counter k a + counter k b.
Proof.
  induction a as [|e a IH]; [reflexivity|].
  destruct e as [k' v|k' n]; cbn [app counter]; rewrite IH; [reflexivity|].
  destruct (String.eqb k' k); lia.
Qed.

(** ** Polygons *)
Lemma segment_loop_spec start ray n : forall room k,
  segment_loop room start ray n (Z.of_nat k) =
  firstn room (map (fun j => vadd start (vdiv (vscale (inject_Z (Z.of_nat j)) ray) (inject_Z (n - 1))))
                   (seq k (Z.to_nat (n - 1) - k))).
Proof.
  induction room as [|room IH]; intros k; [reflexivity|].
  cbn [segment_loop]. destruct (Z.ltb_spec (Z.of_nat k) (n - 1)) as [H|H].
  - replace (Z.to_nat (n - 1) - k)%nat with (S (Z.to_nat (n - 1) - S k)) by lia.
    cbn [seq map]. rewrite firstn_cons. f_equal.
    replace (Z.of_nat k + 1) with (Z.of_nat (S k)) by lia. apply IH.
  - replace (Z.to_nat (n - 1) - k)%nat with 0%nat by lia. reflexivity.
Qed.

Lemma segment_spec pf cfg room a b :
  add_sampled_polygon_segment pf cfg room a b = firstn room (side_samples pf cfg (a, b)).
Proof.
  unfold add_sampled_polygon_segment, side_samples. destruct room as [|room]; [reflexivity|].
  destruct (Qle_bool (polygon_sample_spacing cfg) 0);
    [rewrite firstn_cons, firstn_nil; reflexivity|].
  set (n := Z.max _ 2). cbv zeta. change 0 with (Z.of_nat 0) at 1.
  rewrite (segment_loop_spec a (vsub b a) n (S room) 0).
  rewrite Nat.sub_0_r. reflexivity.
Qed.

Lemma firstn_app_room {A} (room : nat) (a b : list A) :
  firstn room (a ++ b) = firstn room a ++ firstn (room - List.length (firstn room a)) b.
Proof.
  rewrite firstn_app, firstn_length. f_equal.
  destruct (Nat.le_gt_cases (List.length a) room).
  - rewrite Nat.min_r by lia. reflexivity.
  - rewrite Nat.min_l by lia. replace (room - List.length a)%nat with 0%nat by lia.
    rewrite Nat.sub_diag. reflexivity.
Qed.

Lemma polygon_sides_spec pf cfg : forall l room,
  polygon_sides pf cfg room l = firstn room (flat_map (side_samples pf cfg) (combine l (tl l))).
Proof.
  induction l as [|p l IH]; intros room; [rewrite firstn_nil; reflexivity|].
  destruct l as [|q l]; [cbn; rewrite firstn_nil; reflexivity|].
  change (combine (p :: q :: l) (tl (p :: q :: l))) with ((p, q) :: combine (q :: l) (tl (q :: l))).
  change (polygon_sides pf cfg room (p :: q :: l)) with
    (let points := add_sampled_polygon_segment pf cfg room p q in
     let room' := (room - List.length points)%nat in
     match room' with O => points | S _ => points ++ polygon_sides pf cfg room' (q :: l) end).
  cbv zeta. rewrite segment_spec.
  change (flat_map (side_samples pf cfg) ((p, q) :: combine (q :: l) (tl (q :: l)))) with
    (side_samples pf cfg (p, q) ++ flat_map (side_samples pf cfg) (combine (q :: l) (tl (q :: l)))).
  rewrite firstn_app_room.
  destruct (room - List.length (firstn room (side_samples pf cfg (p, q))))%nat as [|r] eqn:E.
  - cbn [firstn]. rewrite app_nil_r. reflexivity.
  - rewrite IH. reflexivity.
Qed.

Lemma at_index_ok {A} (l : list A) i x : at_index l i = Ok x ->
  0 <= i < count l /\ nth_error l (Z.to_nat i) = Some x.
Proof.
  unfold at_index, count. destruct (Z.ltb_spec i 0) as [H|H]; [discriminate|].
  destruct (nth_error l (Z.to_nat i)) as [y|] eqn:E; [|discriminate].
  intros H1. apply Ok_inj in H1. subst y. split; [|reflexivity].
  assert (Z.to_nat i < List.length l)%nat by (apply nth_error_Some; congruence). lia.
Qed.

Lemma at_index_some {A} (l : list A) i x : 0 <= i -> nth_error l (Z.to_nat i) = Some x ->
  at_index l i = Ok x.
Proof.
  intros H E. unfold at_index. destruct (Z.ltb_spec i 0); [lia|]. rewrite E. reflexivity.
Qed.

Lemma at_index_in {A} (l : list A) i : 0 <= i < count l -> exists x, at_index l i = Ok x.
Proof.
  intros H. unfold count in H. destruct (nth_error l (Z.to_nat i)) as [x|] eqn:E.
  - exists x. apply at_index_some; [lia|exact E].
  - apply nth_error_None in E. lia.
Qed.

Lemma combine_snoc_last {A} (first : A) : forall rest,
  exists lst, nth_error (first :: rest) (List.length rest) = Some lst
    /\ forall z, combine (first :: rest) (rest ++ [z])
       = combine (first :: rest) rest ++ [(lst, z)].
Proof.
  intros rest. revert first. induction rest as [|q rest IH]; intros first.
  - exists first. split; reflexivity.
  - destruct (IH q) as (lst & E1 & E2). exists lst. split; [exact E1|].
    intros z. cbn [combine app]. f_equal. apply E2.
Qed.

Lemma polygon_points pf cfg id type pts n n' l :
  n < max_roadgraph_samples cfg ->
  add_polygon_samples pf cfg id type pts n = Ok (n', l) ->
  let kept := firstn (Z.to_nat (max_roadgraph_samples cfg - n)) (polygon_samples pf cfg pts) in
  n' = n + size kept /\ l = add_roadgraph_data id type kept (direction_loop pf kept).
Proof.
  intros Hn H. unfold add_polygon_samples in H. cbv zeta in H.
  set (room := Z.to_nat (max_roadgraph_samples cfg - n)) in *.
  dbind H lst El. dbind H fst0 Ef. dbind H dirs Ed.
  apply at_index_ok in El. apply at_index_ok in Ef. destruct El as [Hl El]. destruct Ef as [_ Ef].
  rewrite polygon_sides_spec in *. rewrite !segment_spec in *.
  destruct pts as [|first rest]; [unfold count in Hl; cbn in Hl; lia|].
  cbn in Ef. injection Ef as <-.
  destruct (combine_snoc_last first rest) as (lst' & E1 & E2).
  replace (Z.to_nat (size (first :: rest) - 1)) with (List.length rest) in El
    by (unfold size; cbn [List.length]; lia).
  rewrite E1 in El. injection El as ->.
  set (sides := flat_map (side_samples pf cfg) (combine (first :: rest) rest)) in *.
  change (tl (first :: rest)) with rest in *. fold sides in H. fold sides in Ed.
  assert (K : firstn room (polygon_samples pf cfg (first :: rest)) =
     firstn room sides ++ firstn (room - List.length (firstn room sides)) (side_samples pf cfg (lst, first))
     ++ match (room - List.length (firstn room sides)
               - List.length (firstn (room - List.length (firstn room sides))
                                (side_samples pf cfg (lst, first))))%nat with
        | O => [] | S _ => [first] end).
  { unfold polygon_samples. rewrite E2, flat_map_app. fold sides. cbn [flat_map].
    rewrite app_nil_r, <- app_assoc. rewrite firstn_app_room. f_equal.
    rewrite firstn_app_room. f_equal.
    destruct (_ - _ - _)%nat as [|r]; [reflexivity|]. rewrite firstn_cons, firstn_nil. reflexivity. }
  cbv zeta. rewrite K.
  destruct (_ ++ _ ++ _) as [|p ps] eqn:E; [discriminate Ed|].
  unfold compute_direction_vectors in Ed. apply Ok_inj in Ed. subst dirs.
  apply Ok_inj in H. injection H as <- <-. split; reflexivity.
Qed.

(** ** Polylines *)
Lemma trunc_floor q : (0 <= q)%Q -> trunc q = Qfloor q.
Proof. intros H. unfold trunc. apply Qle_bool_iff in H. rewrite H. reflexivity. Qed.

Lemma spacing_pos cfg : (0 < source_polyline_spacing cfg)%Q -> (0 < spacing cfg)%Q.
Proof.
  intros H. unfold spacing. destruct (Qle_bool (polyline_sample_spacing cfg) 0) eqn:E; [exact H|].
  apply Qnot_le_lt. intros C. apply Qle_bool_iff in C. congruence.
Qed.

Lemma inject_nonneg k : 0 <= k -> (0 <= inject_Z k)%Q.
Proof. intros H. change 0%Q with (inject_Z 0). rewrite <- Zle_Qle. exact H. Qed.

Lemma position_nonneg cfg i : (0 < source_polyline_spacing cfg)%Q ->
  (0 <= inject_Z (Z.of_nat i) * spacing cfg / source_polyline_spacing cfg)%Q.
Proof.
  intros H. pose proof (spacing_pos cfg H) as P. apply Qle_shift_div_l; [exact H|].
  assert (0 <= inject_Z (Z.of_nat i))%Q by (apply inject_nonneg; lia). nra.
Qed.

(** Sample [i] lies before source point [m] exactly when it is one of the
    first ceiling(m * source / spacing) samples. *)
Lemma before_count cfg (m : Z) i : (0 < source_polyline_spacing cfg)%Q ->
  (m <=? Qfloor (inject_Z (Z.of_nat i) * spacing cfg / source_polyline_spacing cfg)) =
  (Qceiling (inject_Z m * source_polyline_spacing cfg / spacing cfg) <=? Z.of_nat i).
Proof.
  intros H. pose proof (spacing_pos cfg H) as P.
  set (s := source_polyline_spacing cfg) in *. set (d := spacing cfg) in *.
  apply eq_true_iff_eq. rewrite !Z.leb_le. split; intros A.
  - assert (B : (inject_Z m * s / d <= inject_Z (Z.of_nat i))%Q).
    { apply Qle_shift_div_r; [exact P|].
      assert (C : (inject_Z m <= inject_Z (Z.of_nat i) * d / s)%Q).
      { eapply Qle_trans; [|apply Qfloor_le]. rewrite <- Zle_Qle. exact A. }
      apply (Qmult_le_compat_r _ _ s) in C; [|apply Qlt_le_weak; exact H].
      eapply Qle_trans; [exact C|]. unfold Qdiv. rewrite <- Qmult_assoc, (Qmult_comm (/ s)).
      rewrite Qmult_inv_r by (intros Z0; rewrite Z0 in H; discriminate H).
      rewrite Qmult_1_r. apply Qle_refl. }
    apply Qceiling_resp_le in B. rewrite Qceiling_Z in B. exact B.
  - assert (B : (inject_Z m <= inject_Z (Z.of_nat i) * d / s)%Q).
    { apply Qle_shift_div_l; [exact H|].
      assert (C : (inject_Z m * s / d <= inject_Z (Z.of_nat i))%Q).
      { eapply Qle_trans; [apply Qle_ceiling|]. rewrite <- Zle_Qle. exact A. }
      apply (Qmult_le_compat_r _ _ d) in C; [|apply Qlt_le_weak; exact P].
      eapply Qle_trans; [|exact C]. unfold Qdiv. rewrite <- Qmult_assoc, (Qmult_comm (/ d)).
      rewrite Qmult_inv_r by (intros Z0; rewrite Z0 in P; discriminate P).
      rewrite Qmult_1_r. apply Qle_refl. }
    apply Qfloor_resp_le in B. rewrite Qfloor_Z in B. exact B.
Qed.

Lemma at_index_nth {A} (l : list A) i d : 0 <= i < size l -> at_index l i = Ok (nth (Z.to_nat i) l d).
Proof.
  intros H. unfold size in H. apply at_index_some; [lia|]. apply nth_error_nth'. lia.
Qed.

Lemma polyline_loop_spec cfg pts : (0 < source_polyline_spacing cfg)%Q -> pts <> [] ->
  forall room k, polyline_loop cfg room pts (Z.of_nat k) =
    Ok (firstn room (map (polyline_sample cfg pts) (seq k (polyline_count cfg pts - k)))).
Proof.
  intros H Hp. induction room as [|room IH]; intros k; [reflexivity|].
  cbn [polyline_loop]. change (sample_spacing cfg) with (spacing cfg).
  destruct (Qeq_bool (source_polyline_spacing cfg) 0) eqn:E0.
  { apply Qeq_bool_iff in E0. rewrite E0 in H. discriminate H. }
  rewrite trunc_floor by (apply position_nonneg; exact H).
  pose proof (before_count cfg (size pts - 1) k H) as B. rewrite B.
  unfold polyline_count. change (count pts) with (size pts).
  set (c := Qceiling _) in *.
  set (left := Qfloor _) in *.
  destruct (Z.leb_spec c (Z.of_nat k)) as [L|L].
  { replace (Z.to_nat c - k)%nat with 0%nat by lia. reflexivity. }
  apply Z.leb_gt in B.
  assert (L0 : 0 <= left).
  { unfold left. pose proof (Qfloor_resp_le _ _ (position_nonneg cfg k H)) as Q0. exact Q0. }
  replace (Z.to_nat c - k)%nat with (S (Z.to_nat c - S k)) by lia.
  cbn [seq map]. rewrite firstn_cons.
  replace (Z.of_nat k + 1) with (Z.of_nat (S k)) by lia. rewrite IH.
  unfold polyline_count. change (count pts) with (size pts). fold c.
  match goal with |- bind ?x _ = _ => replace x with (Ok (polyline_sample cfg pts k)) end.
  { reflexivity. }
  unfold polyline_sample. cbv zeta. fold left.
  replace (Z.of_nat (Z.to_nat left)) with left by lia.
  set (alpha := (_ / source_polyline_spacing cfg)%Q).
  assert (SZ : size pts = Z.of_nat (List.length pts)) by reflexivity.
  assert (CE : (left <? 1) || (size pts - 3 <? left) =
               negb ((1 <=? Z.to_nat left)%nat && (Z.to_nat left + 2 <? List.length pts)%nat)).
  { apply eq_true_iff_eq. rewrite orb_true_iff, negb_true_iff, andb_false_iff.
    rewrite !Z.ltb_lt, Nat.leb_gt, Nat.ltb_ge. lia. }
  rewrite CE. destruct (_ && _) eqn:CC; cbn [negb].
  - apply andb_prop in CC. destruct CC as [C1 C2]. apply Nat.leb_le in C1. apply Nat.ltb_lt in C2.
    rewrite !(at_index_nth pts _ (V3 0 0 0)) by lia. cbn [bind].
    replace (Z.to_nat (left - 1)) with (Z.to_nat left - 1)%nat by lia.
    replace (Z.to_nat (left + 1)) with (Z.to_nat left + 1)%nat by lia.
    replace (Z.to_nat (left + 2)) with (Z.to_nat left + 2)%nat by lia. reflexivity.
  - rewrite !(at_index_nth pts _ (V3 0 0 0)) by lia. cbn [bind].
    replace (Z.to_nat (left + 1)) with (Z.to_nat left + 1)%nat by lia. reflexivity.
Qed.

Lemma rev_last {A} (l : list A) (d : A) : l <> [] -> exists t, rev l = List.last l d :: t.
Proof.
  intros H. destruct (@exists_last _ l H) as (l' & x & ->).
  rewrite rev_unit, last_last. eauto.
Qed.

Lemma firstn_snoc {A} room (l : list A) x :
  firstn room (l ++ [x]) = if (List.length l <? room)%nat then l ++ [x] else firstn room l.
Proof.
  rewrite firstn_app. destruct (Nat.ltb_spec (List.length l) room) as [H|H].
  - rewrite firstn_all2 by lia. rewrite (firstn_all2 [x]) by (cbn; lia). reflexivity.
  - replace (room - List.length l)%nat with 0%nat by lia. cbn [firstn]. rewrite app_nil_r. reflexivity.
Qed.

Lemma polyline_points pf cfg id type pts n n' l : (0 < source_polyline_spacing cfg)%Q ->
  n < max_roadgraph_samples cfg ->
  add_interpolated_samples pf cfg id type pts n = Ok (n', l) ->
  let kept := firstn (Z.to_nat (max_roadgraph_samples cfg - n)) (polyline_samples cfg pts) in
  n' = n + size kept /\ l = add_roadgraph_data id type kept (direction_loop pf kept).
Proof.
  intros Hs Hn H. unfold add_interpolated_samples in H.
  destruct pts as [|first rest] eqn:Ep.
  { apply Ok_inj in H. injection H as <- <-. unfold polyline_samples. cbn [rev].
    rewrite firstn_nil. cbn. split; [lia|reflexivity]. }
  rewrite <- Ep in *. assert (Hp : pts <> []) by (rewrite Ep; discriminate).
  destruct (Qeq_bool (sample_spacing cfg) 0); [discriminate|].
  destruct (trunc _ <? 0); [discriminate|]. cbv zeta in H.
  set (room := Z.to_nat (max_roadgraph_samples cfg - n)) in *.
  assert (Hroom : (0 < room)%nat) by (unfold room; lia).
  pose proof (polyline_loop_spec cfg pts Hs Hp room 0) as PL. change (Z.of_nat 0) with 0 in PL.
  rewrite PL in H. clear PL. cbn [bind] in H.
  rewrite Nat.sub_0_r in H.
  set (samples := map (polyline_sample cfg pts) (seq 0 (polyline_count cfg pts))) in *.
  set (lastp := List.last pts first) in *.
  assert (K : (if (List.length (firstn room samples) <? room)%nat
           && match firstn room samples with
              | [] => true
              | p :: _ => negb (Qle_bool (vsqr (vsub lastp (List.last (firstn room samples) p)))
                                  ((1#100) * (1#100)))
              end then firstn room samples ++ [lastp] else firstn room samples)
     = firstn room (polyline_samples cfg pts)).
  { unfold polyline_samples. fold samples.
    destruct (rev_last pts first Hp) as (t & ->). fold lastp.
    rewrite firstn_length.
    destruct (Nat.ltb_spec (Nat.min room (List.length samples)) room) as [L|L].
    - rewrite (firstn_all2 samples) by lia. cbn [andb].
      destruct samples as [|s ss] eqn:Es.
      + cbn [rev app]. rewrite firstn_all2 by (cbn; lia). reflexivity.
      + rewrite <- Es in *. destruct (rev_last samples s) as (u & ->); [rewrite Es; discriminate|].
        destruct (Qle_bool _ _); cbn [negb].
        * rewrite firstn_all2 by lia. reflexivity.
        * rewrite firstn_all2 by (rewrite app_length; cbn [List.length]; lia). reflexivity.
    - cbn [andb]. destruct samples as [|s ss] eqn:Es; [cbn in L; lia|].
      rewrite <- Es in *. destruct (rev_last samples s) as (u & ->); [rewrite Es; discriminate|].
      destruct (Qle_bool _ _); [reflexivity|]. rewrite firstn_snoc.
      destruct (Nat.ltb_spec (List.length samples) room); [lia|reflexivity]. }
  rewrite K in H. cbv zeta. dbind H dirs Ed.
  destruct (firstn room (polyline_samples cfg pts)) as [|p ps] eqn:E; [discriminate Ed|].
  unfold compute_direction_vectors in Ed. apply Ok_inj in Ed. subst dirs.
  apply Ok_inj in H. injection H as <- <-. split; reflexivity.
Qed.

(** A single point is its own only sample. *)
Lemma polyline_single cfg p : polyline_samples cfg [p] = [p].
Proof.
  unfold polyline_samples, polyline_count, count.
  replace (Z.to_nat (Qceiling (inject_Z (Z.of_nat (List.length [p]) - 1)
             * source_polyline_spacing cfg / spacing cfg))) with 0%nat; [reflexivity|].
  change (Z.of_nat (List.length [p]) - 1) with 0.
  assert (E : (inject_Z 0 * source_polyline_spacing cfg / spacing cfg == inject_Z 0)%Q).
  { unfold Qdiv. change (inject_Z 0) with 0%Q. ring. }
  rewrite (Qceiling_comp _ _ E). reflexivity.
Qed.

(** ** One feature, then all *)
Lemma type_code m :
  match mf_data m with
  | Lane t _ => get_map_feature_type kLane t
  | RoadLine t _ => get_map_feature_type kRoadLine t
  | RoadEdge t _ => get_map_feature_type kRoadEdge t
  | StopSign _ => get_map_feature_type kStopSign (-1)
  | Crosswalk _ => get_map_feature_type kCrosswalk (-1)
  | SpeedBump _ => get_map_feature_type kSpeedBump (-1)
  | Driveway _ => get_map_feature_type kDriveway (-1)
  | FeatureNotSet => -1
  end = road_type m.
Proof.
  unfold road_type. destruct (mf_data m) as [t p|t p|t p|p|p|p|p|]; try reflexivity;
    unfold get_map_feature_type, get_lane_type, get_road_line_type, get_road_edge_type;
    cbn [Z.eqb Pos.eqb kLane kRoadLine kRoadEdge];
    match goal with |- (if (?z <=? ?t) && (?t <=? ?a) then _ else _)
                       = (if _ && (?t <? ?b) then _ else _) =>
      replace (t <? b) with (t <=? a) by (apply eq_true_iff_eq; rewrite Z.leb_le, Z.ltb_lt; lia);
      destruct ((z <=? t) && (t <=? a)); lia
    end.
Qed.

Lemma sample_spec pf cfg n l m n' l' : (0 < source_polyline_spacing cfg)%Q ->
  add_roadgraph_sample pf cfg (n, l) m = Ok (n', l') ->
  let kept := firstn (Z.to_nat (max_roadgraph_samples cfg - n)) (road_samples pf cfg m) in
  n' = n + size kept
  /\ l' = l ++ add_roadgraph_data (mf_id m) (road_type m) kept (direction_loop pf kept).
Proof.
  intros Hs H. pose proof (type_code m) as T. unfold add_roadgraph_sample in H. unfold road_samples.
  destruct (max_roadgraph_samples cfg <=? n) eqn:F.
  { apply Z.leb_le in F. replace (Z.to_nat (max_roadgraph_samples cfg - n)) with 0%nat by lia.
    cbn. rewrite app_nil_r.
    destruct (mf_data m); apply Ok_inj in H; injection H as <- <-; split; lia || reflexivity. }
  apply Z.leb_gt in F.
  destruct (mf_data m) as [t p|t p|t p|p|p|p|p|] eqn:D;
    try (dbind H r Er; destruct r as [n1 l1]; apply Ok_inj in H; injection H as <- <-;
         first [ apply (polyline_points pf cfg _ _ _ _ _ _ Hs F) in Er
               | apply (polygon_points pf cfg _ _ _ _ _ _ F) in Er ];
         destruct Er as [E1 E2]; rewrite ?polyline_single in *; rewrite <- T;
         cbv zeta; split; [exact E1 | rewrite E2; reflexivity]).
  apply Ok_inj in H. injection H as <- <-. cbv zeta. rewrite firstn_nil. cbn. rewrite app_nil_r.
  split; [lia|reflexivity].
Qed.

(** What is logged for a list of kept samples with their directions. *)
Definition emit_one (sd : nat * map_feature * vec3 * vec3) : log :=
  let '(s, d) := sd in
  [Feature "roadgraph_samples/id" (VInt (mf_id (snd (fst s))));
   Feature "roadgraph_samples/type" (VInt (road_type (snd (fst s))));
   Feature "roadgraph_samples/valid" (VInt 1)]
  ++ vec_features "roadgraph_samples/xyz" (snd s) ++ vec_features "roadgraph_samples/dir" d.
Definition emit (pf : platform) (l : list (nat * map_feature * vec3)) : log :=
  flat_map emit_one (combine l (directions pf l)).

Definition label (jm : nat * map_feature) (pts : list vec3) : list (nat * map_feature * vec3) :=
  map (fun p => (jm, p)) pts.

(** No sample of the list has label [j]. *)
Definition avoids (j : nat) (l : list (nat * map_feature * vec3)) : Prop :=
  forall s, In s l -> fst (fst s) <> j.

Lemma directions_label pf j m : forall pts rest, avoids j rest ->
  directions pf (label (j, m) pts ++ rest) = direction_loop pf pts ++ directions pf rest.
Proof.
  induction pts as [|p pts IH]; intros rest A; [reflexivity|].
  cbn [label map app directions direction_loop].
  destruct pts as [|q pts].
  - cbn [map app]. f_equal. destruct rest as [|[[j' m'] q'] rest]; [reflexivity|].
    destruct (Nat.eqb_spec j j') as [->|]; [|reflexivity].
    exfalso. apply (A (j', m', q')); [left; reflexivity|reflexivity].
  - cbn [map app]. rewrite Nat.eqb_refl. cbn [app]. f_equal. apply (IH rest A).
Qed.

Lemma direction_loop_length pf pts : List.length (direction_loop pf pts) = List.length pts.
Proof.
  induction pts as [|p [|q pts] IH]; [reflexivity|reflexivity|].
  cbn [direction_loop List.length] in *. rewrite IH. reflexivity.
Qed.

Lemma directions_length pf l : List.length (directions pf l) = List.length l.
Proof.
  induction l as [|[[j m] p] l IH]; [reflexivity|].
  cbn [directions]. destruct l as [|[[j' m'] q] l]; cbn [List.length] in *; rewrite IH; reflexivity.
Qed.

Lemma combine_app2 {A B} (a b : list A) : forall (c d : list B), List.length a = List.length c ->
  combine (a ++ b) (c ++ d) = combine a c ++ combine b d.
Proof.
  induction a as [|x a IH]; intros [|y c] d E; try discriminate E; [reflexivity|].
  cbn [app combine]. f_equal. apply IH. cbn in E. lia.
Qed.

Lemma emit_label pf j m pts rest : avoids j rest ->
  emit pf (label (j, m) pts ++ rest) =
  add_roadgraph_data (mf_id m) (road_type m) pts (direction_loop pf pts) ++ emit pf rest.
Proof.
  intros A. unfold emit. rewrite directions_label by exact A.
  rewrite combine_app2 by (unfold label; rewrite map_length, direction_loop_length; reflexivity).
  rewrite flat_map_app. f_equal. unfold add_roadgraph_data, label.
  generalize (direction_loop pf pts) as ds.
  induction pts as [|p pts IH]; intros [|d ds]; try reflexivity.
  cbn [map combine flat_map]. rewrite IH. reflexivity.
Qed.

Definition labelled (pf : platform) (cfg : config) (j : nat) (ms : list map_feature)
  : list (nat * map_feature * vec3) :=
  flat_map (fun jm => label jm (road_samples pf cfg (snd jm))) (combine (seq j (List.length ms)) ms).

Lemma labelled_avoids pf cfg : forall ms j k, (k < j)%nat -> avoids k (labelled pf cfg j ms).
Proof.
  induction ms as [|m ms IH]; intros j k H s Hs; [destruct Hs|].
  unfold labelled in Hs. cbn [List.length seq combine flat_map] in Hs.
  apply in_app_or in Hs. destruct Hs as [Hs|Hs].
  - unfold label in Hs. apply in_map_iff in Hs. destruct Hs as (p & <- & _). cbn. lia.
  - apply (IH (S j) k); [lia|exact Hs].
Qed.

Lemma in_firstn {A} n (l : list A) x : In x (firstn n l) -> In x l.
Proof.
  intros H. rewrite <- (firstn_skipn n l). apply in_or_app. left. exact H.
Qed.

Lemma fold_spec pf cfg : (0 < source_polyline_spacing cfg)%Q ->
  forall ms j n l n' l',
  foldM (add_roadgraph_sample pf cfg) ms (n, l) = Ok (n', l') ->
  let kept := firstn (Z.to_nat (max_roadgraph_samples cfg - n)) (labelled pf cfg j ms) in
  n' = n + size kept /\ l' = l ++ emit pf kept.
Proof.
  intros Hs. induction ms as [|m ms IH]; intros j n l n' l' H.
  - cbn [foldM] in H. apply Ok_inj in H. injection H as <- <-. unfold labelled. cbn.
    rewrite firstn_nil. cbn. rewrite app_nil_r. split; [lia|reflexivity].
  - cbn [foldM] in H. destruct (add_roadgraph_sample pf cfg (n, l) m) as [[n1 l1]|e] eqn:E;
      [|discriminate]. apply (sample_spec pf cfg n l m n1 l1 Hs) in E. cbv zeta in E.
    apply (IH (S j)) in H. cbv zeta in *.
    destruct E as [E1 E2]. destruct H as [H1 H2].
    unfold labelled. cbn [List.length seq combine flat_map].
    change (flat_map _ (combine (seq (S j) (List.length ms)) ms)) with (labelled pf cfg (S j) ms).
    cbn [snd]. rewrite firstn_app_room.
    set (room := Z.to_nat (max_roadgraph_samples cfg - n)) in *.
    assert (EL : firstn room (label (j, m) (road_samples pf cfg m))
                 = label (j, m) (firstn room (road_samples pf cfg m)))
      by (unfold label; apply firstn_map).
    rewrite EL. set (k1 := firstn room (road_samples pf cfg m)) in *.
    assert (LL : List.length (label (j, m) k1) = List.length k1) by apply map_length.
    rewrite LL.
    replace (room - List.length k1)%nat with (Z.to_nat (max_roadgraph_samples cfg - n1))
      by (unfold size in E1; unfold room; rewrite E1; lia).
    split.
    + rewrite H1, E1 at 1. unfold size. rewrite app_length, LL. lia.
    + rewrite H2, E2, emit_label, app_assoc; [reflexivity|].
      intros s Hin. apply in_firstn in Hin. apply (labelled_avoids pf cfg ms (S j) j); [lia|exact Hin].
Qed.

Lemma foldM_app {A S} (f : S -> A -> result S) a b s :
  foldM f (a ++ b) s = bind (foldM f a s) (foldM f b).
Proof.
  revert s. induction a as [|x a IH]; intros s; [reflexivity|].
  cbn [app foldM]. destruct (f s x) as [s'|e]; [apply IH|reflexivity].
Qed.

Lemma foldM_filter {A S} (f : S -> A -> result S) (c : A -> bool) (d : A -> bool) l :
  (forall x, c x = negb (d x)) -> forall s,
  foldM (fun acc x => if c x then Ok acc else f acc x) l s = foldM f (filter d l) s.
Proof.
  intros H. induction l as [|x l IH]; intros s; [reflexivity|].
  cbn [foldM filter]. rewrite H. destruct (d x); cbn [negb foldM bind].
  - destruct (f s x) as [s'|e]; [apply IH|reflexivity].
  - apply IH.
Qed.

Lemma case_filter fs :
  filter (fun m => feature_data_case m =? kLane) fs = filter is_lane fs
  /\ filter (fun m => feature_data_case m =? kRoadLine) fs = filter is_line fs
  /\ filter (fun m => feature_data_case m =? kStopSign) fs = filter is_stop fs
  /\ filter (fun m => feature_data_case m =? kCrosswalk) fs = filter is_crosswalk fs
  /\ filter (fun m => feature_data_case m =? kSpeedBump) fs = filter is_bump fs
  /\ filter (fun m => feature_data_case m =? kRoadEdge) fs = filter is_edge fs.
Proof.
  repeat split; apply filter_ext; intros m; unfold feature_data_case, is_lane, is_line, is_stop,
    is_crosswalk, is_bump, is_edge; destruct (mf_data m); reflexivity.
Qed.

(** The fold over what is left is the fold over the driveways. *)
Lemma rest_filter pf cfg fs : forall s,
  foldM (fun acc m => if zmem (feature_data_case m) priority_list then Ok acc
                      else add_roadgraph_sample pf cfg acc m) fs s
  = foldM (add_roadgraph_sample pf cfg) (filter is_driveway fs) s.
Proof.
  induction fs as [|m fs IH]; intros s; [reflexivity|].
  cbn [foldM filter]. unfold is_driveway at 1. unfold feature_data_case at 1.
  destruct (mf_data m) eqn:D; try (apply IH).
  - cbn [foldM]. change (zmem kDriveway priority_list) with false. cbv iota.
    destruct (add_roadgraph_sample pf cfg s m); [apply IH|reflexivity].
  - change (zmem 0 priority_list) with false. cbv iota.
    unfold add_roadgraph_sample at 1. rewrite D. destruct s as [n l]. apply IH.
Qed.

Lemma road_fold pf cfg fs s :
  bind (foldM (fun acc priority =>
          foldM (fun acc m =>
            if negb (feature_data_case m =? priority) then Ok acc
            else add_roadgraph_sample pf cfg acc m) fs acc) priority_list s)
       (fun acc => foldM (fun acc m => if zmem (feature_data_case m) priority_list then Ok acc
                      else add_roadgraph_sample pf cfg acc m) fs acc)
  = foldM (add_roadgraph_sample pf cfg) (road_order fs) s.
Proof.
  destruct (case_filter fs) as (E1 & E2 & E3 & E4 & E5 & E6).
  unfold road_order. rewrite !foldM_app. rewrite <- E1, <- E2, <- E3, <- E4, <- E5, <- E6.
  unfold priority_list. cbn [foldM].
  rewrite (foldM_filter _ _ (fun m => feature_data_case m =? kLane)) by reflexivity.
  destruct (foldM _ (filter (fun m => feature_data_case m =? kLane) fs) s) as [s1|]; [|reflexivity].
  cbn [bind]. rewrite foldM_app.
  rewrite (foldM_filter _ _ (fun m => feature_data_case m =? kRoadLine)) by reflexivity.
  destruct (foldM _ _ s1) as [s2|]; [|reflexivity]. cbn [bind]. rewrite foldM_app.
  rewrite (foldM_filter _ _ (fun m => feature_data_case m =? kStopSign)) by reflexivity.
  destruct (foldM _ _ s2) as [s3|]; [|reflexivity]. cbn [bind]. rewrite foldM_app.
  rewrite (foldM_filter _ _ (fun m => feature_data_case m =? kCrosswalk)) by reflexivity.
  destruct (foldM _ _ s3) as [s4|]; [|reflexivity]. cbn [bind]. rewrite foldM_app.
  rewrite (foldM_filter _ _ (fun m => feature_data_case m =? kSpeedBump)) by reflexivity.
  destruct (foldM _ _ s4) as [s5|]; [|reflexivity]. cbn [bind]. rewrite foldM_app.
  rewrite (foldM_filter _ _ (fun m => feature_data_case m =? kRoadEdge)) by reflexivity.
  destruct (foldM _ _ s5) as [s6|]; [|reflexivity]. cbn [bind].
  apply rest_filter.
Qed.

(** ** The road tensors *)
Lemma emit_tensors pf (l : list (nat * map_feature * vec3)) :
  tensor "roadgraph_samples/id" (emit pf l) = map (fun s => VInt (mf_id (snd (fst s)))) l
  /\ tensor "roadgraph_samples/type" (emit pf l) = map (fun s => VInt (road_type (snd (fst s)))) l
  /\ tensor "roadgraph_samples/valid" (emit pf l) = map (fun _ => VInt 1) l
  /\ tensor "roadgraph_samples/xyz" (emit pf l) = flat_map (fun s => coords (snd s)) l
  /\ tensor "roadgraph_samples/dir" (emit pf l) = flat_map coords (directions pf l).
Proof.
  unfold emit. pose proof (directions_length pf l) as L.
  generalize dependent (directions pf l). induction l as [|s l IH]; intros [|d ds] L;
    try discriminate L; [repeat split|].
  cbn [combine flat_map map]. rewrite !tensor_app.
  destruct (IH ds) as (E1 & E2 & E3 & E4 & E5); [cbn in L; lia|].
  rewrite E1, E2, E3, E4, E5. repeat split; reflexivity.
Qed.

Lemma padding_tensors n :
  tensor "roadgraph_samples/id" (List.concat (repeat road_padding n)) = repeat (VInt (-1)) n
  /\ tensor "roadgraph_samples/type" (List.concat (repeat road_padding n)) = repeat (VInt (-1)) n
  /\ tensor "roadgraph_samples/valid" (List.concat (repeat road_padding n)) = repeat (VInt 0) n
  /\ tensor "roadgraph_samples/xyz" (List.concat (repeat road_padding n)) = repeat minus_one (3 * n)
  /\ tensor "roadgraph_samples/dir" (List.concat (repeat road_padding n)) = repeat minus_one (3 * n).
Proof.
  induction n as [|n (E1 & E2 & E3 & E4 & E5)]; [repeat split|].
  cbn [repeat List.concat]. rewrite !tensor_app. rewrite E1, E2, E3, E4, E5.
  replace (3 * S n)%nat with (S (S (S (3 * n)))) by lia. repeat split; reflexivity.
Qed.

Definition road_names : list string := ["id"; "type"; "valid"; "xyz"; "dir"]%string.

Lemma counter_none k l : (forall e, In e l -> match e with Counter k' _ => k' <> k | _ => True end) ->
  counter k l = 0.
Proof.
  induction l as [|e l IH]; intros H; [reflexivity|].
  destruct e as [k' v|k' n]; cbn [counter].
  - apply IH. intros e He. apply H. right. exact He.
  - destruct (String.eqb_spec k' k) as [->|].
    + exfalso. apply (H (Counter k n)); [left; reflexivity|reflexivity].
    + apply IH. intros e He. apply H. right. exact He.
Qed.

Definition only_features (l : log) : Prop :=
  forall e, In e l -> match e with Counter _ _ => False | _ => True end.
Lemma only_features_counter k l : only_features l -> counter k l = 0.
Proof. intros H. apply counter_none. intros e He. specialize (H e He). destruct e; tauto. Qed.

Lemma emit_only pf l : only_features (emit pf l).
Proof.
  intros e He. unfold emit in He. apply in_flat_map in He. destruct He as ([s d] & _ & He).
  unfold emit_one, vec_features in He. cbn [app In] in He.
  repeat (destruct He as [<-|He]; [exact I|]). destruct He.
Qed.

Lemma padding_only n : only_features (List.concat (repeat road_padding n)).
Proof.
  intros e He. apply in_concat in He. destruct He as (l & Hl & He).
  apply repeat_spec in Hl. subst l. unfold road_padding in He. cbn [In] in He.
  repeat (destruct He as [<-|He]; [exact I|]). destruct He.
Qed.

Lemma kept_length pf cfg fs :
  (List.length (kept_samples pf cfg fs) <= Z.to_nat (max_roadgraph_samples cfg))%nat.
Proof. unfold kept_samples. apply firstn_le_length. Qed.

Theorem road_log pf cfg fs l : (0 < source_polyline_spacing cfg)%Q ->
  add_roadgraph_samples pf cfg fs = Ok l ->
  l = emit pf (kept_samples pf cfg fs)
      ++ [Counter "Road_Graph_Samples_Valid_Points" (count (kept_samples pf cfg fs));
          Counter "Road_Graph_Samples_Padded_Points"
            (max_roadgraph_samples cfg - count (kept_samples pf cfg fs))]
      ++ List.concat (repeat road_padding
           (Z.to_nat (max_roadgraph_samples cfg) - List.length (kept_samples pf cfg fs))).
Proof.
  intros Hs H. unfold add_roadgraph_samples in H.
  dbind H acc1 E1. dbind H acc2 E2. destruct acc2 as [n l2].
  assert (F : foldM (add_roadgraph_sample pf cfg) (road_order fs) (0, []) = Ok (n, l2)).
  { rewrite <- road_fold. rewrite E1. cbn [bind]. exact E2. }
  apply (fold_spec pf cfg Hs (road_order fs) 0) in F. cbv zeta in F.
  rewrite Z.sub_0_r in F. unfold kept_samples, all_samples.
  change (flat_map (fun jm => map (fun p => (jm, p)) (road_samples pf cfg (snd jm)))
           (combine (seq 0 (List.length (road_order fs))) (road_order fs)))
    with (labelled pf cfg 0 (road_order fs)).
  set (kept := firstn _ _) in *. destruct F as [F1 F2]. rewrite Z.add_0_l in F1.
  change (size kept) with (count kept) in F1. cbn [app] in F2. subst n l2.
  apply Ok_inj in H. subst l. unfold count.
  replace (Z.to_nat (max_roadgraph_samples cfg - Z.of_nat (List.length kept)))
    with (Z.to_nat (max_roadgraph_samples cfg) - List.length kept)%nat by lia.
  reflexivity.
Qed.

Theorem road_tensors pf cfg fs l name : (0 < source_polyline_spacing cfg)%Q ->
  add_roadgraph_samples pf cfg fs = Ok l -> In name road_names ->
  tensor ("roadgraph_samples/" ++ name)%string l = road_tensor pf cfg fs name.
Proof.
  intros Hs H Hn. rewrite (road_log pf cfg fs l Hs H). clear H. rewrite !tensor_app.
  destruct (emit_tensors pf (kept_samples pf cfg fs)) as (E1 & E2 & E3 & E4 & E5).
  destruct (padding_tensors (Z.to_nat (max_roadgraph_samples cfg)
              - List.length (kept_samples pf cfg fs))) as (P1 & P2 & P3 & P4 & P5).
  unfold road_tensor. cbn [In road_names] in Hn.
  destruct Hn as [<-|[<-|[<-|[<-|[<-|[]]]]]]; cbn [String.append].
  - rewrite E1, P1. reflexivity.
  - rewrite E2, P2. reflexivity.
  - rewrite E3, P3. reflexivity.
  - rewrite E4, P4. reflexivity.
  - rewrite E5, P5. reflexivity.
Qed.

Definition known_road_keys : list string :=
  map (fun n => ("roadgraph_samples/" ++ n)%string) road_names.

(** Keys of a log, and the tensors of keys that do not occur. *)
Definition keys_in (ks : list string) (l : log) : Prop :=
  forall e, In e l -> match e with Feature k _ => In k ks | Counter _ _ => True end.
Lemma tensor_absent ks k l : keys_in ks l -> ~ In k ks -> tensor k l = [].
Proof.
  intros H K. induction l as [|e l IH]; [reflexivity|].
  unfold tensor. cbn [flat_map]. fold (tensor k l).
  rewrite IH by (intros x Hx; apply (H x); right; exact Hx).
  specialize (H e (or_introl eq_refl)).
  destruct e as [k' v|k' n]; [|reflexivity].
  destruct (String.eqb_spec k' k) as [->|]; [contradiction|reflexivity].
Qed.
Lemma keys_app ks a b : keys_in ks a -> keys_in ks b -> keys_in ks (a ++ b).
Proof. intros A B e He. apply in_app_or in He. destruct He; [apply A|apply B]; assumption. Qed.
Lemma keys_mono ks ks' l : incl ks ks' -> keys_in ks l -> keys_in ks' l.
Proof. intros I H e He. specialize (H e He). destruct e; auto. Qed.
Lemma keys_concat ks ls : (forall l, In l ls -> keys_in ks l) -> keys_in ks (List.concat ls).
Proof.
  intros H e He. apply in_concat in He. destruct He as (l & Hl & He). exact (H l Hl e He).
Qed.
Lemma keys_flat_map {A} ks (f : A -> log) l : (forall x, In x l -> keys_in ks (f x)) ->
  keys_in ks (flat_map f l).
Proof.
  intros H e He. apply in_flat_map in He. destruct He as (x & Hx & He). exact (H x Hx e He).
Qed.

Ltac keys_concrete :=
  let e := fresh in let He := fresh in
  intros e He; cbn [app In] in He;
  repeat (destruct He as [<-|He]; [cbn; tauto|]); destruct He.

Lemma emit_keys pf l : keys_in known_road_keys (emit pf l).
Proof.
  apply keys_flat_map. intros [s d] _. unfold emit_one, vec_features. keys_concrete.
Qed.
Lemma padding_keys n : keys_in known_road_keys (List.concat (repeat road_padding n)).
Proof.
  apply keys_concat. intros l Hl. apply repeat_spec in Hl. subst l. unfold road_padding. keys_concrete.
Qed.
Theorem road_keys pf cfg fs l : (0 < source_polyline_spacing cfg)%Q ->
  add_roadgraph_samples pf cfg fs = Ok l -> keys_in known_road_keys l.
Proof.
  intros Hs H. rewrite (road_log pf cfg fs l Hs H).
  apply keys_app; [apply emit_keys|]. apply keys_app; [keys_concrete|apply padding_keys].
Qed.
