(** The distance of boxes to the road edges. *)
From Coq Require Import Reals Lra Psatz List Lia Bool.
From Verif Require Import Base ResultLib MonadLib GeomModel GeomSpec GeomSceneSpec GeomBase GeomConvex GeomDistProofs GeomBoxProofs GeomNearestProofs.
From Verif Require Import RoadModel RoadSpec RoadProofs RoadLocalProofs RoadLoopProofs.
Import ListNotations.
Open Scope R_scope.

Lemma road_rows_ok road : (exists p, In p road /\ (2 <= length p)%nat) -> exists rows, road_rows road = Ok rows.
Proof.
  intros [p Hp]. unfold road_rows, tensorize. apply kept_in in Hp. destruct (kept road); [destruct Hp|]. cbn [bind]. eexists. reflexivity.
Qed.
Lemma road_rows_err road : (forall p, In p road -> (length p < 2)%nat) -> road_rows road = Err ValueError.
Proof.
  intros H. unfold road_rows, tensorize. destruct (kept road) as [|p k] eqn:E; [reflexivity|]. exfalso.
  assert (Hp : In p (kept road)) by (rewrite E; now left). apply kept_in in Hp. destruct Hp as [Hp L]. apply H in Hp. lia.
Qed.
Lemma point_ok road rows q : road_rows road = Ok rows -> exists d, signed_distance_to_polylines 3 rows q = Ok d.
Proof.
  intros H. destruct (road_rows_spec road rows H) as [-> N]. unfold signed_distance_to_polylines.
  destruct (kept road) as [|p k] eqn:E; [congruence|]. cbn [map concat fst snd].
  assert (Hp : In p (kept road)) by (rewrite E; now left). assert (L := max_length_le _ _ Hp). assert (K := proj2 (proj1 (kept_in _ _) Hp)).
  rewrite E in L. unfold row_entries at 1. unfold num_segments. rewrite pad_length by assumption.
  destruct (max_length (p :: k)) as [|[|m]]; try lia. cbn [Nat.sub seq map app first_min bind]. eexists. reflexivity.
Qed.
Lemma point_unique road q d d' : point_distance road q d -> point_distance road q d' -> d = d'.
Proof. intros [r [H1 H2]] [r' [H1' H2']]. congruence. Qed.

Lemma corner_iff b q : In q (bottom_corners b) <-> is_bottom_corner b q.
Proof.
  unfold bottom_corners, box_corners, is_bottom_corner. cbn [c0 c1 c2 c3 map In]. unfold padd, rotate. cbn [fst snd]. split.
  - intros [H|[H|[H|[H|[]]]]]; subst q.
    + exists (blength (b_box b) / 2), (bwidth (b_box b) / 2). repeat split; try tauto; try (f_equal; unfold Rdiv; ring).
    + exists (- (blength (b_box b) / 2)), (bwidth (b_box b) / 2). repeat split; try tauto; try (f_equal; unfold Rdiv; ring).
    + exists (- (blength (b_box b) / 2)), (- (bwidth (b_box b) / 2)). repeat split; try tauto; try (f_equal; unfold Rdiv; ring).
    + exists (blength (b_box b) / 2), (- (bwidth (b_box b) / 2)). repeat split; try tauto; try (f_equal; unfold Rdiv; ring).
  - intros [u [v [[-> | ->] [[-> | ->] ->]]]].
    + left. f_equal; unfold Rdiv; ring.
    + right. right. right. left. f_equal; unfold Rdiv; ring.
    + right. left. f_equal; unfold Rdiv; ring.
    + right. right. left. f_equal; unfold Rdiv; ring.
Qed.
Lemma fold_max l : forall a, a <= fold_left Rmax l a /\ (forall x, In x l -> x <= fold_left Rmax l a) /\
  (fold_left Rmax l a = a \/ In (fold_left Rmax l a) l).
Proof.
  induction l as [|y l IH]; intros a; cbn [fold_left].
  - split; [lra|]. split; [intros x []|now left].
  - destruct (IH (Rmax a y)) as [H1 [H2 H3]]. assert (M1 := Rmax_l a y). assert (M2 := Rmax_r a y). split; [lra|]. split.
    + intros x [<-|Hx]; [lra|now apply H2].
    + destruct H3 as [H3|H3]; [|right; now right]. rewrite H3. unfold Rmax. destruct (Rle_dec a y); [right; now left|now left].
Qed.
Lemma maximum_ok l m : maximum l = Ok m -> In m l /\ forall x, In x l -> x <= m.
Proof.
  destruct l as [|a l]; [discriminate|]. cbn [maximum]. intros H. apply Ok_inj in H. subst m.
  destruct (fold_max l a) as [H1 [H2 H3]]. split.
  - destruct H3 as [->|H3]; [now left|now right].
  - intros x [<-|Hx]; [assumption|now apply H2].
Qed.
Lemma mapM_of {A B} (f : A -> result B) l ys : mapM f l = Ok ys -> forall y, In y ys -> exists x, In x l /\ f x = Ok y.
Proof.
  revert ys. induction l as [|x l IH]; intros ys H; cbn [mapM] in H.
  - apply Ok_inj in H. subst. intros y [].
  - dbind H y0 E. dbind H ys0 E'. apply Ok_inj in H. subst. intros y [<-|Hy]; [exists x; split; [now left|assumption]|].
    destruct (IH ys0 E' y Hy) as [x' [Hx Hf]]. exists x'. split; [now right|assumption].
Qed.
Lemma mapM_into {A B} (f : A -> result B) l ys : mapM f l = Ok ys -> forall x, In x l -> exists y, In y ys /\ f x = Ok y.
Proof.
  revert ys. induction l as [|x l IH]; intros ys H; cbn [mapM] in H; [intros x []|].
  dbind H y0 E. dbind H ys0 E'. apply Ok_inj in H. subst. intros z [<-|Hz]; [exists y0; split; [now left|assumption]|].
  destruct (IH ys0 E' z Hz) as [y [Hy Hf]]. exists y. split; [now right|assumption].
Qed.
Lemma mapM_total {A B} (f : A -> result B) l : (forall x, In x l -> exists y, f x = Ok y) -> exists ys, mapM f l = Ok ys.
Proof.
  induction l as [|x l IH]; intros H; cbn [mapM]; [eexists; reflexivity|].
  destruct (H x (or_introl eq_refl)) as [y ->]. cbn [bind]. destruct IH as [ys ->]; [intros z Hz; apply H; now right|].
  cbn [bind]. eexists. reflexivity.
Qed.
Lemma mapM_at {A B} (f : A -> result B) l ys : mapM f l = Ok ys -> forall i x, nth_error l i = Some x ->
  exists y, nth_error ys i = Some y /\ f x = Ok y.
Proof.
  revert ys. induction l as [|x l IH]; intros ys H; cbn [mapM] in H; [intros [|i] y Hy; discriminate|].
  dbind H y0 E. dbind H ys0 E'. apply Ok_inj in H. subst. intros [|i] z Hz; cbn [nth_error] in *.
  - injection Hz as <-. exists y0. auto.
  - now apply IH.
Qed.
(** One box. *)
Lemma box_value road rows b d : road_rows road = Ok rows -> road_edge_at rows (b, true) = Ok d ->
  (exists q, is_bottom_corner b q /\ point_distance road q d) /\
  forall q d', is_bottom_corner b q -> point_distance road q d' -> d' <= d.
Proof.
  intros Hr H. unfold road_edge_at in H. dbind H ds E. dbind H m Em. cbn [snd fst] in *. apply Ok_inj in H. subst m.
  apply maximum_ok in Em. destruct Em as [Hin Hmax]. split.
  - destruct (mapM_of _ _ _ E d Hin) as [q [Hq Hd]]. exists q. split; [now apply corner_iff|]. exists rows. split; assumption.
  - intros q d' Hq [rows' [Hr' Hd']]. apply corner_iff in Hq. destruct (mapM_into _ _ _ E q Hq) as [y [Hy Hf]].
    apply Hmax. replace d' with y; [assumption|]. unfold Z_STRETCH_FACTOR in Hf. congruence.
Qed.
Lemma box_total road rows e : road_rows road = Ok rows -> exists d, road_edge_at rows e = Ok d.
Proof.
  intros Hr. unfold road_edge_at.
  destruct (mapM_total (signed_distance_to_polylines Z_STRETCH_FACTOR rows) (bottom_corners (fst e))) as [ds E].
  { intros q _. now apply (point_ok road). }
  rewrite E. cbn [bind]. assert (L := mapM_length _ _ _ E). unfold bottom_corners in L. cbn [map length] in L.
  destruct ds as [|d0 ds]; [discriminate|]. cbn [maximum bind]. eexists. reflexivity.
Qed.
(** The whole. *)
Lemma road_total objects mask road : length mask = length objects -> (exists p, In p road /\ (2 <= length p)%nat) ->
  exists out, distance_to_road_edge objects mask road = Ok out /\ length out = count_occ bool_dec mask true /\
    forall g row, nth_error mask g = Some true -> nth_error objects g = Some row ->
      exists r, nth_error out (row_of mask g) = Some r /\ length r = length row.
Proof.
  intros HL Hp. destruct (road_rows_ok road Hp) as [rows Hr].
  assert (Hne : road <> []) by (destruct Hp as [p [Hp _]]; intros ->; destruct Hp).
  destruct (mapM_total (mapM (road_edge_at rows)) (select mask objects)) as [out E].
  { intros row _. apply mapM_total. intros e _. now apply (box_total road). }
  exists out. split; [|split].
  - unfold distance_to_road_edge. destruct road; [congruence|]. rewrite Hr. cbn [bind]. exact E.
  - rewrite (mapM_length _ _ _ E). now apply select_length.
  - intros g row Hg Hrow. assert (Hs := select_nth mask objects g row Hg Hrow). destruct (mapM_at _ _ _ E _ _ Hs) as [r [Hr' Ef]].
    exists r. split; [assumption|]. exact (mapM_length _ _ _ Ef).
Qed.
Lemma road_error objects mask road : (forall p, In p road -> (length p < 2)%nat) ->
  distance_to_road_edge objects mask road = Err ValueError.
Proof.
  intros H. unfold distance_to_road_edge. destruct road as [|p road]; [reflexivity|]. now rewrite road_rows_err.
Qed.
Lemma road_entry objects mask road out g t b v : distance_to_road_edge objects mask road = Ok out ->
  nth_error mask g = Some true -> cell_at objects g t = Some (b, v) ->
  exists d, entry out (row_of mask g) t = Some d /\
    (v = false -> d = -10000000000) /\
    (v = true -> (exists q, is_bottom_corner b q /\ point_distance road q d) /\
       forall q d', is_bottom_corner b q -> point_distance road q d' -> d' <= d).
Proof.
  intros H Hg Hc. unfold distance_to_road_edge in H. destruct road as [|p0 road0] eqn:Ero; [discriminate|]. rewrite <- Ero in *.
  dbind H rows Hr. unfold cell_at in Hc. destruct (nth_error objects g) as [row|] eqn:Eg; [|discriminate].
  assert (Hs := select_nth mask objects g row Hg Eg). destruct (mapM_at _ _ _ H _ _ Hs) as [r [Hr' Ef]].
  destruct (mapM_at _ _ _ Ef _ _ Hc) as [d [Hd Ed]]. exists d. unfold entry. rewrite Hr'. split; [assumption|]. split.
  - intros ->. unfold road_edge_at in Ed. dbind Ed ds Eds. dbind Ed m Em. cbn [snd] in Ed. apply Ok_inj in Ed. subst d.
    unfold EXTREMELY_LARGE_DISTANCE. lra.
  - intros ->. now apply (box_value road rows).
Qed.
(** Off the road inside a convex loop. *)
Lemma corners_footprint b poly : 0 < blength (b_box b) -> 0 < bwidth (b_box b) ->
  (forall q, is_bottom_corner b q -> hull poly (xy q)) <-> (forall x, footprint b x -> hull poly x).
Proof.
  intros Hl Hw. assert (Hh := box_corners_hull (b_box b) Hl Hw). split.
  - intros H x Hx. apply (proj2 (Hh x)) in Hx. intros C HC HV. apply Hx; [assumption|]. intros y Hy.
    assert (Q : exists q, In q (bottom_corners b) /\ xy q = y).
    { exists (P3 (fst y) (snd y) (b_z b - b_height b / 2)). split; [|now destruct y].
      unfold bottom_corners. apply (in_map (fun p : point => P3 (fst p) (snd p) (b_z b - b_height b / 2))). exact Hy. }
    destruct Q as [q [Hq <-]]. apply H; [now apply corner_iff|assumption|assumption].
  - intros H q Hq. apply H. apply corner_iff in Hq. apply (proj1 (Hh (xy q))). unfold bottom_corners in Hq. apply in_map_iff in Hq.
    destruct Hq as [y [<- Hy]]. replace (xy _) with y by (now destruct y). intros C HC HV. now apply HV.
Qed.
Lemma loop_offroad objects mask road out p poly g t b : distance_to_road_edge objects mask road = Ok out ->
  proper road -> In p road -> convex_loop p poly -> longest road p ->
  nth_error mask g = Some true -> cell_at objects g t = Some (b, true) ->
  0 < blength (b_box b) -> 0 < bwidth (b_box b) ->
  (forall q, is_bottom_corner b q -> nearest_polyline road q p /\
     exists i a' b' f, is_segment p i a' b' /\ foot a' b' q f /\ stretched q f < 10000000000) ->
  exists d, entry out (row_of mask g) t = Some d /\
    (is_offroad d = true <-> exists x, footprint b x /\ ~ hull poly x).
Proof.
  intros H Hp Hin Hl Hlong Hg Hc Hbl Hbw Hq.
  destruct (road_entry objects mask road out g t b true H Hg Hc) as [d [He [_ Hv]]]. destruct (Hv eq_refl) as [[q [Hqc Hqd]] Hmax].
  exists d. split; [assumption|]. unfold is_offroad. rewrite rltb_iff.
  assert (G : forall q d', is_bottom_corner b q -> point_distance road q d' -> 0 < d' <-> ~ hull poly (xy q)).
  { intros q' d' Hq' [rows [Hr Hd]]. destruct (Hq q' Hq') as [Hn [i [a' [b' [f [Hs [Hf Hlt]]]]]]].
    apply (convex_loop_correct road rows p poly q' d' Hp Hr Hd); auto.
    exists a', b', f. split; [exists p, i; auto|]. auto. }
  assert (Tot : forall q, exists d', point_distance road q d').
  { intros q'. destruct Hqd as [rows [Hr _]]. destruct (point_ok road rows q' Hr) as [d' Hd']. exists d', rows. auto. }
  destruct Hl as [Hcv [Hpe [z Ez]]].
  split.
  - intros Hd. apply (G q d Hqc Hqd) in Hd. exists (xy q). split; [|assumption].
    apply corner_iff in Hqc. apply (proj1 (box_corners_hull (b_box b) Hbl Hbw (xy q))). unfold bottom_corners in Hqc. apply in_map_iff in Hqc.
    destruct Hqc as [y [<- Hy]]. replace (xy _) with y by (now destruct y). intros C HC HV. now apply HV.
  - intros [x [Hx Nx]]. apply Rnot_le_lt. intros Hd. apply Nx. revert x Hx Nx. intros x Hx _. revert x Hx.
    apply (corners_footprint b poly Hbl Hbw). intros q' Hq'. destruct (Tot q') as [d' Hd']. assert (L := Hmax q' d' Hq' Hd').
    destruct (is_inside (xy q') poly) eqn:I; [now apply (is_inside_hull poly Hcv Hpe)|]. exfalso.
    assert (0 < d') by (apply (G q' d' Hq' Hd'); intros C; apply (is_inside_hull poly Hcv Hpe) in C; congruence). lra.
Qed.
