(** The signed distance to a closed convex loop. *)
From Coq Require Import Reals Lra Psatz List Lia Bool.
From Verif Require Import Base ResultLib MonadLib GeomModel GeomSpec GeomBase GeomConvex GeomDistProofs GeomBoxProofs.
From Verif Require Import RoadModel RoadSpec RoadProofs RoadLocalProofs.
Import ListNotations.
Open Scope R_scope.

(** ** Corners *)
Lemma corner_out (e1 e2 w : point) : 0 < cross e1 e2 -> 0 <= dot w e1 -> dot w e2 <= 0 -> w <> (0, 0) ->
  cross e1 w < 0 \/ cross e2 w < 0.
Proof.
  intros T H1 H2 N. destruct (Rlt_dec (cross e1 w) 0) as [A|A]; [now left|]. right. apply Rnot_le_lt. intros B.
  assert (E : cross e1 e2 * dot w w = cross e1 w * dot w e2 - cross e2 w * dot w e1) by (unfold cross, dot; ring).
  assert (P : 0 < dot w w).
  { assert (P := norm_pos w N). assert (S := norm_sqr w). unfold dot. rewrite <- S. nra. }
  assert (0 < cross e1 e2 * dot w w) by (now apply Rmult_lt_0_compat).
  assert (cross e1 w * dot w e2 <= 0) by nra. assert (0 <= cross e2 w * dot w e1) by nra. lra.
Qed.

Section Loop.
Variable poly : list point.
Hypothesis Hc : convex_polygon poly.
Hypothesis He : proper_edges poly.
Notation v := (vertex poly).
Notation E i := (psub (v (S i)) (v i)).

Lemma straight_corner i : cross (E i) (E (S i)) = 0 -> exists k, 0 < k /\ E (S i) = (k * fst (E i), k * snd (E i)).
Proof.
  intros Z. assert (N1 : E i <> (0, 0)) by (rewrite psub_zero; apply (poly_edge poly He)).
  assert (N2 : E (S i) <> (0, 0)) by (rewrite psub_zero; apply (poly_edge poly He)).
  destruct (parallel _ _ N1 Z) as [k Ek]. exists k. split; [|assumption].
  destruct (Rlt_dec 0 k) as [|K]; [assumption|]. exfalso. destruct (Req_EM_T k 0) as [->|Nk].
  - apply N2. rewrite Ek. f_equal; ring.
  - destruct (poly_nd poly Hc He (S i)) as [j Hj]. assert (H := poly_left poly Hc i j).
    assert (D : cross (E i) (psub (v j) (v i)) = cross (E i) (psub (v j) (v (S i)))) by (unfold cross, psub; cbn [fst snd]; ring).
    rewrite D in H. rewrite Ek in Hj.
    assert (Q : cross (k * fst (E i), k * snd (E i)) (psub (v j) (v (S i))) = k * cross (E i) (psub (v j) (v (S i))))
      by (unfold cross; cbn [fst snd]; ring).
    rewrite Q in Hj. nra.
Qed.
Lemma corner_left i : 0 <= cross (E i) (E (S i)).
Proof. assert (H := poly_left poly Hc i (S (S i))). unfold cross, psub in *. cbn [fst snd] in *. lra. Qed.
(** Beyond a corner the point is on the right of one of its edges, and the corner is a left turn. *)
Lemma corner_beyond i q : 0 <= dot (psub q (v (S i))) (E i) -> dot (psub q (v (S i))) (E (S i)) <= 0 ->
  (dot (psub q (v (S i))) (E i) <> 0 \/ dot (psub q (v (S i))) (E (S i)) <> 0) ->
  0 < turn (v i) (v (S i)) (v (S (S i))) /\ (turn (v i) (v (S i)) q < 0 \/ turn (v (S i)) (v (S (S i))) q < 0).
Proof.
  intros H1 H2 N. assert (W : psub q (v (S i)) <> (0, 0)).
  { intros C. rewrite C in N. unfold dot in N. cbn [fst snd] in N. lra. }
  assert (T : 0 < cross (E i) (E (S i))).
  { destruct (Rle_lt_or_eq_dec _ _ (corner_left i)) as [|Z]; [assumption|]. exfalso. symmetry in Z.
    destruct (straight_corner i Z) as [k [Hk Ek]]. rewrite Ek in *.
    assert (D : dot (psub q (v (S i))) (k * fst (E i), k * snd (E i)) = k * dot (psub q (v (S i))) (E i))
      by (unfold dot; cbn [fst snd]; ring).
    rewrite D in *. assert (dot (psub q (v (S i))) (E i) = 0) by nra. nra. }
  split.
  - rewrite turn_cross. unfold cross, psub in *. cbn [fst snd] in *. lra.
  - destruct (corner_out _ _ _ T H1 H2 W) as [H|H]; [left|right]; rewrite turn_cross; unfold cross, psub in *; cbn [fst snd] in *; lra.
Qed.
(** Nearest boundary points of outer points. *)
Lemma outer_separates q x : ~ hull poly q -> on_boundary poly x -> (forall y, on_boundary poly y -> dist q x <= dist q y) ->
  forall z, hull poly z -> dot (psub q x) (psub z x) <= 0.
Proof.
  intros Hq Hx Hmin z Hz.
  assert (Hall : forall y, hull poly y -> dist q x <= dist q y).
  { intros y Hy. destruct (segment_crosses poly Hc He y q Hy Hq) as [u [T HT]].
    destruct HT as [Ht [Eu Hu]]. assert (L := Hmin u Hu). rewrite Eu, (dist_sym q (between y q T)), dist_between_r, (dist_sym y q) in L by lra.
    assert (P := dist_nonneg q y). nra. }
  assert (Nq : q <> x) by (intros ->; apply Hq; exact (boundary_hull poly Hc x Hx)).
  assert (Pd : 0 < dist q x).
  { destruct (Rle_lt_or_eq_dec _ _ (dist_nonneg q x)) as [L|Z]; [exact L|]. exfalso. symmetry in Z. apply dist_zero in Z. congruence. }
  assert (Do : forall y, dist (0, 0) (psub y q) = dist q y).
  { intros y. rewrite !dist_norm. f_equal. unfold psub. cbn [fst snd]. f_equal; ring. }
  assert (Sep := nearest_separates 0 ltac:(lra) (fun u : point => exists y : point, hull poly y /\ u = psub y q) (psub x q) (dist q x)).
  assert (K : dist q x * dist q x <= dot (psub x q) (psub z q)).
  { apply Sep; [| |apply Do|assumption| |].
    - intros a b u [ya [Ha ->]] [yb [Hb ->]] [t [Ht ->]]. exists (between ya yb t). split.
      + intros C HC HV. apply (HC ya yb); [now apply Ha|now apply Hb|exists t; auto].
      + unfold between, psub. cbn [fst snd]. f_equal; ring.
    - exists x. split; [exact (boundary_hull poly Hc x Hx)|reflexivity].
    - intros u [y [Hy ->]]. rewrite Do. now apply Hall.
    - exists z. auto. }
  rewrite dist_sqr in K. unfold dot, psub in *. cbn [fst snd] in *. lra.
Qed.
Lemma vertex_hull i : hull poly (v i).
Proof. intros C _ HV. apply HV. apply vertex_in. exact (poly_ne poly Hc). Qed.
(** A foot between the ends of an edge. *)
Lemma edge_beyond i q x : (forall z, hull poly z -> dot (psub q x) (psub z x) <= 0) -> on_segment (v i) (v (S i)) x ->
  q <> x -> dot (psub q x) (E i) = 0 -> turn (v i) (v (S i)) q < 0.
Proof.
  intros Hsep [t [Ht ->]] Nq Z. apply Rnot_le_lt. intros C.
  destruct (poly_nd poly Hc He i) as [j Hj]. assert (Sj := Hsep (v j) (vertex_hull j)).
  set (w := psub q (between (v i) (v (S i)) t)) in *.
  assert (Ec : turn (v i) (v (S i)) q = cross (E i) w) by (rewrite turn_cross; unfold w, cross, psub, between; cbn [fst snd]; ring).
  assert (Ej : cross (E i) (psub (v j) (v i)) = cross (E i) (psub (v j) (between (v i) (v (S i)) t)))
    by (unfold cross, psub, between; cbn [fst snd]; ring).
  rewrite Ej in Hj. rewrite Ec in C. set (u := psub (v j) (between (v i) (v (S i)) t)) in *.
  assert (Id : dot (E i) (E i) * dot w u = cross (E i) w * cross (E i) u + dot w (E i) * dot (E i) u) by (unfold dot, cross; ring).
  rewrite Z in Id.
  assert (Ep : 0 < dot (E i) (E i)).
  { assert (N : E i <> (0, 0)) by (rewrite psub_zero; apply (poly_edge poly He)).
    assert (P := norm_pos _ N). assert (Sq := norm_sqr (E i)). unfold dot. rewrite <- Sq. nra. }
  assert (W : w <> (0, 0)) by (unfold w; rewrite psub_zero; assumption).
  assert (Cw : 0 < cross (E i) w).
  { destruct (Rle_lt_or_eq_dec _ _ C) as [|C0]; [assumption|]. exfalso. apply W.
    assert (Q : dot (E i) (E i) * dot w w = cross (E i) w * cross (E i) w + dot w (E i) * dot w (E i)) by (unfold dot, cross; ring).
    rewrite Z, <- C0 in Q. assert (dot w w = 0) by nra.
    apply norm_zero. assert (Sq := norm_sqr w). unfold dot in *. assert (P := norm_nonneg w). nra. }
  assert (0 < cross (E i) w * cross (E i) u) by (now apply Rmult_lt_0_compat). nra.
Qed.

(** ** The loop as a polyline *)
Variable z : R.
Definition lift (u : point) : pt3 := P3 (fst u) (snd u) z.
Definition loop : polyline := map lift (poly ++ firstn 1 poly).
Lemma xy_lift u : xy (lift u) = u. Proof. now destruct u. Qed.
Lemma turn_lift a b c : turn3 (lift a) (lift b) c = turn a b (xy c).
Proof. unfold turn3. now rewrite !xy_lift. Qed.
Lemma loop_length : length loop = S (length poly).
Proof.
  unfold loop. rewrite map_length, app_length. assert (P := poly_ne poly Hc). destruct poly; [congruence|]. cbn. lia.
Qed.
Lemma loop_nth i : (i <= length poly)%nat -> nth_error loop i = Some (lift (v i)).
Proof.
  intros H. unfold loop. apply map_nth_error. assert (P := poly_ne poly Hc).
  destruct (Nat.eq_dec i (length poly)) as [->|N].
  - rewrite nth_error_app2, Nat.sub_diag by lia. replace (v (length poly)) with (v 0) by (symmetry; exact (vertex_period poly 0 P)).
    rewrite vertex_below by (destruct poly; [congruence|cbn; lia]). destruct poly; [congruence|reflexivity].
  - rewrite nth_error_app1 by lia. rewrite vertex_below by lia. apply nth_error_nth'. lia.
Qed.
Lemma loop_nth_inv i a : nth_error loop i = Some a -> (i <= length poly)%nat /\ a = lift (v i).
Proof.
  intros H. assert (L : (i < length loop)%nat) by (apply nth_error_Some; congruence). rewrite loop_length in L.
  split; [lia|]. rewrite loop_nth in H by lia. congruence.
Qed.
Lemma loop_segment i a b : is_segment loop i a b -> (i < length poly)%nat /\ a = lift (v i) /\ b = lift (v (S i)).
Proof.
  intros [Ha Hb]. apply loop_nth_inv in Ha, Hb. destruct Ha as [Ha ->], Hb as [Hb ->]. split; [lia|]. split; reflexivity.
Qed.
Lemma loop_segment_exists i : (i < length poly)%nat -> is_segment loop i (lift (v i)) (lift (v (S i))).
Proof. intros H. split; apply loop_nth; lia. Qed.
Lemma loop_ends : hd origin3 loop = last loop origin3.
Proof.
  apply closed_ends.
  - intros C. assert (L := loop_length). rewrite C in L. discriminate.
  - intros a b Ha Hb. apply loop_nth_inv in Ha, Hb. destruct Ha as [_ ->], Hb as [_ ->].
    rewrite loop_length. replace (S (length poly) - 1)%nat with (0 + length poly)%nat by lia. now rewrite (vertex_period poly 0 (poly_ne poly Hc)).
Qed.
Lemma loop_sign_cases q i a b : is_segment loop i a b ->
  let s := sign_to_segment (is_cyclic loop) (pad (length loop) loop) q i in
  (~ past_start a b q /\ ~ past_end a b q /\ s = side_of a b q) \/
  (past_start a b q /\ exists k, v i = v (S k) /\ v (S i) = v (S (S k)) /\
     s = corner_sign (convex_at (lift (v k)) a b) (side_of a b q) (side_of (lift (v k)) a q)) \/
  (past_end a b q /\ s = corner_sign (convex_at a b (lift (v (S (S i))))) (side_of a b q) (side_of b (lift (v (S (S i)))) q)).
Proof.
  intros Hab s. destruct (loop_segment i a b Hab) as [Hi [Ea Eb]].
  assert (Nab : xy a <> xy b) by (rewrite Ea, Eb, !xy_lift; apply He).
  assert (P := poly_ne poly Hc). assert (L := loop_length). assert (Ends := loop_ends).
  destruct (Rlt_dec (part a b q) 0) as [H|H]; [|destruct (Rlt_dec 1 (part a b q)) as [H'|H']].
  - assert (Hs : past_start a b q) by (now apply past_start_iff). right. left. split; [assumption|].
    destruct i as [|j].
    + exists (length poly - 1)%nat. replace (S (length poly - 1)) with (0 + length poly)%nat by lia.
      split; [symmetry; now apply vertex_period|].
      split; [replace (S (0 + length poly)) with (1 + length poly)%nat by lia; symmetry; now apply vertex_period|].
      apply (sign_start_closed (length loop) loop q a b 0); auto. rewrite L. replace (S (length poly) - 2)%nat with (length poly - 1)%nat by lia.
      apply loop_nth. lia.
    + exists j. split; [reflexivity|]. split; [reflexivity|].
      apply (sign_start_inner (length loop) loop q a b (S j)) with (j := j); auto. apply loop_nth. lia.
  - assert (Hs : past_end a b q) by (now apply past_end_iff). right. right. split; [assumption|].
    destruct (Nat.eq_dec (S i) (length poly)) as [El|Nl].
    + apply (sign_end_closed (length loop) loop q a b i); auto; [lia|]. rewrite loop_nth by lia.
      replace (S (S i)) with (1 + length poly)%nat by lia. now rewrite vertex_period.
    + apply (sign_end_inner (length loop) loop q a b i); auto. apply loop_nth. lia.
  - left. assert (N1 : ~ past_start a b q) by (rewrite past_start_iff by assumption; lra).
    assert (N2 : ~ past_end a b q) by (rewrite past_end_iff by assumption; lra).
    split; [assumption|]. split; [assumption|]. now apply sign_between.
Qed.
Lemma corner_both c a b q k : 0 < turn3 a b q -> 0 < turn3 c a q -> corner_sign k (side_of a b q) (side_of c a q) = -1.
Proof.
  intros H1 H2. unfold corner_sign, Rmax, Rmin. destruct (side_of_cases a b q) as [[? ->]|[[? ->]|[? ->]]]; try lra;
    destruct (side_of_cases c a q) as [[? ->]|[[? ->]|[? ->]]]; try lra; destruct k; destruct (Rle_dec _ _); lra.
Qed.
Lemma corner_one c a b q : 0 < turn3 c a b -> turn3 a b q < 0 \/ turn3 c a q < 0 ->
  corner_sign (convex_at c a b) (side_of a b q) (side_of c a q) = 1.
Proof.
  intros T H. rewrite (proj2 (convex_at_iff c a b) T). unfold corner_sign, Rmax.
  destruct (side_of_cases a b q) as [[? ->]|[[? ->]|[? ->]]];
    destruct (side_of_cases c a q) as [[? ->]|[[? ->]|[? ->]]]; destruct (Rle_dec _ _); lra.
Qed.
Lemma foot_start a b q : xy a <> xy b -> past_start a b q -> xy (the_foot a b q) = xy a.
Proof.
  intros N H. apply past_start_iff in H; [|assumption]. unfold the_foot.
  destruct (clip01_cases (part a b q)) as [[? ->]|[[? ->]|[? ->]]]; try lra. unfold at_part, xy. cbn [px py]. f_equal; ring.
Qed.
Lemma foot_end a b q : xy a <> xy b -> past_end a b q -> xy (the_foot a b q) = xy b.
Proof.
  intros N H. apply past_end_iff in H; [|assumption]. unfold the_foot.
  destruct (clip01_cases (part a b q)) as [[? ->]|[[? ->]|[? ->]]]; try lra. unfold at_part, xy. cbn [px py]. f_equal; ring.
Qed.
Lemma foot_between a b q : xy a <> xy b -> ~ past_start a b q -> ~ past_end a b q ->
  dot (psub (xy q) (xy (the_foot a b q))) (psub (xy b) (xy a)) = 0.
Proof.
  intros N H1 H2. rewrite past_start_iff in H1 by assumption. rewrite past_end_iff in H2 by assumption. unfold the_foot.
  destruct (clip01_cases (part a b q)) as [[? ->]|[[? ->]|[? ->]]]; try lra. assert (P := part_eq a b q N).
  transitivity (dot (psub (xy q) (xy a)) (psub (xy b) (xy a)) - part a b q * dot (psub (xy b) (xy a)) (psub (xy b) (xy a))).
  - unfold dot, psub, at_part, xy. cbn [px py fst snd]. ring.
  - lra.
Qed.
Lemma foot_on a b q : on_segment (xy a) (xy b) (xy (the_foot a b q)).
Proof. exists (clip01 (part a b q)). split; [apply clip01_range|reflexivity]. Qed.

(** The sign of the nearest edge. *)
Lemma loop_sign q i a b : is_segment loop i a b ->
  (forall y, on_boundary poly y -> planar q (the_foot a b q) <= dist (xy q) y) ->
  let s := sign_to_segment (is_cyclic loop) (pad (length loop) loop) q i in
  (hull poly (xy q) -> ~ on_boundary poly (xy q) -> s = -1) /\ (~ hull poly (xy q) -> s = 1).
Proof.
  intros Hab Hmin s. unfold s; clear s. destruct (loop_segment i a b Hab) as [Hi [Ea Eb]].
  assert (Nab : xy a <> xy b) by (rewrite Ea, Eb, !xy_lift; apply He). split.
  - intros Hh Hb. apply (proj1 (hull_inside poly Hc He _)) in Hh.
    assert (T : forall j, 0 < turn (v j) (v (S j)) (xy q)).
    { intros j. rewrite turn_cross. destruct (Rle_lt_or_eq_dec _ _ (Hh j)) as [|Z]; [assumption|]. exfalso. apply Hb.
      exact (line_boundary (length poly) v (poly_len poly Hc He) (poly_per poly Hc) (poly_edge poly He) (poly_left poly Hc) (poly_nd poly Hc He) j (xy q) Hh (eq_sym Z)). }
    destruct (loop_sign_cases q i a b Hab) as [[_ [_ E1]]|[[_ [k [E1 [E2 E3]]]]|[_ E1]]].
    + rewrite E1. assert (H : 0 < turn3 a b q) by (rewrite Ea, Eb, turn_lift; apply T).
      destruct (side_of_cases a b q) as [[? ->]|[[? ->]|[? ->]]]; lra.
    + rewrite E3. apply corner_both; rewrite Ea, ?Eb, turn_lift, ?E1, ?E2; apply T.
    + rewrite E1, corner_sign_sym. apply corner_both; rewrite ?Ea, Eb, turn_lift; apply T.
  - intros Nh. assert (Xa : xy a = vertex poly i) by (rewrite Ea; apply xy_lift). assert (Xb : xy b = vertex poly (S i)) by (rewrite Eb; apply xy_lift).
    assert (Hx : on_boundary poly (xy (the_foot a b q))).
    { exists i. rewrite <- Xa, <- Xb. apply foot_on. }
    assert (Hsep := outer_separates (xy q) (xy (the_foot a b q)) Nh Hx Hmin).
    assert (Nx : xy q <> xy (the_foot a b q)) by (intros C; apply Nh; rewrite C; exact (boundary_hull poly Hc _ Hx)).
    destruct (loop_sign_cases q i a b Hab) as [[H1 [H2 E1]]|[[H [k [E1 [E2 E3]]]]|[H E1]]].
    + rewrite E1. assert (F := foot_between a b q Nab H1 H2). assert (G := foot_on a b q).
      assert (T : turn (v i) (v (S i)) (xy q) < 0).
      { apply (edge_beyond i (xy q) (xy (the_foot a b q))); auto.
        - rewrite Xa, Xb in G. exact G.
        - rewrite Xa, Xb in F. exact F. }
      assert (T' : turn3 a b q < 0) by (rewrite Ea, Eb, turn_lift; exact T).
      destruct (side_of_cases a b q) as [[? ->]|[[? ->]|[? ->]]]; lra.
    + rewrite (foot_start a b q Nab H) in Hsep. unfold past_start in H.
      assert (Ea' : xy a = v (S k)) by (rewrite Ea, xy_lift; exact E1). assert (Eb' : xy b = v (S (S k))) by (rewrite Eb, xy_lift; exact E2).
      assert (Hk := Hsep (v k) (vertex_hull k)). rewrite Ea' in Hk.
      change ((px q - px a) * (px b - px a) + (py q - py a) * (py b - py a)) with (dot (psub (xy q) (xy a)) (psub (xy b) (xy a))) in H.
      rewrite Ea', Eb' in H.
      destruct (corner_beyond k (xy q)) as [T Sd].
      * unfold dot, psub in *. cbn [fst snd] in *. lra.
      * lra.
      * right. lra.
      * rewrite E3. apply corner_one.
        -- unfold turn3. rewrite xy_lift, Ea', Eb'. exact T.
        -- unfold turn3. rewrite xy_lift, Ea', Eb'. tauto.
    + rewrite (foot_end a b q Nab H) in Hsep. unfold past_end, past_start in H.
      assert (Ea' : xy a = v i) by (rewrite Ea, xy_lift; reflexivity). assert (Eb' : xy b = v (S i)) by (rewrite Eb, xy_lift; reflexivity).
      assert (Hk := Hsep (v (S (S i))) (vertex_hull (S (S i)))). rewrite Eb' in Hk.
      change ((px q - px b) * (px a - px b) + (py q - py b) * (py a - py b)) with (dot (psub (xy q) (xy b)) (psub (xy a) (xy b))) in H.
      rewrite Ea', Eb' in H.
      assert (Hp : 0 < dot (psub (xy q) (v (S i))) (E i)) by (unfold dot, psub in *; cbn [fst snd] in *; lra).
      destruct (corner_beyond i (xy q)) as [T Sd]; [lra|assumption|left; lra|].
      rewrite E1, corner_sign_sym.
      apply corner_one; unfold turn3; rewrite xy_lift, Ea', Eb'; [exact T|tauto].
Qed.
End Loop.

(** ** The road with the loop *)
Lemma stretched_planar q f f' : pz f = pz f' -> stretched q f <= stretched q f' -> planar q f <= planar q f'.
Proof.
  intros Z H. apply sqr_le; [apply planar_nonneg|]. rewrite !planar_sqr. unfold stretched in H. rewrite Z in H. 
  assert (S1 := pow2_ge_0 (px q - px f)). assert (S2 := pow2_ge_0 (py q - py f)). assert (S3 := pow2_ge_0 (px q - px f')).
  assert (S4 := pow2_ge_0 (py q - py f')). assert (S5 := pow2_ge_0 (3 * (pz q - pz f'))).
  apply sqrt_le_0 in H; [|lra|lra]. lra.
Qed.
Lemma convex_loop_correct road rows p poly q d : proper road -> road_rows road = Ok rows ->
  signed_distance_to_polylines 3 rows q = Ok d ->
  (exists a b f, segment_in road a b /\ foot a b q f /\ stretched q f < 10000000000) ->
  In p road -> convex_loop p poly -> longest road p -> nearest_polyline road q p ->
  (d < 0 <-> hull poly (xy q) /\ ~ on_boundary poly (xy q)) /\ (0 < d <-> ~ hull poly (xy q)) /\
  distance_to (on_boundary poly) (xy q) (Rabs d).
Proof.
  intros Hp Hr Hd Hn Hin [Hc [He [z Ez]]] Hl Hnp.
  destruct (selected road rows q d Hp Hr Hd Hn) as [p0 [i [a [b [Hin0 [Hab [Hnear E]]]]]]].
  assert (Nab : xy a <> xy b) by (apply Hp; exists p0, i; auto).
  assert (Epp : p0 = p \/ p0 <> p).
  { assert (Dec : forall x y : pt3, {x = y} + {x <> y}).
    { intros [x1 x2 x3] [y1 y2 y3]. destruct (Req_EM_T x1 y1) as [->|]; [|right; congruence].
      destruct (Req_EM_T x2 y2) as [->|]; [|right; congruence]. destruct (Req_EM_T x3 y3) as [->|]; [now left|right; congruence]. }
    destruct (list_eq_dec Dec p0 p); auto. }
  destruct Epp as [->|Np].
  2:{ exfalso. destruct (Hnp p0 i a b _ Hin0 Np Hab (the_foot_ok a b q Nab)) as [j [a' [b' [f' [Hs [Hf L]]]]]].
      destruct Hnear as [_ [_ Hmin]]. assert (K := Hmin a' b' f' (ex_intro _ p (ex_intro _ j (conj Hin Hs))) Hf). lra. }
  assert (Ep : p = loop poly z) by exact Ez.
  destruct (segment_kept _ _ _ _ _ Hin Hab) as [Hk L]. rewrite (max_length_kept road p Hl Hk) in E.
  assert (Hmin : forall y, on_boundary poly y -> planar q (the_foot a b q) <= dist (xy q) y).
  { intros y [j [t [Ht ->]]]. set (k := Nat.modulo j (length poly)).
    assert (Hlen : length poly <> 0%nat) by (destruct Hc as [C _]; destruct poly; [congruence|discriminate]).
    assert (Hkl : (k < length poly)%nat) by (apply Nat.mod_upper_bound; assumption).
    assert (Vj : vertex poly j = vertex poly k) by (unfold vertex, k; now rewrite Nat.mod_mod).
    assert (Vsj : vertex poly (S j) = vertex poly (S k)).
    { unfold vertex, k. f_equal. replace (S j) with (1 + j)%nat by lia. replace (S (j mod length poly)) with (1 + j mod length poly)%nat by lia.
      now rewrite Nat.add_mod_idemp_r. }
    set (a' := lift z (vertex poly k)). set (b' := lift z (vertex poly (S k))).
    assert (Hs : is_segment p k a' b') by (rewrite Ep; now apply loop_segment_exists).
    assert (Nab' : xy a' <> xy b') by (apply Hp; exists p, k; auto).
    destruct Hnear as [_ [_ Hmin]]. assert (K := Hmin a' b' _ (ex_intro _ p (ex_intro _ k (conj Hin Hs))) (the_foot_ok a' b' q Nab')).
    apply stretched_planar in K.
    - apply Rle_trans with (planar q (the_foot a' b' q)); [assumption|].
      destruct (the_foot_ok a' b' q Nab') as [s [Hs1 [Hs2 Hs3]]]. apply Rle_trans with (planar q (at_part a' b' t)); [now apply Hs3|].
      rewrite Vj, Vsj. apply Req_le. unfold planar. f_equal.
    - rewrite Ep in Hab. destruct (loop_segment poly Hc He z i a b Hab) as [_ [-> ->]].
      unfold the_foot, at_part, a', b', lift. cbn [pz]. ring. }
  rewrite Ep in Hab. destruct (loop_segment poly Hc He z i a b Hab) as [_ [Ea Eb]].
  assert (Xa : xy a = vertex poly i) by (rewrite Ea; apply xy_lift). assert (Xb : xy b = vertex poly (S i)) by (rewrite Eb; apply xy_lift).
  assert (Hx : on_boundary poly (xy (the_foot a b q))).
  { exists i. rewrite <- Xa, <- Xb. apply foot_on. }
  destruct (loop_sign poly Hc He z q i a b Hab Hmin) as [S1 S2]. cbv zeta in S1, S2. rewrite Ep in E.
  assert (Pn := planar_nonneg q (the_foot a b q)).
  assert (Hzero : planar q (the_foot a b q) = 0 -> on_boundary poly (xy q)).
  { intros Z. unfold planar in Z. apply dist_zero in Z. now rewrite Z. }
  assert (Hb0 : on_boundary poly (xy q) -> planar q (the_foot a b q) = 0).
  { intros B. assert (K := Hmin _ B). assert (dist (xy q) (xy q) = 0) by (now apply dist_zero). lra. }
  assert (DT : distance_to (on_boundary poly) (xy q) (planar q (the_foot a b q))) by (split; [exists (xy (the_foot a b q)); auto|assumption]).
  destruct (is_inside (xy q) poly) eqn:I.
  - assert (Hh : hull poly (xy q)) by (now apply (is_inside_hull poly Hc He)).
    destruct (Req_EM_T (planar q (the_foot a b q)) 0) as [Z|NZ].
    + rewrite Z in E, DT. assert (d = 0) by lra. subst d. rewrite H, Rabs_R0. assert (B := Hzero Z).
      split; [split; [lra|tauto]|]. split; [split; [lra|tauto]|]. exact DT.
    + assert (B : ~ on_boundary poly (xy q)) by tauto. rewrite (S1 Hh B) in E.
      split; [split; [tauto|intros _; lra]|]. split; [split; [lra|tauto]|].
      rewrite E. replace (-1 * planar q (the_foot a b q)) with (- planar q (the_foot a b q)) by ring.
      rewrite Rabs_Ropp, Rabs_right by lra. exact DT.
  - assert (Hh : ~ hull poly (xy q)) by (intros C; apply (is_inside_hull poly Hc He) in C; congruence).
    rewrite (S2 Hh) in E.
    assert (NZ : planar q (the_foot a b q) <> 0) by (intros Z; apply Hh; exact (boundary_hull poly Hc _ (Hzero Z))).
    split; [split; [lra|tauto]|]. split; [split; [tauto|intros _; lra]|].
    rewrite E, Rmult_1_l, Rabs_right by lra. exact DT.
Qed.
