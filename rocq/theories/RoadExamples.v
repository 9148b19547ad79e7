(** Roads that show what the distance to the road edge does at ends and at padded rows. *)
From Coq Require Import Reals Lra Psatz List Lia Bool.
From Verif Require Import Base ResultLib MonadLib GeomModel GeomSpec GeomBase GeomConvex GeomDistProofs GeomExamples.
From Verif Require Import RoadModel RoadSpec RoadProofs RoadLocalProofs RoadLoopProofs RoadBoxProofs.
Import ListNotations.
Open Scope R_scope.

Definition triangle : list point := [(0, 0); (4, -1); (4, 1)].
Definition triangle_edge : polyline := [P3 0 0 0; P3 4 (-1) 0; P3 4 1 0; P3 0 0 0].
Definition far_edge : polyline := [P3 100 0 0; P3 101 0 0; P3 102 0 0; P3 103 0 0; P3 104 0 0].
Definition corner_query : pt3 := P3 (-1) 1 0.

Lemma triangle_convex : convex_polygon triangle /\ proper_edges triangle.
Proof.
  assert (M : forall i, exists k, (k < 3)%nat /\ vertex triangle i = nth k triangle (0, 0) /\
                                  vertex triangle (S i) = nth (Nat.modulo (S k) 3) triangle (0, 0)).
  { intros i. exists (Nat.modulo i 3). split; [apply Nat.mod_upper_bound; lia|]. split; [reflexivity|].
    unfold vertex. cbn [triangle length]. f_equal. replace (S i) with (1 + i)%nat by lia.
    replace (S (i mod 3)) with (1 + i mod 3)%nat by lia. rewrite Nat.add_mod_idemp_r by lia. reflexivity. }
  split; [split; [discriminate|split]|].
  - intros i j. destruct (M i) as [k [Hk [-> ->]]]. destruct (M j) as [l [Hl [-> _]]]. unfold turn.
    destruct k as [|[|[|k]]]; [| | |lia]; (destruct l as [|[|[|l]]]; [| | |lia]); cbn; lra.
  - exists 0%nat, 1%nat, 2%nat. unfold turn. cbn. lra.
  - intros i C. destruct (M i) as [k [Hk [E1 E2]]]. rewrite E1, E2 in C.
    destruct k as [|[|[|k]]]; [| | |lia]; cbn in C; apply pair_equal_spec in C; lra.
Qed.
Lemma triangle_loop : convex_loop triangle_edge triangle.
Proof. split; [apply triangle_convex|]. split; [apply triangle_convex|]. exists 0. reflexivity. Qed.

Lemma triangle_segments i a b : is_segment triangle_edge i a b ->
  (i = 0%nat /\ a = P3 0 0 0 /\ b = P3 4 (-1) 0) \/ (i = 1%nat /\ a = P3 4 (-1) 0 /\ b = P3 4 1 0) \/ (i = 2%nat /\ a = P3 4 1 0 /\ b = P3 0 0 0).
Proof.
  intros [Ha Hb]. destruct i as [|[|[|[|i]]]]; cbn in Ha, Hb; try discriminate.
  - left. injection Ha as <-. injection Hb as <-. auto.
  - right. left. injection Ha as <-. injection Hb as <-. auto.
  - right. right. injection Ha as <-. injection Hb as <-. auto.
Qed.
Lemma far_segments i a b : is_segment far_edge i a b -> exists x, 100 <= x /\ a = P3 x 0 0 /\ b = P3 (x + 1) 0 0.
Proof.
  intros [Ha Hb]. destruct i as [|[|[|[|[|i]]]]]; cbn in Ha, Hb; try discriminate; try (destruct i; discriminate);
    injection Ha as <-; injection Hb as <-; [exists 100|exists 101|exists 102|exists 103]; (split; [lra|split; [reflexivity|f_equal; lra]]).
Qed.
Lemma segment_two p p' a b : segment_in [p; p'] a b -> (exists i, is_segment p i a b) \/ (exists i, is_segment p' i a b).
Proof. intros [x [i [[<-|[<-|[]]] H]]]; [left|right]; now exists i. Qed.
Lemma both_proper : proper [triangle_edge; far_edge].
Proof.
  intros a b H. apply segment_two in H. destruct H as [[i H]|[i H]].
  - apply triangle_segments in H. destruct H as [[_ [-> ->]]|[[_ [-> ->]]|[_ [-> ->]]]]; unfold xy; cbn; intros C; apply pair_equal_spec in C; lra.
  - apply far_segments in H. destruct H as [x [_ [-> ->]]]. unfold xy. cbn. intros C. apply pair_equal_spec in C. lra.
Qed.
Lemma alone_proper : proper [triangle_edge].
Proof. intros a b [p [i [[<-|[]] H]]]. apply both_proper. exists triangle_edge, i. split; [now left|assumption]. Qed.

Lemma stretched_flat q f : pz q = pz f -> stretched q f = planar q f.
Proof. intros E. unfold stretched, planar, dist, xy. cbn [fst snd]. f_equal. rewrite E. ring. Qed.
Lemma planar_ge q f x : 0 <= x -> x * x <= (px q - px f) * (px q - px f) + (py q - py f) * (py q - py f) -> x <= planar q f.
Proof. intros Hx H. apply sqr_le; [apply planar_nonneg|]. now rewrite planar_sqr. Qed.
Lemma planar_at_origin : planar corner_query (P3 0 0 0) = sqrt 2.
Proof. unfold planar, dist, xy. cbn. f_equal. ring. Qed.
Lemma sqrt2_pos : 0 < sqrt 2. Proof. apply sqrt_lt_R0. lra. Qed.
Lemma sqrt2_sqr : sqrt 2 * sqrt 2 = 2. Proof. apply sqrt_sqrt. lra. Qed.
Lemma sqrt2_le : sqrt 2 <= 2. Proof. assert (H := sqrt2_sqr). assert (P := sqrt2_pos). nra. Qed.
(** All feet are at least as far as the corner. *)
Lemma foot_far q a b x : xy a <> xy b -> pz q = 0 -> pz a = 0 -> pz b = 0 -> 0 <= x ->
  (forall s, 0 <= s <= 1 -> x * x <= (px q - (px a + s * (px b - px a))) * (px q - (px a + s * (px b - px a))) +
                           (py q - (py a + s * (py b - py a))) * (py q - (py a + s * (py b - py a)))) ->
  x <= stretched q (the_foot a b q).
Proof.
  intros N Zq Za Zb Hx H. rewrite stretched_flat by (unfold the_foot, at_part; cbn [pz]; rewrite Zq, Za, Zb; ring).
  apply planar_ge; [assumption|]. exact (H _ (clip01_range _)).
Qed.
Lemma triangle_far i a b : is_segment triangle_edge i a b -> sqrt 2 <= stretched corner_query (the_foot a b corner_query).
Proof.
  intros H. assert (P := sqrt2_pos). assert (S := sqrt2_sqr). apply triangle_segments in H.
  destruct H as [[_ [-> ->]]|[[_ [-> ->]]|[_ [-> ->]]]]; (apply foot_far; try reflexivity; try lra;
    [unfold xy; cbn; intros C; apply pair_equal_spec in C; lra|intros s Hs; rewrite S; cbn [px py corner_query]; nra]).
Qed.
Lemma far_far i a b : is_segment far_edge i a b -> 100 <= stretched corner_query (the_foot a b corner_query).
Proof.
  intros H. apply far_segments in H. destruct H as [x [Hx [-> ->]]]. apply foot_far; try reflexivity; try lra.
  - unfold xy; cbn; intros C; apply pair_equal_spec in C; lra.
  - intros s Hs. cbn [px py corner_query]. nra.
Qed.
Lemma corner_foot : foot (P3 0 0 0) (P3 4 (-1) 0) corner_query (P3 0 0 0).
Proof.
  exists 0. split; [lra|]. split; [unfold at_part; cbn; f_equal; ring|]. intros s Hs.
  apply planar_ge; [apply planar_nonneg|]. rewrite planar_at_origin, sqrt2_sqr. unfold at_part. cbn. nra.
Qed.
Lemma corner_near road : In triangle_edge road -> exists a b f, segment_in road a b /\ foot a b corner_query f /\ stretched corner_query f < 10000000000.
Proof.
  intros H. exists (P3 0 0 0), (P3 4 (-1) 0), (P3 0 0 0). split; [exists triangle_edge, 0%nat; split; [assumption|split; reflexivity]|].
  split; [apply corner_foot|]. rewrite stretched_flat by reflexivity. rewrite planar_at_origin. assert (H' := sqrt2_le). lra.
Qed.
Lemma corner_outside : ~ hull triangle (xy corner_query).
Proof.
  destruct triangle_convex as [Hc He]. intros C. apply (proj1 (hull_inside triangle Hc He _)) in C. assert (H := C 2%nat).
  unfold cross, psub, vertex, xy in H. cbn in H. lra.
Qed.
Lemma first_min_head e l : (forall x, In x l -> fst e <= fst x) -> first_min (e :: l) = Ok e.
Proof.
  intros H. cbn [first_min]. f_equal. induction l as [|x l IH]; [reflexivity|]. cbn [fold_left].
  rewrite (proj2 (rltb_false (fst x) (fst e))) by (apply H; now left). apply IH. intros y Hy. apply H. now right.
Qed.
Lemma padded_nearest : nearest_polyline [triangle_edge; far_edge] corner_query triangle_edge.
Proof.
  intros p' i a' b' f' [<-|[<-|[]]] N Hs Hf; [congruence|]. exists 0%nat, (P3 0 0 0), (P3 4 (-1) 0), (P3 0 0 0).
  split; [split; reflexivity|]. split; [apply corner_foot|]. rewrite stretched_flat by reflexivity. rewrite planar_at_origin.
  assert (Nab : xy a' <> xy b') by (apply both_proper; exists far_edge, i; split; [right; now left|assumption]).
  rewrite (foot_unique a' b' corner_query f' Nab Hf). assert (H := far_far i a' b' Hs). assert (H' := sqrt2_le). lra.
Qed.
(** Alone the distance is positive; beside a longer polyline far away it is negative. *)
Lemma padded_refuted : exists p far poly q d d',
  convex_loop p poly /\ proper [p; far] /\ nearest_polyline [p; far] q p /\ ~ hull poly (xy q) /\
  point_distance [p] q d /\ 0 < d /\ point_distance [p; far] q d' /\ d' < 0.
Proof.
  exists triangle_edge, far_edge, triangle, corner_query.
  destruct (road_rows_ok [triangle_edge]) as [rows Hr]; [exists triangle_edge; split; [now left|cbn; lia]|].
  destruct (point_ok _ rows corner_query Hr) as [d Hd]. exists d, (-1 * sqrt 2).
  split; [exact triangle_loop|]. split; [exact both_proper|]. split; [exact padded_nearest|]. split; [exact corner_outside|].
  split; [exists rows; auto|]. split; [|split].
  - apply (convex_loop_correct [triangle_edge] rows triangle_edge triangle corner_query d alone_proper Hr Hd).
    + apply corner_near. now left.
    + now left.
    + exact triangle_loop.
    + intros p' [<-|[]]. lia.
    + intros p' i a' b' f' [<-|[]] N; congruence.
    + exact corner_outside.
  - destruct (road_rows_ok [triangle_edge; far_edge]) as [rows2 Hr2]; [exists triangle_edge; split; [now left|cbn; lia]|].
    exists rows2. split; [assumption|]. destruct (road_rows_spec _ _ Hr2) as [-> _].
    change (max_length (kept [triangle_edge; far_edge])) with 5%nat.
    change (kept [triangle_edge; far_edge]) with [triangle_edge; far_edge]. cbn [map]. unfold signed_distance_to_polylines. cbn [map fst snd].
    set (E0 := segment_entry 3 (is_cyclic triangle_edge) (pad 5 triangle_edge) corner_query 0).
    assert (Hab : is_segment triangle_edge 0 (P3 0 0 0) (P3 4 (-1) 0)) by (split; reflexivity).
    assert (Nab : xy (P3 0 0 0) <> xy (P3 4 (-1) 0)) by (unfold xy; cbn; intros C; apply pair_equal_spec in C; lra).
    assert (Ps : past_start (P3 0 0 0) (P3 4 (-1) 0) corner_query) by (unfold past_start; cbn; lra).
    assert (Ef : the_foot (P3 0 0 0) (P3 4 (-1) 0) corner_query = P3 0 0 0) by (symmetry; apply foot_unique; [assumption|apply corner_foot]).
    assert (EE : E0 = (sqrt 2, (-1, sqrt 2))).
    { unfold E0, segment_entry. rewrite (proj2 (row_valid 5 triangle_edge 0)) by (eexists; eexists; exact Hab).
      rewrite (row_d3 5 _ corner_query 0 _ _ Hab), (row_d2 5 _ corner_query 0 _ _ Hab), Ef, stretched_flat, planar_at_origin by reflexivity.
      rewrite (sign_start_general 5 _ corner_query _ _ 0 Hab Nab Ps).
      rewrite (cyclic_closed triangle_edge) by reflexivity.
      replace (segment_valid (pad 5 triangle_edge) (prior true (pad 5 triangle_edge) 0)) with false by reflexivity.
      f_equal. f_equal. destruct (side_of_cases (P3 0 0 0) (P3 4 (-1) 0) corner_query) as [[_ E]|[[T _]|[T _]]];
        [exact E|exfalso; revert T; unfold turn3, turn, xy; cbn; lra|exfalso; revert T; unfold turn3, turn, xy; cbn; lra]. }
    assert (FM : first_min (concat [row_entries 3 (is_cyclic triangle_edge) (pad 5 triangle_edge) corner_query;
                                   row_entries 3 (is_cyclic far_edge) (pad 5 far_edge) corner_query]) = Ok E0).
    { set (l := concat _). assert (El : l = E0 :: tl l) by reflexivity. rewrite El. apply first_min_head. intros x Hx.
      assert (Hx' : In x l) by (rewrite El; now right). rewrite EE. cbn [fst]. clear El Hx. unfold l in Hx'. cbn [concat] in Hx'.
      rewrite app_nil_r in Hx'. apply in_app_iff in Hx'. assert (S2 := sqrt2_le).
      assert (G : forall p, (forall i a b, is_segment p i a b -> sqrt 2 <= stretched corner_query (the_foot a b corner_query)) ->
                 In x (row_entries 3 (is_cyclic p) (pad 5 p) corner_query) -> sqrt 2 <= fst x).
      { intros p Hfar Hin. unfold row_entries in Hin. apply in_map_iff in Hin. destruct Hin as [i [<- _]]. unfold segment_entry.
        destruct (segment_valid (pad 5 p) i) eqn:V.
        - apply row_valid in V. destruct V as [a [b Hs]]. cbn [fst]. rewrite (row_d3 5 p corner_query i a b Hs). now apply (Hfar i).
        - cbn [fst]. unfold EXTREMELY_LARGE_DISTANCE. lra. }
      destruct Hx' as [Hx'|Hx']; revert Hx'; apply G.
      - exact triangle_far.
      - intros i a b Hs. assert (F := far_far i a b Hs). lra. }
    rewrite FM, EE. reflexivity.
  - assert (P := sqrt2_pos). lra.
Qed.

(** Behind the end of an edge, on its line, the distance is zero however far the edge is. *)
Definition short_edge : polyline := [P3 0 0 0; P3 1 0 0].
Lemma free_end_refuted : exists road q, proper road /\ point_distance road q 0 /\
  forall a b s, segment_in road a b -> 0 <= s <= 1 -> 4 <= planar q (at_part a b s).
Proof.
  exists [short_edge], (P3 5 0 0).
  assert (Sg : forall a b, segment_in [short_edge] a b -> a = P3 0 0 0 /\ b = P3 1 0 0).
  { intros a b [p [i [[<-|[]] [Ha Hb]]]]. destruct i as [|[|i]]; cbn in Ha, Hb; try discriminate.
    injection Ha as <-. injection Hb as <-. auto. }
  assert (Hp : proper [short_edge]).
  { intros a b H. destruct (Sg a b H) as [-> ->]. unfold xy. cbn. intros C. apply pair_equal_spec in C. lra. }
  split; [assumption|]. split.
  - destruct (road_rows_ok [short_edge]) as [rows Hr]; [exists short_edge; split; [now left|cbn; lia]|].
    destruct (point_ok _ rows (P3 5 0 0) Hr) as [d Hd].
    assert (Hf : foot (P3 0 0 0) (P3 1 0 0) (P3 5 0 0) (P3 1 0 0)).
    { exists 1. split; [lra|]. split; [unfold at_part; cbn; f_equal; ring|]. intros s Hs. apply sqr_le; [apply planar_nonneg|].
      rewrite !planar_sqr. unfold at_part. cbn. nra. }
    destruct (local_sign [short_edge] rows (P3 5 0 0) d Hp Hr Hd) as [p [i [a [b [f [Hin [Hab [Hn [_ [_ [_ [Hopen _]]]]]]]]]]]].
    { exists (P3 0 0 0), (P3 1 0 0), (P3 1 0 0). split; [exists short_edge, 0%nat; split; [now left|split; reflexivity]|]. split; [assumption|].
      rewrite stretched_flat by reflexivity. replace (planar _ _) with 4; [lra|]. unfold planar, dist, xy. cbn.
      replace ((5 - 1) * ((5 - 1) * 1) + (0 - 0) * ((0 - 0) * 1)) with (4 * 4) by ring. rewrite sqrt_square; lra. }
    assert (Hs : segment_in [short_edge] a b) by (exists p, i; auto). destruct (Sg a b Hs) as [-> ->]. destruct Hin as [<-|[]].
    assert (Hi : i = 0%nat) by (destruct i as [|[|i]]; [reflexivity| |]; destruct Hab as [Ha Hb]; cbn in Ha, Hb; [discriminate|destruct i; discriminate]).
    subst i. assert (Z : d = 0).
    { apply Hopen.
      - right. split; [unfold past_end, past_start; cbn; lra|reflexivity].
      - intros a b Ha Hb. cbn in Ha, Hb. injection Ha as <-. injection Hb as <-. cbn. lra.
      - unfold turn3, turn, xy. cbn. lra.
      - unfold turn3, turn, xy. cbn. lra. }
    subst d. exists rows. auto.
  - intros a b s H Hs. destruct (Sg a b H) as [-> ->]. apply planar_ge; [lra|]. unfold at_part. cbn. nra.
Qed.
(** The hypotheses of the loop theorem hold for a box in the triangle. *)
Lemma triangle_example : proper [triangle_edge] /\ convex_loop triangle_edge triangle /\ longest [triangle_edge] triangle_edge /\
  nearest_polyline [triangle_edge] corner_query triangle_edge.
Proof.
  split; [exact alone_proper|]. split; [exact triangle_loop|]. split; [intros p' [<-|[]]; lia|].
  intros p' i a' b' f' [<-|[]] N; congruence.
Qed.
