(** The signed distance from a point to a polygon. *)
From Coq Require Import Reals Lra Psatz List Lia.
From Verif Require Import Base GeomModel GeomSpec GeomBase GeomConvex.
Import ListNotations.
Open Scope R_scope.

(** ** Edges *)
Lemma vertex_period poly i : poly <> [] -> vertex poly (i + length poly) = vertex poly i.
Proof.
  intros H. unfold vertex. f_equal.
  rewrite <- (Nat.mul_1_l (length poly)) at 1. apply Nat.mod_add. now destruct poly.
Qed.
Lemma vertex_below poly i : (i < length poly)%nat -> vertex poly i = nth i poly (0, 0).
Proof. intros H. unfold vertex. now rewrite Nat.mod_small. Qed.
Lemma vertex_in poly i : poly <> [] -> In (vertex poly i) poly.
Proof.
  intros H. apply nth_In. apply Nat.mod_upper_bound. destruct poly; [congruence|discriminate].
Qed.
Lemma in_vertex poly p : In p poly -> exists i, (i < length poly)%nat /\ p = vertex poly i.
Proof.
  intros H. destruct (In_nth _ _ (0, 0) H) as [i [Hi E]]. exists i. split; [assumption|].
  now rewrite vertex_below.
Qed.
Lemma shifted_length {A} (poly : list A) : length (shifted poly) = length poly.
Proof. unfold shifted. rewrite app_length, skipn_length, firstn_length. destruct poly; cbn [length]; lia. Qed.
Lemma shifted_nth poly i : (i < length poly)%nat -> nth i (shifted poly) (0, 0) = vertex poly (S i).
Proof.
  intros Hi. destruct poly as [|p poly]; [cbn in Hi; lia|]. unfold shifted. cbn [skipn firstn].
  unfold vertex. cbn [length] in *.
  destruct (Nat.eq_dec i (length poly)) as [->|N].
  - rewrite app_nth2 by lia. rewrite Nat.sub_diag, Nat.mod_same by lia. reflexivity.
  - rewrite app_nth1 by lia. rewrite Nat.mod_small by lia. reflexivity.
Qed.
Lemma edges_in poly e : In e (edges poly) <->
  exists i, (i < length poly)%nat /\ e = (vertex poly i, vertex poly (S i)).
Proof.
  unfold edges. split.
  - intros H. destruct (In_nth _ _ ((0, 0), (0, 0)) H) as [i [Hi E]].
    rewrite combine_length, shifted_length, Nat.min_id in Hi. exists i. split; [assumption|].
    rewrite <- E. rewrite combine_nth by (symmetry; apply shifted_length). now rewrite shifted_nth, (vertex_below poly i) by assumption.
  - intros [i [Hi ->]]. rewrite (vertex_below poly i Hi), <- (shifted_nth poly i Hi).
    rewrite <- (combine_nth poly (shifted poly) i (0, 0) (0, 0)) by (symmetry; apply shifted_length).
    apply nth_In. now rewrite combine_length, shifted_length, Nat.min_id.
Qed.

(** ** One edge *)
Lemma psub_zero a b : psub b a = (0, 0) <-> b = a.
Proof.
  destruct a, b. unfold psub. cbn [fst snd]. rewrite !pair_equal_spec. split; intros [H1 H2]; split; lra.
Qed.
Lemma perp_some q a b d : signed_perp_distance q (a, b) = Some d ->
  a <> b /\ 0 < norm (psub b a) /\ d = - cross (psub b a) (psub q a) / norm (psub b a).
Proof.
  unfold signed_perp_distance, normal, tangent, edge_vector. cbn [fst snd].
  destruct (unit_vector (psub b a)) as [u|] eqn:U; cbn [option_map]; [|discriminate].
  intros H. injection H as <-. apply unit_vector_some in U. destruct U as [N [P [Eu _]]].
  split; [intros ->; apply N, psub_zero; reflexivity|]. split; [exact P|].
  set (L := norm (psub b a)) in *. cbn [fst snd]. rewrite Eu. unfold cross, psub. cbn [fst snd]. field. lra.
Qed.
Lemma perp_exists q a b : a <> b -> exists d, signed_perp_distance q (a, b) = Some d.
Proof.
  intros N. unfold signed_perp_distance, normal, tangent, edge_vector. cbn [fst snd].
  destruct (unit_vector (psub b a)) as [u|] eqn:U; cbn [option_map]; [eexists; reflexivity|].
  apply unit_vector_none in U. rewrite psub_zero in U. congruence.
Qed.
Lemma perp_none q a b : signed_perp_distance q (a, b) = None -> a = b.
Proof.
  intros H. destruct (Req_EM_T (dist a b) 0) as [E|E]; [now apply dist_zero|].
  destruct (perp_exists q a b) as [d Hd]; [|congruence]. intros C. apply E. now apply dist_zero.
Qed.
Lemma inward_iff q a b : inward q (a, b) = true <-> a <> b /\ 0 <= cross (psub b a) (psub q a).
Proof.
  unfold inward. destruct (signed_perp_distance q (a, b)) as [d|] eqn:D.
  - apply perp_some in D. destruct D as [N [P ->]]. rewrite rleb_iff. split.
    + intros H. split; [assumption|].
      assert (E : cross (psub b a) (psub q a) = - (- cross (psub b a) (psub q a) / norm (psub b a)) * norm (psub b a))
        by (field; lra). rewrite E. nra.
    + intros [_ H]. apply Rmult_le_reg_r with (norm (psub b a)); [assumption|].
      replace (- cross (psub b a) (psub q a) / norm (psub b a) * norm (psub b a))
        with (- cross (psub b a) (psub q a)) by (field; lra). lra.
  - apply perp_none in D. split; [discriminate|]. intros [H _]. congruence.
Qed.
(** The foot of the perpendicular. *)
Definition foot_parameter (q a b : point) : R :=
  dot (psub b a) (psub q a) / (norm (psub b a) * norm (psub b a)).
Lemma projection_iff q a b : projection_on_edge q (a, b) = true <-> a <> b /\ 0 <= foot_parameter q a b <= 1.
Proof.
  unfold projection_on_edge, tangent, edge_vector. cbn [fst snd].
  destruct (unit_vector (psub b a)) as [u|] eqn:U.
  - apply unit_vector_some in U. destruct U as [N [P [Eu _]]].
    replace (dot u (psub q a) / norm (psub b a)) with (foot_parameter q a b).
    + rewrite andb_true_iff, !rleb_iff. split; [|tauto]. intros H. split; [|tauto].
      intros ->. apply N, psub_zero. reflexivity.
    + unfold foot_parameter. set (L := norm (psub b a)) in *. rewrite Eu. unfold dot. cbn [fst snd].
      field. lra.
  - apply unit_vector_none in U. rewrite psub_zero in U. split; [discriminate|]. intros [H _]. congruence.
Qed.
Lemma edge_distance_some q a b d : edge_distance q (a, b) = Some d ->
  exists x, on_segment a b x /\ dist q x = d /\
    (forall y t, y = between a b t -> d <= dist q y).
Proof.
  unfold edge_distance. destruct (projection_on_edge q (a, b)) eqn:P; [|discriminate].
  apply projection_iff in P. destruct P as [N P].
  destruct (signed_perp_distance q (a, b)) as [s|] eqn:S; [|discriminate].
  cbn [option_map]. intros H. injection H as <-. apply perp_some in S. destruct S as [_ [L ->]].
  set (k := foot_parameter q a b) in *. set (l := norm (psub b a)) in *.
  assert (El := norm_sqr (psub b a)). fold l in El.
  set (u := fst b - fst a) in *. set (w := snd b - snd a) in *.
  set (x := fst q - fst a). set (y := snd q - snd a).
  assert (El' : l * l = u * u + w * w) by exact El.
  assert (Ek : k * (l * l) = u * x + w * y).
  { unfold k, foot_parameter. fold l. unfold dot, psub. cbn [fst snd]. fold u w x y. field. lra. }
  assert (Ec : cross (psub b a) (psub q a) = u * y - w * x) by reflexivity.
  assert (Es : Rabs (- cross (psub b a) (psub q a) / l) * Rabs (- cross (psub b a) (psub q a) / l)
               = (u * y - w * x) * (u * y - w * x) / (l * l)).
  { rewrite <- Rabs_mult, Rabs_pos_eq by nra. rewrite Ec. field. lra. }
  assert (Hmin : forall t, Rabs (- cross (psub b a) (psub q a) / l) <= dist q (between a b t)).
  { intros t. apply sqr_le; [apply dist_nonneg|]. rewrite Es, dist_sqr. unfold between. cbn [fst snd].
    fold u w. replace (fst q - (fst a + t * u)) with (x - t * u) by (unfold x; ring).
    replace (snd q - (snd a + t * w)) with (y - t * w) by (unfold y; ring).
    apply Rmult_le_reg_r with (l * l); [nra|].
    replace ((u * y - w * x) * (u * y - w * x) / (l * l) * (l * l)) with ((u * y - w * x) * (u * y - w * x)) by (field; lra).
    rewrite El'. assert (Q := Rle_0_sqr ((x - t * u) * u + (y - t * w) * w)). unfold Rsqr in Q. nra. }
  exists (between a b k). split; [now exists k|]. split.
  - rewrite dist_norm. apply norm_unique; [apply Rabs_pos|]. rewrite Es. unfold psub, between. cbn [fst snd].
    fold u w. replace (fst q - (fst a + k * u)) with (x - k * u) by (unfold x; ring).
    replace (snd q - (snd a + k * w)) with (y - k * w) by (unfold y; ring).
    apply Rmult_eq_reg_r with (l * l); [|nra].
    replace ((u * y - w * x) * (u * y - w * x) / (l * l) * (l * l)) with ((u * y - w * x) * (u * y - w * x)) by (field; lra).
    replace (((x - k * u) * (x - k * u) + (y - k * w) * (y - k * w)) * (l * l))
      with ((x * x + y * y) * (l * l) - 2 * (k * (l * l)) * (u * x + w * y) + (k * (l * l)) * k * (u * u + w * w)) by ring.
    rewrite Ek. replace ((u * x + w * y) * k * (u * u + w * w)) with ((u * x + w * y) * (k * (u * u + w * w))) by ring.
    assert (Ek2 : k * (u * u + w * w) = u * x + w * y) by (rewrite <- El'; exact Ek).
    rewrite Ek2, El'. ring.
  - intros z t ->. apply Hmin.
Qed.
(** Outside the edge the nearest point is an end point. *)
Lemma edge_distance_none q a b x : edge_distance q (a, b) = None -> on_segment a b x ->
  dist q a <= dist q x \/ dist q b <= dist q x.
Proof.
  unfold edge_distance. intros H [t [Ht ->]].
  destruct (Req_EM_T (dist a b) 0) as [E|E].
  - apply dist_zero in E. subst b. left. replace (between a a t) with a; [lra|].
    destruct a. unfold between. cbn [fst snd]. f_equal; ring.
  - assert (N : a <> b) by (intros C; apply E; now apply dist_zero).
    destruct (perp_exists q a b N) as [s Hs]. rewrite Hs in H.
    destruct (projection_on_edge q (a, b)) eqn:P; [discriminate|].
    assert (L := proj1 (proj2 (perp_some _ _ _ _ Hs))).
    assert (K : foot_parameter q a b < 0 \/ 1 < foot_parameter q a b).
    { destruct (Rlt_dec (foot_parameter q a b) 0); [now left|]. destruct (Rlt_dec 1 (foot_parameter q a b)); [now right|].
      exfalso. assert (T : projection_on_edge q (a, b) = true) by (apply projection_iff; split; [assumption|lra]). congruence. }
    set (k := foot_parameter q a b) in *. set (l := norm (psub b a)) in *.
    assert (El := norm_sqr (psub b a)). fold l in El.
    set (u := fst b - fst a) in *. set (w := snd b - snd a) in *.
    set (x := fst q - fst a). set (y := snd q - snd a).
    assert (El' : l * l = u * u + w * w) by exact El.
    assert (Ek : k * (l * l) = u * x + w * y).
    { unfold k, foot_parameter. fold l. unfold dot, psub. cbn [fst snd]. fold u w x y. field. lra. }
    assert (Ll : 0 < l * l) by nra.
    destruct K as [K|K]; [left|right]; apply sqr_le; try apply dist_nonneg; rewrite !dist_sqr; unfold between; cbn [fst snd].
    + fold u w x y. replace (fst q - (fst a + t * u)) with (x - t * u) by (unfold x; ring).
      replace (snd q - (snd a + t * w)) with (y - t * w) by (unfold y; ring).
      assert (k * (l * l) <= 0) by nra. assert (0 <= t * - (k * (l * l))) by nra. nra.
    + fold u w. replace (fst q - fst b) with (x - u) by (unfold x, u; ring).
      replace (snd q - snd b) with (y - w) by (unfold y, w; ring).
      replace (fst q - (fst a + t * u)) with (x - t * u) by (unfold x; ring).
      replace (snd q - (snd a + t * w)) with (y - t * w) by (unfold y; ring).
      assert (l * l <= k * (l * l)) by nra.
      assert (D : (x - t * u) * (x - t * u) + (y - t * w) * (y - t * w) - ((x - u) * (x - u) + (y - w) * (y - w))
                  = (1 - t) * (2 * (u * x + w * y) - (1 + t) * (u * u + w * w))) by ring.
      rewrite <- Ek, <- El' in D. assert (0 <= (1 - t) * (2 * (k * (l * l)) - (1 + t) * (l * l))); [|lra].
      apply Rmult_le_pos; [lra|]. nra.
Qed.

(** ** The minimum *)
Lemma reduce_min_acc l : forall acc,
  match fold_left min_inf l acc with
  | Some m => (acc = Some m \/ In (Some m) l) /\ (forall x, acc = Some x \/ In (Some x) l -> m <= x)
  | None => acc = None /\ forall x, ~ In (Some x) l
  end.
Proof.
  induction l as [|a l IH]; intros acc; cbn [fold_left].
  - destruct acc as [m|]; [split; [now left|]|split; [reflexivity|auto]].
    intros x [H|[]]. injection H as ->. lra.
  - specialize (IH (min_inf acc a)). destruct (fold_left min_inf l (min_inf acc a)) as [m|].
    + destruct IH as [H1 H2]. split.
      * destruct H1 as [H1|H1]; [|right; now right].
        destruct acc as [x|], a as [y|]; cbn [min_inf] in H1; try discriminate.
        -- injection H1 as <-. destruct (Rle_dec x y) as [L|L].
           ++ left. rewrite Rmin_left; auto.
           ++ right. left. rewrite Rmin_right; auto. lra.
        -- left. assumption.
        -- right. left. assumption.
      * intros x Hx. destruct acc as [c|], a as [y|]; cbn [min_inf] in H2.
        -- destruct Hx as [Hx|[Hx|Hx]]; [| |apply H2; now right].
           ++ injection Hx as ->. assert (Z := H2 _ (or_introl eq_refl)). assert (M := Rmin_l x y). lra.
           ++ injection Hx as ->. assert (Z := H2 _ (or_introl eq_refl)). assert (M := Rmin_r c x). lra.
        -- destruct Hx as [Hx|[Hx|Hx]]; [apply H2; now left|discriminate|apply H2; now right].
        -- destruct Hx as [Hx|[Hx|Hx]]; [discriminate|apply H2; now left|apply H2; now right].
        -- destruct Hx as [Hx|[Hx|Hx]]; [discriminate|discriminate|apply H2; now right].
    + destruct IH as [H1 H2]. destruct acc as [c|], a as [y|]; cbn [min_inf] in H1; try discriminate.
      split; [reflexivity|]. intros x [H|H]; [discriminate|now apply (H2 x)].
Qed.
Lemma reduce_min_some l : (exists x, In (Some x) l) ->
  exists m, reduce_min l = Some m /\ In (Some m) l /\ forall x, In (Some x) l -> m <= x.
Proof.
  intros [x Hx]. assert (H := reduce_min_acc l None). unfold reduce_min.
  destruct (fold_left min_inf l None) as [m|].
  - exists m. destruct H as [H1 H2]. destruct H1 as [H1|H1]; [discriminate|]. auto.
  - exfalso. now apply (proj2 H x).
Qed.

(** ** The distance to the boundary *)
Lemma signed_distance_boundary q poly : poly <> [] -> exists m,
  signed_distance q poly = Some (if is_inside q poly then - m else m) /\ distance_to (on_boundary poly) q m.
Proof.
  intros Hp. unfold signed_distance.
  set (l := map (edge_distance q) (edges poly) ++ map (fun p => Some (norm (psub q p))) poly).
  destruct (reduce_min_some l) as [m [E [Hm Hmin]]].
  { exists (norm (psub q (vertex poly 0))). apply in_or_app. right. apply in_map_iff.
    exists (vertex poly 0). split; [reflexivity|]. now apply vertex_in. }
  exists m. rewrite E. split; [reflexivity|]. split.
  - apply in_app_or in Hm. destruct Hm as [Hm|Hm]; apply in_map_iff in Hm.
    + destruct Hm as [e [He Hin]]. apply edges_in in Hin. destruct Hin as [i [Hi ->]].
      apply edge_distance_some in He. destruct He as [x [Hx [Hd _]]]. exists x. split; [now exists i|assumption].
    + destruct Hm as [p [Hd Hin]]. injection Hd as Hd. apply in_vertex in Hin. destruct Hin as [i [Hi ->]].
      exists (vertex poly i). split; [|now rewrite dist_norm]. exists i. apply on_segment_l.
  - intros x [i0 Hx].
    assert (Hv : forall i, m <= dist q (vertex poly i)).
    { intros i. rewrite dist_norm. apply Hmin. apply in_or_app. right. apply in_map_iff.
      exists (vertex poly i). split; [reflexivity|]. now apply vertex_in. }
    destruct (edge_distance q (vertex poly i0, vertex poly (S i0))) as [d|] eqn:D.
    + assert (m <= d).
      { apply Hmin. apply in_or_app. left. rewrite <- D. apply in_map. apply edges_in.
        assert (Hn : length poly <> 0%nat) by (destruct poly; [congruence|discriminate]).
        exists (i0 mod length poly)%nat. split; [now apply Nat.mod_upper_bound|].
        unfold vertex. rewrite Nat.mod_mod by assumption. f_equal. f_equal.
        rewrite <- (Nat.add_1_r i0), <- (Nat.add_1_r (i0 mod length poly)).
        rewrite Nat.add_mod_idemp_l by assumption. reflexivity. }
      apply edge_distance_some in D. destruct D as [_ [_ [_ Hd]]]. destruct Hx as [t [_ Hx]].
      assert (d <= dist q x) by (now apply (Hd x t)). lra.
    + destruct (edge_distance_none _ _ _ _ D Hx) as [H|H].
      * assert (Z := Hv i0). lra.
      * assert (Z := Hv (S i0)). lra.
Qed.

(** ** Inside and outside *)
Lemma inside_iff q poly : poly <> [] -> is_inside q poly = true <->
  proper_edges poly /\ forall i, 0 <= turn (vertex poly i) (vertex poly (S i)) q.
Proof.
  intros Hp. unfold is_inside. rewrite forallb_forall.
  assert (Hn : length poly <> 0%nat) by (destruct poly; [congruence|discriminate]).
  assert (Hmod : forall i, (vertex poly i, vertex poly (S i))
      = (vertex poly (i mod length poly), vertex poly (S (i mod length poly)))).
  { intros i. unfold vertex. rewrite Nat.mod_mod by assumption. f_equal. f_equal.
    rewrite <- (Nat.add_1_r i), <- (Nat.add_1_r (i mod length poly)).
    rewrite Nat.add_mod_idemp_l by assumption. reflexivity. }
  split.
  - intros H. assert (A : forall i, vertex poly i <> vertex poly (S i) /\
        0 <= cross (psub (vertex poly (S i)) (vertex poly i)) (psub q (vertex poly i))).
    { intros i. apply inward_iff, H. rewrite Hmod. apply edges_in. exists (i mod length poly)%nat.
      split; [now apply Nat.mod_upper_bound|reflexivity]. }
    split; intros i; [apply A|rewrite turn_cross; apply A].
  - intros [H1 H2] e He. apply edges_in in He. destruct He as [i [Hi ->]]. apply inward_iff.
    split; [apply H1|rewrite <- turn_cross; apply H2].
Qed.

Section Convex.
Variable poly : list point.
Hypothesis Hc : convex_polygon poly.
Hypothesis He : proper_edges poly.

Lemma poly_ne : poly <> [].
Proof. destruct Hc as [H _]. exact H. Qed.
Lemma poly_len : (0 < length poly)%nat.
Proof. assert (H := poly_ne). destruct poly; [congruence|cbn; lia]. Qed.
Lemma poly_per i : vertex poly (i + length poly) = vertex poly i.
Proof. apply vertex_period, poly_ne. Qed.
Lemma poly_edge i : vertex poly (S i) <> vertex poly i.
Proof. intros C. symmetry in C. exact (He i C). Qed.
Lemma poly_left i j : 0 <= cross (psub (vertex poly (S i)) (vertex poly i)) (psub (vertex poly j) (vertex poly i)).
Proof. rewrite <- turn_cross. destruct Hc as [_ [H _]]. apply H. Qed.
Lemma poly_nd i : exists j, 0 < cross (psub (vertex poly (S i)) (vertex poly i)) (psub (vertex poly j) (vertex poly i)).
Proof.
  destruct Hc as [_ [_ [a [b [c Habc]]]]].
  set (e := psub (vertex poly (S i)) (vertex poly i)).
  assert (Ne : e <> (0, 0)) by (unfold e; rewrite psub_zero; apply poly_edge).
  assert (D : forall j, cross e (psub (vertex poly j) (vertex poly i)) = 0 \/ 0 < cross e (psub (vertex poly j) (vertex poly i))).
  { intros j. assert (H := poly_left i j). fold e in H. lra. }
  destruct (D a) as [Za|]; [|now exists a]. destruct (D b) as [Zb|]; [|now exists b]. destruct (D c) as [Zc|]; [|now exists c].
  exfalso. apply Habc.
  destruct (parallel _ _ Ne Za) as [ta Ea]. destruct (parallel _ _ Ne Zb) as [tb Eb]. destruct (parallel _ _ Ne Zc) as [tc Ec].
  unfold psub in Ea, Eb, Ec. apply pair_equal_spec in Ea, Eb, Ec. destruct Ea as [A1 A2], Eb as [B1 B2], Ec as [C1 C2].
  unfold turn.
  replace (fst (vertex poly b) - fst (vertex poly a)) with (tb * fst e - ta * fst e) by lra.
  replace (snd (vertex poly c) - snd (vertex poly a)) with (tc * snd e - ta * snd e) by lra.
  replace (snd (vertex poly b) - snd (vertex poly a)) with (tb * snd e - ta * snd e) by lra.
  replace (fst (vertex poly c) - fst (vertex poly a)) with (tc * fst e - ta * fst e) by lra.
  ring.
Qed.
Lemma is_inside_all q : is_inside q poly = true <-> inside_all (vertex poly) q.
Proof.
  rewrite inside_iff by exact poly_ne. unfold inside_all. split.
  - intros [_ H] i. rewrite <- turn_cross. apply H.
  - intros H. split; [exact He|]. intros i. rewrite turn_cross. apply H.
Qed.
Lemma hull_inside x : hull poly x <-> inside_all (vertex poly) x.
Proof.
  split.
  - intros H. apply H.
    + intros a b y Ha Hb Hy. now apply (inside_convex (vertex poly) a b).
    + intros p Hp. apply in_vertex in Hp. destruct Hp as [i [_ ->]]. intros k. apply poly_left.
  - intros H C HC HV. apply (inside_hull (length poly) (vertex poly) poly_len poly_per poly_edge poly_left poly_nd x H C HC).
    intros i. apply HV, vertex_in, poly_ne.
Qed.
Lemma is_inside_hull q : is_inside q poly = true <-> hull poly q.
Proof. rewrite is_inside_all, hull_inside. reflexivity. Qed.
Lemma boundary_hull x : on_boundary poly x -> hull poly x.
Proof.
  intros [i Hx] C HC HV. apply (HC (vertex poly i) (vertex poly (S i))); [apply HV, vertex_in, poly_ne|apply HV, vertex_in, poly_ne|exact Hx].
Qed.
Lemma segment_crosses x q : hull poly x -> ~ hull poly q -> exists y T,
  0 <= T <= 1 /\ y = between x q T /\ on_boundary poly y.
Proof.
  rewrite !hull_inside. intros Hx Hq.
  exact (crossing (length poly) (vertex poly) poly_len poly_per poly_edge poly_left poly_nd x q Hx Hq).
Qed.

Lemma outside_distance q : ~ hull poly q -> exists d, signed_distance q poly = Some d /\ 0 < d /\ distance_to (hull poly) q d.
Proof.
  intros Hq. destruct (signed_distance_boundary q poly poly_ne) as [m [E [[x [Hx Hxm]] Hmin]]].
  assert (I : is_inside q poly = false).
  { destruct (is_inside q poly) eqn:I; [|reflexivity]. exfalso. now apply Hq, is_inside_hull. }
  rewrite I in E. exists m. split; [exact E|].
  assert (Hh := boundary_hull x Hx). split.
  - rewrite <- Hxm. destruct (Rle_lt_or_eq_dec _ _ (dist_nonneg q x)) as [L|Z]; [exact L|].
    exfalso. symmetry in Z. apply dist_zero in Z. now subst q.
  - split; [now exists x|]. intros z Hz. destruct (segment_crosses z q Hz Hq) as [y [T [HT [Ey Hy]]]].
    assert (L := Hmin y Hy). rewrite Ey, dist_sym, dist_between_r, dist_sym in L by lra.
    assert (P := dist_nonneg q z). nra.
Qed.
Lemma inside_distance q : hull poly q -> exists d, signed_distance q poly = Some (- d) /\ 0 <= d /\
  distance_to (on_boundary poly) q d /\ forall x, dist q x < d -> hull poly x.
Proof.
  intros Hq. destruct (signed_distance_boundary q poly poly_ne) as [m [E Hm]].
  rewrite (proj2 (is_inside_hull q) Hq) in E. exists m. split; [exact E|].
  assert (Hm0 : 0 <= m) by (destruct Hm as [[x [_ <-]] _]; apply dist_nonneg).
  split; [exact Hm0|]. split; [exact Hm|]. intros x Hx.
  destruct (is_inside x poly) eqn:I; [now apply is_inside_hull|]. exfalso.
  assert (Ho : ~ hull poly x) by (intros C; apply is_inside_hull in C; congruence).
  destruct (segment_crosses q x Hq Ho) as [y [T [HT [Ey Hy]]]].
  assert (L := proj2 Hm y Hy). rewrite Ey, dist_between_l in L by lra.
  assert (P := dist_nonneg q x). nra.
Qed.
End Convex.

(** A repeated vertex makes every point count as outside. *)
Lemma repeated_outside q poly i : poly <> [] -> vertex poly i = vertex poly (S i) ->
  exists d, signed_distance q poly = Some d /\ 0 <= d /\ distance_to (on_boundary poly) q d.
Proof.
  intros Hp Hi. destruct (signed_distance_boundary q poly Hp) as [m [E Hm]].
  assert (I : is_inside q poly = false).
  { destruct (is_inside q poly) eqn:I; [|reflexivity]. exfalso. apply inside_iff in I; [|assumption].
    destruct I as [I _]. exact (I i Hi). }
  rewrite I in E. exists m. split; [exact E|]. split; [|exact Hm].
  destruct Hm as [[x [_ <-]] _]. apply dist_nonneg.
Qed.
Lemma boundary_abs q poly : poly <> [] ->
  exists d, signed_distance q poly = Some d /\ distance_to (on_boundary poly) q (Rabs d).
Proof.
  intros Hp. destruct (signed_distance_boundary q poly Hp) as [m [E Hm]].
  assert (0 <= m) by (destruct Hm as [[x [_ <-]] _]; apply dist_nonneg).
  eexists. split; [exact E|]. destruct (is_inside q poly); [rewrite Rabs_Ropp|]; rewrite Rabs_pos_eq by assumption; exact Hm.
Qed.
