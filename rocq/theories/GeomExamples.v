(** Concrete polygons, boxes and scenes. *)
From Coq Require Import Reals Lra Psatz List Lia.
From Verif Require Import Base GeomModel GeomSpec GeomSceneSpec GeomBase GeomConvex GeomDistProofs GeomMinkProofs GeomBoxProofs GeomNearestProofs.
Import ListNotations.
Open Scope R_scope.

Definition square : list point := [(0, 0); (1, 0); (1, 1); (0, 1)].
Lemma square_vertex i : exists k, (k = 0 \/ k = 1 \/ k = 2 \/ k = 3)%nat /\ vertex square i = vertex square k /\
  vertex square (S i) = vertex square (S k).
Proof.
  exists (i mod 4)%nat. split.
  - assert (i mod 4 < 4)%nat by (apply Nat.mod_upper_bound; lia). lia.
  - unfold vertex. change (length square) with 4%nat. rewrite Nat.mod_mod by lia. split; [reflexivity|].
    f_equal. replace (S i) with (i + 1)%nat by lia. replace (S (i mod 4)) with (i mod 4 + 1)%nat by lia.
    now rewrite Nat.add_mod_idemp_l by lia.
Qed.
Lemma square_convex : convex_polygon square /\ proper_edges square.
Proof.
  split; [split; [discriminate|split]|].
  - intros i j. destruct (square_vertex i) as [k [Hk [-> ->]]]. destruct (square_vertex j) as [m [Hm [-> _]]].
    destruct Hk as [-> |[-> |[-> | ->]]]; destruct Hm as [-> |[-> |[-> | ->]]]; unfold turn, vertex; cbn; lra.
  - exists 0%nat, 1%nat, 2%nat. unfold turn, vertex. cbn. lra.
  - intros i. destruct (square_vertex i) as [k [Hk [-> ->]]]. unfold vertex.
    destruct Hk as [-> |[-> |[-> | ->]]]; cbn; intros C; apply pair_equal_spec in C; lra.
Qed.
Definition repeated_square : list point := [(0, 0); (0, 0); (1, 0); (1, 1); (0, 1)].
Lemma repeated_boundary x : on_boundary repeated_square x -> 1 / 2 <= dist (1 / 2, 1 / 2) x.
Proof.
  intros [i [t [Ht ->]]]. apply Rsqr_incr_0_var; [|apply dist_nonneg]. unfold Rsqr. rewrite dist_sqr.
  assert (E : exists k, (k < 5)%nat /\ vertex repeated_square i = vertex repeated_square k /\
     vertex repeated_square (S i) = vertex repeated_square (S k)).
  { exists (i mod 5)%nat. split; [apply Nat.mod_upper_bound; lia|].
    unfold vertex. change (length repeated_square) with 5%nat. rewrite Nat.mod_mod by lia. split; [reflexivity|].
    f_equal. replace (S i) with (i + 1)%nat by lia. replace (S (i mod 5)) with (i mod 5 + 1)%nat by lia.
    now rewrite Nat.add_mod_idemp_l by lia. }
  destruct E as [k [Hk [-> ->]]].
  assert (Q := Rle_0_sqr (t - 1 / 2)). unfold Rsqr in Q.
  destruct k as [|[|[|[|[|k]]]]]; [..|lia]; unfold vertex, between; cbn; nra.
Qed.
Lemma repeated_refuted : exists poly q, convex_polygon poly /\ interior (hull poly) q /\
  exists d, signed_distance q poly = Some d /\ 0 < d.
Proof.
  exists repeated_square, (1 / 2, 1 / 2). split; [|split].
  - split; [discriminate|]. split.
    + intros i j.
      assert (E : forall i, exists k, (k < 5)%nat /\ vertex repeated_square i = vertex repeated_square k /\
         vertex repeated_square (S i) = vertex repeated_square (S k)).
      { intros n. exists (n mod 5)%nat. split; [apply Nat.mod_upper_bound; lia|].
        unfold vertex. change (length repeated_square) with 5%nat. rewrite Nat.mod_mod by lia. split; [reflexivity|].
        f_equal. replace (S n) with (n + 1)%nat by lia. replace (S (n mod 5)) with (n mod 5 + 1)%nat by lia.
        now rewrite Nat.add_mod_idemp_l by lia. }
      destruct (E i) as [k [Hk [-> ->]]]. destruct (E j) as [m [Hm [-> _]]].
      destruct k as [|[|[|[|[|k]]]]]; [..|lia]; destruct m as [|[|[|[|[|m]]]]]; try lia; unfold turn, vertex; cbn; lra.
    + exists 1%nat, 2%nat, 3%nat. unfold turn, vertex. cbn. lra.
  - destruct square_convex as [Hc He].
    assert (I : hull square (1 / 2, 1 / 2)).
    { apply (proj2 (hull_inside square Hc He _)). intros i. destruct (square_vertex i) as [k [Hk [E1 E2]]]. rewrite E1, E2.
      unfold vertex. destruct Hk as [-> |[-> |[-> | ->]]]; unfold cross, psub; cbn; lra. }
    destruct (inside_distance square Hc He _ I) as [d [E [Hd [Hb Hball]]]].
    assert (D : 1 / 2 <= d).
    { destruct Hb as [[x [[i [t [Ht ->]]] <-]] _]. destruct (square_vertex i) as [k [Hk [-> ->]]].
      apply Rsqr_incr_0_var; [|apply dist_nonneg]. unfold Rsqr. rewrite dist_sqr.
      assert (Q := Rle_0_sqr (t - 1 / 2)). unfold Rsqr in Q.
      destruct Hk as [-> |[-> |[-> | ->]]]; unfold vertex, between; cbn; nra. }
    exists (1 / 2). split; [lra|]. intros x Hx C HC HV. apply (Hball x ltac:(lra) C HC).
    intros p Hp. apply HV. cbn in Hp |- *. tauto.
  - destruct (repeated_outside (1 / 2, 1 / 2) repeated_square 0) as [d [E [Hd [[x [Hx Hxd]] _]]]]; [discriminate|reflexivity|].
    exists d. split; [exact E|]. assert (H := repeated_boundary x Hx). lra.
Qed.

(** Two crossing capsules. *)
Definition capsule_1 : obox := {| bx := 0; by_ := 0; blength := 10; bwidth := 2; bheading := 0 |}.
Definition capsule_2 : obox := {| bx := 0; by_ := 0; blength := 10; bwidth := 2; bheading := PI / 2 |}.
Lemma rmin_10_2 : Rmin 10 2 = 2. Proof. apply Rmin_right. lra. Qed.
Lemma capsule_corners_1 : box_corners (core 1 capsule_1) = Quad (4, 0) (-4, 0) (-4, 0) (4, 0).
Proof.
  unfold box_corners, core, shrinking_distance, capsule_1, padd, rotate. cbn [blength bwidth bx by_ bheading fst snd].
  rewrite rmin_10_2, cos_0, sin_0. f_equal; f_equal; lra.
Qed.
Lemma capsule_corners_2 : neg_quad (box_corners (core 1 capsule_2)) = Quad (0, -4) (0, 4) (0, 4) (0, -4).
Proof.
  unfold box_corners, core, shrinking_distance, capsule_2, neg_quad, pneg, padd, rotate.
  cbn [blength bwidth bx by_ bheading fst snd c0 c1 c2 c3].
  rewrite rmin_10_2, cos_PI2, sin_PI2. f_equal; f_equal; lra.
Qed.
Lemma rltb_t a b : a < b -> rltb a b = true. Proof. intros. now apply rltb_iff. Qed.
Lemma rltb_f a b : b <= a -> rltb a b = false. Proof. intros. now apply rltb_false. Qed.
Lemma unit_cross x y u v : unit_vector x = Some u -> unit_vector y = Some v -> cross x y < 0 -> cross u v < 0.
Proof.
  intros Hu Hv H. apply unit_vector_some in Hu. apply unit_vector_some in Hv.
  destruct Hu as [_ [P1 [E1 _]]]. destruct Hv as [_ [P2 [E2 _]]].
  assert (E : cross x y = norm x * norm y * cross u v).
  { rewrite E1 at 1. rewrite E2 at 1. unfold cross. cbn [fst snd]. ring. }
  assert (0 < norm x * norm y) by (apply Rmult_lt_0_compat; lra). rewrite E in H.
  destruct (Rlt_dec (cross u v) 0) as [L|L]; [assumption|]. exfalso.
  assert (0 <= norm x * norm y * cross u v) by (apply Rmult_le_pos; lra). lra.
Qed.
Lemma capsule_sum : minkowski_sum (box_corners (core 1 capsule_1)) (neg_quad (box_corners (core 1 capsule_2)))
  = [(4, -4); (4, 4); (-4, 4); (-4, 4); (-4, 4); (-4, -4); (4, -4); (4, -4)].
Proof.
  rewrite capsule_corners_1, capsule_corners_2.
  assert (D1 : downmost (Quad (4, 0) (-4, 0) (-4, 0) (4, 0)) = 0%nat).
  { unfold downmost, corner. cbn. repeat (rewrite (rltb_f 0 0) by lra; cbn). reflexivity. }
  assert (D2 : downmost (Quad (0, -4) (0, 4) (0, 4) (0, -4)) = 0%nat).
  { unfold downmost, corner. cbn. repeat (rewrite (rltb_f 4 (-4)) by lra; cbn). repeat (rewrite (rltb_f (-4) (-4)) by lra; cbn). reflexivity. }
  assert (C : minkowski_condition (Quad (4, 0) (-4, 0) (-4, 0) (4, 0)) (Quad (0, -4) (0, 4) (0, 4) (0, -4)) = false).
  { unfold minkowski_condition, downmost_direction. rewrite D1, D2. cbn [corner Nat.add Nat.modulo c0 c1].
    change (corner (Quad (4, 0) (-4, 0) (-4, 0) (4, 0)) (0 + 1)) with (-4, 0).
    destruct (unit_vector _) as [u|] eqn:E1; [|reflexivity]. destruct (unit_vector (psub _ (corner (Quad (0, -4) _ _ _) _))) as [v|] eqn:E2; [|reflexivity].
    apply rleb_false. apply (unit_cross _ _ _ _ E1 E2). unfold cross, psub, corner. cbn. lra. }
  unfold minkowski_sum. rewrite C, D1, D2. cbn [point_order_1 point_order_2 combine map fst snd Nat.add].
  unfold corner, padd. cbn. repeat (apply f_equal2; [f_equal; lra|]). reflexivity.
Qed.
Lemma capsule_boundary x :
  on_boundary [(4, -4); (4, 4); (-4, 4); (-4, 4); (-4, 4); (-4, -4); (4, -4); (4, -4)] x -> 4 <= dist (0, 0) x.
Proof.
  set (poly := [(4, -4); (4, 4); (-4, 4); (-4, 4); (-4, 4); (-4, -4); (4, -4); (4, -4)]).
  intros [i [t [Ht ->]]]. apply Rsqr_incr_0_var; [|apply dist_nonneg]. unfold Rsqr. rewrite dist_sqr.
  assert (E : exists k, (k < 8)%nat /\ vertex poly i = vertex poly k /\ vertex poly (S i) = vertex poly (S k)).
  { exists (i mod 8)%nat. split; [apply Nat.mod_upper_bound; lia|].
    unfold vertex. change (length poly) with 8%nat. rewrite Nat.mod_mod by lia. split; [reflexivity|].
    f_equal. replace (S i) with (i + 1)%nat by lia. replace (S (i mod 8)) with (i mod 8 + 1)%nat by lia.
    now rewrite Nat.add_mod_idemp_l by lia. }
  destruct E as [k [Hk [-> ->]]]. assert (Q := Rle_0_sqr (t - 1 / 2)). unfold Rsqr in Q.
  destruct k as [|[|[|[|[|[|[|[|k]]]]]]]]; [..|lia]; unfold poly, vertex, between; cbn; nra.
Qed.
Lemma capsule_refuted : exists a b, 0 < blength a /\ 0 < bwidth a /\ 0 < blength b /\ 0 < bwidth b /\
  overlap 1 a b /\ exists d, box_distance 1 a b = Ok d /\ 2 <= d.
Proof.
  exists capsule_1, capsule_2. cbn [capsule_1 capsule_2 blength bwidth]. repeat (split; [lra|]). split.
  - assert (H : forall h, interior (box_shape 1 {| bx := 0; by_ := 0; blength := 10; bwidth := 2; bheading := h |}) (0, 0)).
    { intros h. exists 1. split; [lra|]. intros x Hx. exists (0, 0). cbn [bx by_ blength bwidth bheading]. rewrite rmin_10_2. split.
      - exists 0, 0. split; [lra|]. split; [lra|]. f_equal; ring.
      - rewrite dist_sym. lra. }
    exists (0, 0). split; apply H.
  - unfold box_distance. rewrite capsule_sum.
    set (poly := [(4, -4); (4, 4); (-4, 4); (-4, 4); (-4, 4); (-4, -4); (4, -4); (4, -4)]).
    destruct (repeated_outside (0, 0) poly 2) as [d [E [_ [[x [Hx Hxd]] _]]]]; [discriminate|reflexivity|].
    rewrite E. eexists. split; [reflexivity|]. unfold shrinking_distance. cbn [capsule_1 capsule_2 blength bwidth].
    rewrite rmin_10_2. assert (H := capsule_boundary x Hx). lra.
Qed.

(** A scene of two cars, one of them evaluated. *)
Definition car_1 : obox := {| bx := 0; by_ := 0; blength := 4; bwidth := 2; bheading := 0 |}.
Definition car_2 : obox := {| bx := 1; by_ := 1 / 2; blength := 4; bwidth := 2; bheading := 1 |}.
Definition scene : list (list (obox * bool)) := [[(car_1, true); (car_1, true)]; [(car_2, true); (car_2, false)]].
Definition scene_mask : list bool := [false; true].
Lemma scene_sized : sized scene.
Proof.
  intros g t b. unfold valid_at, at_step, scene.
  destruct g as [|[|g]]; cbn [nth_error]; [| |destruct g; discriminate];
    (destruct t as [|[|t]]; cbn [nth_error]; [| |destruct t; discriminate]); intros H; try discriminate; injection H as <-;
    unfold car_1, car_2; cbn [blength bwidth]; lra.
Qed.
Lemma car_centre b : 0 < blength b -> 0 < bwidth b -> forall x y : R,
  dist (x, y) (bx b, by_ b) < Rmin (blength b) (bwidth b) * (7 / 10) / 2 -> interior (box_shape (7 / 10) b) (x, y).
Proof.
  intros Hl Hw x y H. apply (rounded_interior (7 / 10) b (bx b, by_ b)).
  - assert (C := core_pos (7 / 10) ltac:(lra) b Hl Hw). now apply (strict_centre (core (7 / 10) b)).
  - now apply (core_pos (7 / 10) ltac:(lra) b Hl Hw).
  - right. exact H.
Qed.
Lemma dist_lt p q r : 0 < r -> (fst p - fst q) * (fst p - fst q) + (snd p - snd q) * (snd p - snd q) < r * r -> dist p q < r.
Proof. intros Hr H. apply sqr_lt; [lra|]. now rewrite dist_sqr. Qed.
Lemma cars_overlap : overlap (7 / 10) car_2 car_1.
Proof.
  exists (1 / 2, 1 / 4). assert (M : Rmin 4 2 = 2) by (apply Rmin_right; lra).
  split; apply car_centre; unfold car_1, car_2; cbn [blength bwidth bx by_]; try lra;
    rewrite M; apply dist_lt; cbn [fst snd]; lra.
Qed.

