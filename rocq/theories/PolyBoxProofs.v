(** Boxes, their common area and its ratio to the area of the union. *)
From Coq Require Import Reals Lra Psatz List Arith Lia Bool.
From Verif Require Import Base GeomModel GeomBase PolyModel PolySpec PolySegProofs PolyChain PolyPair PolyPass PolyPath PolyExact PolyTurning PolyVertices PolyInside PolyComplete PolyMeet PolyArea PolySame.
Import ListNotations.
Open Scope R_scope.

Definition place (x y h : R) (p : pt) : pt := (x + cos h * fst p - sin h * snd p, y + sin h * fst p + cos h * snd p).
Lemma turn_place x y h a b z : turn (place x y h a) (place x y h b) (place x y h z) = turn a b z.
Proof.
  unfold turn, place; cbn [fst snd]. pose proof (sincos h) as T.
  transitivity ((sin h * sin h + cos h * cos h) * ((fst b - fst a) * (snd z - snd a) - (snd b - snd a) * (fst z - fst a))); [ring | rewrite T; ring].
Qed.
Definition local (l w : R) : list pt := [(- (l / 2), w / 2); (- (l / 2), - (w / 2)); (l / 2, - (w / 2)); (l / 2, w / 2)].
Lemma box_place b : blength b <> 0 -> box_polygon b = map (place (bx b) (by_ b) (bheading b)) (local (blength b) (bwidth b)).
Proof.
  intros L. unfold box_polygon, local. cbn [map]. unfold reqb. destruct (Req_EM_T (blength b) 0) as [E|_]; [contradiction|].
  unfold padd, psub, place; cbn [fst snd]. repeat (match goal with |- _ :: _ = _ :: _ => apply f_equal2 end); auto; apply pair_equal_spec; split; field; auto.
Qed.
Lemma placed_corner f (L : list pt) i : (0 < length L)%nat -> corner (map f L) i = f (corner L i).
Proof.
  intros N. unfold corner. rewrite map_length. rewrite (nth_indep _ (0, 0) (f (0, 0))) by (rewrite map_length; apply Nat.mod_upper_bound; lia).
  apply map_nth.
Qed.
Lemma four i : let k := Nat.modulo i 4 in (k = 0 /\ Nat.modulo (S i) 4 = 1 \/ k = 1 /\ Nat.modulo (S i) 4 = 2 \/ k = 2 /\ Nat.modulo (S i) 4 = 3 \/ k = 3 /\ Nat.modulo (S i) 4 = 0)%nat.
Proof.
  intros k. destruct (mod_next i 4 ltac:(lia)) as [[M1 ->]|[M1 ->]]; fold k in M1 |- *; lia.
Qed.
Lemma local_convex l w : 0 < l -> 0 < w -> convex (local l w).
Proof.
  intros L W. split; [cbn; lia|]. intros i j. unfold corner. cbn [local length].
  assert (LW : 0 < l * w) by (apply Rmult_lt_0_compat; auto).
  destruct (four i) as [[-> ->]|[[-> ->]|[[-> ->]|[-> ->]]]];
    destruct (four j) as [[-> _]|[[-> _]|[[-> _]|[-> _]]]]; intros H1 H2; try (exfalso; lia); cbn [nth local]; unfold turn; cbn [fst snd]; lra.
Qed.
Lemma local_inside l w z : 0 < l -> 0 < w -> inside (local l w) z <-> Rabs (fst z) <= l / 2 /\ Rabs (snd z) <= w / 2.
Proof.
  intros L W. split.
  - intros [_ H]. pose proof (H 0%nat) as H0. pose proof (H 1%nat) as H1. pose proof (H 2%nat) as H2. pose proof (H 3%nat) as H3.
    unfold corner, turn in *. cbn [local length Nat.modulo Nat.divmod snd Nat.sub nth fst] in *.
    assert (M : forall a b, 0 < a -> 0 <= a * b -> 0 <= b) by (intros a b A B; apply (Rmult_le_reg_l a); lra).
    assert (0 <= fst z + l / 2) by (apply (M w); lra). assert (0 <= snd z + w / 2) by (apply (M l); lra).
    assert (0 <= l / 2 - fst z) by (apply (M w); lra). assert (0 <= w / 2 - snd z) by (apply (M l); lra).
    split; apply Rabs_le; lra.
  - intros [X Y]. assert (X' : - (l / 2) <= fst z <= l / 2) by (unfold Rabs in X; destruct (Rcase_abs _) in X; lra).
    assert (Y' : - (w / 2) <= snd z <= w / 2) by (unfold Rabs in Y; destruct (Rcase_abs _) in Y; lra).
    split; [discriminate|]. intros i. unfold corner. cbn [local length].
    assert (0 <= w * (fst z + l / 2)) by (apply Rmult_le_pos; lra). assert (0 <= l * (snd z + w / 2)) by (apply Rmult_le_pos; lra).
    assert (0 <= w * (l / 2 - fst z)) by (apply Rmult_le_pos; lra). assert (0 <= l * (w / 2 - snd z)) by (apply Rmult_le_pos; lra).
    destruct (four i) as [[-> ->]|[[-> ->]|[[-> ->]|[-> ->]]]]; cbn [nth local]; unfold turn; cbn [fst snd]; lra.
Qed.
Theorem box_convex b : 0 < blength b -> 0 < bwidth b -> convex (box_polygon b).
Proof.
  intros L W. rewrite box_place by lra. destruct (local_convex _ _ L W) as [N H]. split; [now rewrite map_length|].
  intros i j. rewrite map_length. intros H1 H2. rewrite !placed_corner by lia. rewrite turn_place. now apply H.
Qed.
Theorem box_inside b z : 0 < blength b -> 0 < bwidth b ->
  inside (box_polygon b) z <-> in_rectangle (bx b) (by_ b) (blength b) (bwidth b) (bheading b) z.
Proof.
  intros L W. rewrite box_place by lra. set (x := bx b). set (y := by_ b). set (h := bheading b).
  set (u := (cos h * (fst z - x) + sin h * (snd z - y), - sin h * (fst z - x) + cos h * (snd z - y)) : pt).
  assert (E : z = place x y h u).
  { unfold place, u; cbn [fst snd]. destruct z as [z1 z2]; cbn [fst snd]. pose proof (sincos h) as T. f_equal.
    - transitivity (x + (sin h * sin h + cos h * cos h) * (z1 - x)); [rewrite T|]; ring.
    - transitivity (y + (sin h * sin h + cos h * cos h) * (z2 - y)); [rewrite T|]; ring. }
  assert (I : inside (map (place x y h) (local (blength b) (bwidth b))) z <-> inside (local (blength b) (bwidth b)) u).
  { split; intros [_ H]; (split; [discriminate|]); intros i; specialize (H i); rewrite E in H || idtac.
    - rewrite !placed_corner in H by (cbn; lia). now rewrite turn_place in H.
    - rewrite E, !placed_corner by (cbn; lia). now rewrite turn_place. }
  rewrite I. rewrite (local_inside _ _ u L W). reflexivity.
Qed.
Lemma box_area b : 0 < blength b -> 0 < bwidth b -> twice_area (box_polygon b) = 2 * (blength b * bwidth b).
Proof.
  intros L W. rewrite box_place by lra. rewrite (rim_turn _ (place (bx b) (by_ b) (bheading b) (0, 0))). rewrite map_length.
  rewrite (sumn_ext _ (fun i => turn (0, 0) (corner (local (blength b) (bwidth b)) i) (corner (local (blength b) (bwidth b)) (S i)))).
  2:{ intros i _. rewrite !placed_corner by (cbn; lia). apply turn_place. }
  unfold corner, turn. cbn [local length sumn Nat.modulo Nat.divmod snd Nat.sub nth fst]. lra.
Qed.
(** Areas of intersections. *)
Lemma area_internal_value V : convex V -> area_internal V = (if Rle_dec (twice_area V) kEpsilon then 0 else twice_area V / 2).
Proof.
  intros C. unfold area_internal. rewrite fan_area by apply C. pose proof (twice_nonneg V C) as P. rewrite Rabs_right by lra.
  destruct (rleb_cases (twice_area V) kEpsilon) as [(-> & U)|(-> & U)]; destruct (Rle_dec _ _); lra.
Qed.
Theorem area_exact P Q W : convex P -> convex Q -> intersection_vertices P Q <> [] -> convex W ->
  (forall z, inside W z <-> inside P z /\ inside Q z) ->
  intersection_area P Q = (if Rle_dec (twice_area W) kEpsilon then 0 else twice_area W / 2).
Proof.
  intros CP CQ NV CW H. destruct (vertices_exact P Q CP CQ NV) as [CV HV]. unfold intersection_area.
  replace (Nat.ltb (length (intersection_vertices P Q)) 3) with false by (symmetry; apply Nat.ltb_ge; apply CV).
  rewrite area_internal_value by auto. rewrite (area_of_points W (intersection_vertices P Q)); auto.
  intros z. rewrite H, HV. reflexivity.
Qed.
Lemma no_contact_sym P Q : no_contact P Q -> no_contact Q P.
Proof. intros N i j. destruct (N j i). split; auto. Qed.
Lemma empty_decided (l : list pt) : l = [] \/ l <> [].
Proof. destruct l; [now left | right; discriminate]. Qed.
Theorem area_symmetric P Q : convex P -> convex Q -> no_contact P Q -> intersection_area P Q = intersection_area Q P.
Proof.
  intros CP CQ N.
  destruct (empty_decided (intersection_vertices P Q)) as [E|E]; destruct (empty_decided (intersection_vertices Q P)) as [E'|E'].
  - unfold intersection_area. now rewrite E, E'.
  - exfalso. destruct (vertices_exact Q P CQ CP E') as [CV HV]. set (V := intersection_vertices Q P) in *.
    assert (I : inside V (corner V 0)) by (split; [auto | intros i; now apply weakly_left]).
    apply HV in I as [I1 I2]. revert E. now apply (vertices_found P Q (corner V 0)).
  - exfalso. destruct (vertices_exact P Q CP CQ E) as [CV HV]. set (V := intersection_vertices P Q) in *.
    assert (I : inside V (corner V 0)) by (split; [auto | intros i; now apply weakly_left]).
    apply HV in I as [I1 I2]. revert E'. apply (vertices_found Q P (corner V 0)); auto. now apply no_contact_sym.
  - destruct (vertices_exact P Q CP CQ E) as [CV HV].
    rewrite (area_exact P Q _ CP CQ E CV HV). symmetry. apply area_exact; auto.
    intros z. rewrite HV. tauto.
Qed.
Lemma eps_pos : 0 < kEpsilon. Proof. unfold kEpsilon. lra. Qed.
Theorem area_bounds P b : convex P -> 0 < blength b -> 0 < bwidth b ->
  0 <= intersection_area P (box_polygon b) <= blength b * bwidth b /\ 0 <= intersection_area (box_polygon b) P <= blength b * bwidth b.
Proof.
  intros CP L W. pose proof (box_convex b L W) as CB. assert (LW : 0 < blength b * bwidth b) by (apply Rmult_lt_0_compat; auto).
  assert (K : forall V, convex V -> (forall z, inside V z -> inside (box_polygon b) z) ->
    0 <= (if Nat.ltb (length V) 3 then 0 else area_internal V) <= blength b * bwidth b).
  { intros V CV H. destruct (Nat.ltb (length V) 3); [lra|]. rewrite area_internal_value by auto. pose proof (twice_nonneg V CV).
    assert (T : twice_area V <= 2 * (blength b * bwidth b)).
    { apply (area_in_rectangle V (bx b) (by_ b) _ _ (bheading b)); auto. intros z Z. now apply box_inside, H. }
    destruct (Rle_dec _ _); lra. }
  split; unfold intersection_area.
  - destruct (empty_decided (intersection_vertices P (box_polygon b))) as [-> |N]; [cbn; lra|].
    destruct (vertices_exact _ _ CP CB N) as [CV HV]. apply K; auto. intros z Z. now apply HV in Z.
  - destruct (empty_decided (intersection_vertices (box_polygon b) P)) as [-> |N]; [cbn; lra|].
    destruct (vertices_exact _ _ CB CP N) as [CV HV]. apply K; auto. intros z Z. now apply HV in Z.
Qed.
Lemma tiny_false b : tiny b = false <-> kMinBoxDim < blength b /\ kMinBoxDim < bwidth b.
Proof.
  unfold tiny. rewrite orb_false_iff.
  destruct (rleb_cases (blength b) kMinBoxDim) as [(-> & U)|(-> & U)]; destruct (rleb_cases (bwidth b) kMinBoxDim) as [(-> & U')|(-> & U')];
    (split; [intros [A B]; try discriminate; split; lra | intros [A B]; try (exfalso; lra); auto]).
Qed.
Theorem iou_value b1 b2 : kMinBoxDim < blength b1 -> kMinBoxDim < bwidth b1 -> kMinBoxDim < blength b2 -> kMinBoxDim < bwidth b2 ->
  let a := intersection_area (box_polygon b1) (box_polygon b2) in
  let u := blength b1 * bwidth b1 + blength b2 * bwidth b2 - a in
  compute_iou_2d b1 b2 = Ok (a / u) /\ 0 < u /\ 0 <= a / u <= 1.
Proof.
  intros L1 W1 L2 W2 a u. unfold kMinBoxDim in *.
  assert (B1 : / 10000 < blength b1 * bwidth b1) by nra. assert (B2 : / 10000 < blength b2 * bwidth b2) by nra.
  destruct (area_bounds (box_polygon b1) b2 (box_convex b1 ltac:(lra) ltac:(lra)) ltac:(lra) ltac:(lra)) as [A2 _].
  destruct (area_bounds (box_polygon b2) b1 (box_convex b2 ltac:(lra) ltac:(lra)) ltac:(lra) ltac:(lra)) as [_ A1].
  fold a in A1, A2. assert (U0 : / 10000 < u) by (unfold u; lra). assert (AU : a <= u) by (unfold u; lra).
  assert (R0 : 0 <= a / u) by (apply Rmult_le_pos; [lra | left; apply Rinv_0_lt_compat; lra]).
  assert (R1 : a / u <= 1).
  { apply (Rmult_le_reg_r u); [lra|]. unfold Rdiv. rewrite Rmult_assoc, Rinv_l; lra. }
  split; [|split; lra]. unfold compute_iou_2d.
  replace (tiny b1) with false by (symmetry; apply tiny_false; unfold kMinBoxDim; lra).
  replace (tiny b2) with false by (symmetry; apply tiny_false; unfold kMinBoxDim; lra). cbn [orb].
  fold a. fold u. unfold iou_epsilon in *.
  destruct (rleb_cases u (/ 1000000)) as [(-> & U)|(-> & U)]; [lra|].
  destruct (rltb_cases (a / u) (- / 1000000)) as [(-> & X)|(-> & X)]; [lra|].
  destruct (rltb_cases (1 + / 1000000) (a / u)) as [(-> & Y)|(-> & Y)]; [lra|].
  f_equal. rewrite Rmin_left by lra. rewrite Rmax_left; lra.
Qed.
Theorem iou_range b1 b2 : exists v, compute_iou_2d b1 b2 = Ok v /\ 0 <= v <= 1.
Proof.
  destruct (tiny b1 || tiny b2) eqn:T.
  - exists 0. unfold compute_iou_2d. rewrite T. split; auto. lra.
  - apply orb_false_iff in T as [T1 T2]. apply tiny_false in T1, T2.
    destruct (iou_value b1 b2) as (E & _ & B); try tauto. eauto.
Qed.
Theorem iou_self b : kMinBoxDim < blength b -> kMinBoxDim < bwidth b -> compute_iou_2d b b = Ok 1.
Proof.
  intros L W. destruct (iou_value b b L W L W) as (-> & U & _). f_equal.
  unfold kMinBoxDim in *. pose proof (box_convex b ltac:(lra) ltac:(lra)) as CB.
  assert (LW : / 10000 < blength b * bwidth b) by nra.
  assert (E : intersection_area (box_polygon b) (box_polygon b) = blength b * bwidth b).
  { unfold intersection_area. rewrite vertices_self by auto.
    replace (Nat.ltb (length (box_polygon b)) 3) with false by reflexivity.
    rewrite area_internal_value by auto. rewrite box_area by lra. unfold kEpsilon. destruct (Rle_dec _ _); lra. }
  rewrite E. field. lra.
Qed.
Theorem iou_symmetric b1 b2 : 0 < blength b1 -> 0 < bwidth b1 -> 0 < blength b2 -> 0 < bwidth b2 ->
  no_contact (box_polygon b1) (box_polygon b2) -> compute_iou_2d b1 b2 = compute_iou_2d b2 b1.
Proof.
  intros L1 W1 L2 W2 N. unfold compute_iou_2d. rewrite (orb_comm (tiny b2)).
  rewrite (area_symmetric (box_polygon b2) (box_polygon b1)) by (try apply box_convex; auto; now apply no_contact_sym).
  now rewrite (Rplus_comm (blength b2 * bwidth b2)).
Qed.
