(** The statements of C70 in terms of points. *)
From Coq Require Import Reals Lra List Arith Lia Bool.
From Verif Require Import Base GeomModel GeomBase PolyModel PolySpec PolySegProofs PolyPass PolyPath PolyTurning PolyInside PolyMeet PolyArea PolySame PolyBoxSpec PolyBoxProofs PolyWitness.
Import ListNotations.
Open Scope R_scope.

Lemma corner_inside P i : convex P -> inside P (corner P i).
Proof.
  intros C. split; [intros E; destruct C as [C _]; rewrite E in C; cbn in C; lia|]. intros k. now apply weakly_left.
Qed.
Lemma segment_found p0 p1 q0 q1 : p0 <> p1 -> q0 <> q1 ->
  (forall x, exact_segment_intersection p0 p1 q0 q1 = Some x -> between p0 p1 x /\ between q0 q1 x) /\
  (exact_segment_intersection p0 p1 q0 q1 = None -> forall x, between p0 p1 x -> between q0 q1 x -> False).
Proof.
  intros N M. unfold exact_segment_intersection. rewrite exact_cross. change (cross4 p0 p1 q1 q0) with (det_of p0 p1 q0 q1). split.
  - intros x E. destruct (intersection_some _ _ _ _ _ N M E) as (A & B & _). now split.
  - intros E x A B. exact (intersection_none _ _ _ _ _ N M E A B).
Qed.
Lemma apart_empty P Q : convex P -> convex Q -> (forall z, inside P z -> inside Q z -> False) -> intersection_vertices P Q = [].
Proof.
  intros CP CQ N. destruct (intersection_vertices P Q) as [|x l] eqn:E; auto. exfalso.
  destruct (vertices_exact P Q CP CQ) as [C I]; [now rewrite E|].
  destruct (I (corner (intersection_vertices P Q) 0)) as [A _]. destruct (A (corner_inside _ 0 C)) as [B D]. now apply (N _ B D).
Qed.
Lemma apart_area P Q : convex P -> convex Q -> (forall z, inside P z -> inside Q z -> False) -> intersection_area P Q = 0.
Proof. intros CP CQ N. unfold intersection_area. rewrite (apart_empty P Q CP CQ N). reflexivity. Qed.

Lemma big_pos b : big b -> 0 < blength b /\ 0 < bwidth b.
Proof. unfold big. lra. Qed.
Lemma iou_apart b1 b2 : big b1 -> big b2 -> (forall z, covers b1 z -> covers b2 z -> False) -> compute_iou_2d b1 b2 = Ok 0.
Proof.
  intros B1 B2 N. pose proof (big_pos _ B1) as [P1 P1']. pose proof (big_pos _ B2) as [P2 P2']. destruct B1 as [L1 W1], B2 as [L2 W2]; fold kMinBoxDim in *.
  destruct (iou_value b1 b2 L1 W1 L2 W2) as (-> & _).
  rewrite apart_area; auto using box_convex.
  - unfold Rdiv. now rewrite Rmult_0_l.
  - intros z. rewrite !box_inside; auto. apply N.
Qed.
Lemma iou_small b1 b2 : ~ (big b1 /\ big b2) -> compute_iou_2d b1 b2 = Ok 0.
Proof.
  intros N. unfold compute_iou_2d. destruct (tiny b1) eqn:T1; auto. destruct (tiny b2) eqn:T2; auto.
  destruct N. apply tiny_false in T1, T2. split; [exact T1 | exact T2].
Qed.
Lemma iou_common b1 b2 : big b1 -> big b2 -> no_contact (box_polygon b1) (box_polygon b2) ->
  (exists z, covers b1 z /\ covers b2 z) ->
  exists W, convex W /\ (forall z, inside W z <-> covers b1 z /\ covers b2 z) /\
    let s := (if Rle_dec (twice_area W) kEpsilon then 0 else twice_area W / 2) in
    compute_iou_2d b1 b2 = Ok (s / (blength b1 * bwidth b1 + blength b2 * bwidth b2 - s)).
Proof.
  intros B1 B2 N (z & Z1 & Z2). pose proof (big_pos _ B1) as [P1 P1']. pose proof (big_pos _ B2) as [P2 P2']. destruct B1 as [L1 W1], B2 as [L2 W2]; fold kMinBoxDim in *.
  assert (C1 : convex (box_polygon b1)) by now apply box_convex. assert (C2 : convex (box_polygon b2)) by now apply box_convex.
  assert (F : intersection_vertices (box_polygon b1) (box_polygon b2) <> []).
  { apply (vertices_found _ _ z); auto; apply box_inside; auto. }
  destruct (vertices_exact _ _ C1 C2 F) as [C I].
  exists (intersection_vertices (box_polygon b1) (box_polygon b2)). split; [exact C|]. split.
  - intros y. rewrite I, !box_inside by auto. reflexivity.
  - intros s. destruct (iou_value b1 b2 L1 W1 L2 W2) as (-> & _).
    rewrite (area_exact _ _ (intersection_vertices (box_polygon b1) (box_polygon b2)) C1 C2 F C I). reflexivity.
Qed.
(** Any description of the common part gives the same value. *)
Lemma iou_area b1 b2 W : big b1 -> big b2 -> no_contact (box_polygon b1) (box_polygon b2) ->
  convex W -> (forall z, inside W z <-> covers b1 z /\ covers b2 z) ->
  let s := (if Rle_dec (twice_area W) kEpsilon then 0 else twice_area W / 2) in
  compute_iou_2d b1 b2 = Ok (s / (blength b1 * bwidth b1 + blength b2 * bwidth b2 - s)).
Proof.
  intros B1 B2 N C I s. destruct (iou_common b1 b2 B1 B2 N) as (W' & C' & I' & E).
  { exists (corner W 0). apply I. now apply corner_inside. }
  rewrite E. unfold s. rewrite (area_of_points W' W C' C); auto.
  intros z. now rewrite I, I'.
Qed.
Lemma iou_asymmetric : exists b1 b2, big b1 /\ big b2 /\ (forall z, covers b1 z -> covers b2 z) /\
  compute_iou_2d b1 b2 = Ok 0 /\ compute_iou_2d b2 b1 = Ok (1 / 4).
Proof.
  exists turned_box, long_box. unfold big. cbn [turned_box long_box blength bwidth].
  split; [lra|]. split; [lra|]. split; [|exact missed_box].
  intros z. pose proof (turned_in_long z) as H. rewrite !box_inside in H by (cbn; lra). exact H.
Qed.
