(** Boxes with common edge lines: common parts the loop misses. *)
From Coq Require Import Reals Qreals QArith Lra List Arith Lia Bool.
From Verif Require Import Base GeomModel GeomBase PolyModel PolySpec PolySegProofs PolyPass PolyPath PolyTurning PolyInside PolyMeet PolyArea PolySame PolyBoxProofs PolyRational.
Import ListNotations.
Open Scope R_scope.

Definition turned_box : obox := {| bx := 0; by_ := -3; blength := 2; bwidth := 4; bheading := PI / 2 |}.
Definition long_box : obox := {| bx := 0; by_ := -3; blength := 4; bwidth := 8; bheading := 0 |}.
Lemma turned_corners : box_polygon turned_box = map inj [(-2, -4); (2, -4); (2, -2); (-2, -2)]%Q.
Proof.
  rewrite box_place by (cbn; lra). cbn [turned_box bx by_ bheading blength bwidth local map]. unfold place, inj; cbn [fst snd].
  rewrite cos_PI2, sin_PI2. unfold Q2R; cbn [Qnum Qden].
  repeat (match goal with |- _ :: _ = _ :: _ => apply f_equal2 end); auto; apply pair_equal_spec; split; lra.
Qed.
Lemma long_corners : box_polygon long_box = map inj [(-2, 1); (-2, -7); (2, -7); (2, 1)]%Q.
Proof.
  rewrite box_place by (cbn; lra). cbn [long_box bx by_ bheading blength bwidth local map]. unfold place, inj; cbn [fst snd].
  rewrite cos_0, sin_0. unfold Q2R; cbn [Qnum Qden].
  repeat (match goal with |- _ :: _ = _ :: _ => apply f_equal2 end); auto; apply pair_equal_spec; split; lra.
Qed.
Lemma turned_in_long z : inside (box_polygon turned_box) z -> inside (box_polygon long_box) z.
Proof.
  rewrite !box_inside by (cbn; lra). unfold in_rectangle. cbn [turned_box long_box bx by_ bheading blength bwidth].
  rewrite cos_PI2, sin_PI2, cos_0, sin_0. intros [A B].
  unfold Rabs in *. destruct (Rcase_abs _) in A; destruct (Rcase_abs _) in B; split; destruct (Rcase_abs _); lra.
Qed.
Lemma turned_first : intersection_vertices (box_polygon turned_box) (box_polygon long_box) = [].
Proof. rewrite turned_corners, long_corners. apply open_empty. vm_compute. reflexivity. Qed.
Lemma long_first : intersection_vertices (box_polygon long_box) (box_polygon turned_box) <> [].
Proof.
  assert (C1 : convex (box_polygon turned_box)) by (apply box_convex; cbn; lra).
  assert (C2 : convex (box_polygon long_box)) by (apply box_convex; cbn; lra).
  assert (Z : inside (box_polygon turned_box) (corner (box_polygon turned_box) 0)).
  { split; [discriminate|]. intros i. now apply weakly_left. }
  pose proof (turned_in_long _ Z) as Z'. set (z := corner _ _) in *. clearbody z. revert C1 C2 Z Z'. rewrite turned_corners, long_corners.
  intros C1 C2 Z Z'.
  assert (E : q_traverse [(-2, 1); (-2, -7); (2, -7); (2, 1)]%Q [(-2, -4); (2, -4); (2, -2); (-2, -2)]%Q = QClosed [(-2, -4); (2, -4); (2, -2); (-2, -2)]%Q) by (vm_compute; reflexivity).
  rewrite (closed_found _ _ _ z C2 C1 Z' Z E). cbn [map]. intros H. inversion H.
Qed.
Theorem missed_box : compute_iou_2d turned_box long_box = Ok 0 /\ compute_iou_2d long_box turned_box = Ok (1 / 4).
Proof.
  assert (C1 : convex (box_polygon turned_box)) by (apply box_convex; cbn; lra).
  assert (C2 : convex (box_polygon long_box)) by (apply box_convex; cbn; lra).
  split.
  - destruct (iou_value turned_box long_box) as (-> & _); try (cbn; unfold kMinBoxDim; lra).
    unfold intersection_area at 1. rewrite turned_first. cbn [length Nat.ltb Nat.leb]. unfold Rdiv. now rewrite Rmult_0_l.
  - destruct (iou_value long_box turned_box) as (-> & _); try (cbn; unfold kMinBoxDim; lra).
    rewrite (area_exact (box_polygon long_box) (box_polygon turned_box) (box_polygon turned_box)); auto using long_first.
    2:{ intros z. split; [|tauto]. intros Z. split; auto. now apply turned_in_long. }
    rewrite box_area by (cbn; lra). cbn [turned_box long_box blength bwidth]. unfold kEpsilon.
    destruct (Rle_dec _ _); [lra|]. f_equal. field.
Qed.
