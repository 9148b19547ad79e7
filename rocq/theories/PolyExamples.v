(** Polygons and boxes that meet the hypotheses of C70. *)
From Coq Require Import Reals Qreals QArith Lra List Arith Lia Bool.
From Verif Require Import Base GeomModel PolyModel PolySpec PolyBoxSpec PolyBoxProofs PolyRational PolyMeaning.
Import ListNotations.
Open Scope R_scope.

(** Points on a parabola, any number of them. *)
Definition parabola (n : nat) : list pt := map (fun k => (INR k, INR k * INR k)) (seq 0 n).
Lemma parabola_corner n i : (0 < n)%nat -> corner (parabola n) i = (INR (i mod n), INR (i mod n) * INR (i mod n)).
Proof.
  intros N. unfold corner, parabola. rewrite map_length, seq_length.
  assert (L : (i mod n < n)%nat) by (apply Nat.mod_upper_bound; lia).
  rewrite (nth_indep _ (0, 0) (INR 0, INR 0 * INR 0)) by (now rewrite map_length, seq_length).
  rewrite (map_nth (fun k => (INR k, INR k * INR k)) (seq 0 n) 0%nat). rewrite seq_nth by auto. reflexivity.
Qed.
Lemma parabola_convex n : (3 <= n)%nat -> convex (parabola n).
Proof.
  intros N. unfold convex. assert (EL : length (parabola n) = n) by (unfold parabola; now rewrite map_length, seq_length).
  rewrite EL. split; auto. intros i j A B. rewrite !parabola_corner by lia. unfold turn; cbn [fst snd].
  assert (Li : (i mod n < n)%nat) by (apply Nat.mod_upper_bound; lia).
  assert (Lj : (j mod n < n)%nat) by (apply Nat.mod_upper_bound; lia).
  assert (E : (S i mod n = S (i mod n) \/ i mod n = n - 1 /\ S i mod n = 0)%nat).
  { destruct (Nat.eq_dec (i mod n) (n - 1)) as [K|K]; [right; split; auto | left].
    - replace (S i) with (i + 1)%nat by lia. rewrite Nat.add_mod by lia. rewrite K. rewrite (Nat.mod_small 1 n) by lia.
      replace (n - 1 + 1)%nat with n by lia. apply Nat.mod_same. lia.
    - replace (S i) with (i + 1)%nat by lia. rewrite Nat.add_mod by lia. rewrite (Nat.mod_small 1 n) by lia. rewrite Nat.mod_small by lia. lia. }
  set (a := (i mod n)%nat) in *. set (b := (S i mod n)%nat) in *. set (c := (j mod n)%nat) in *. clearbody a b c.
  replace ((INR b - INR a) * (INR c * INR c - INR a * INR a) - (INR b * INR b - INR a * INR a) * (INR c - INR a))
    with ((INR b - INR a) * ((INR c - INR a) * (INR c - INR b))) by ring.
  destruct E as [-> | [-> ->]].
  - rewrite S_INR in *. replace (INR a + 1 - INR a) with 1 by ring. rewrite Rmult_1_l.
    destruct (Nat.lt_ge_cases c a) as [K|K].
    + apply lt_INR in K. replace ((INR c - INR a) * (INR c - (INR a + 1))) with ((INR a - INR c) * (INR a + 1 - INR c)) by ring. apply Rmult_lt_0_compat; lra.
    + assert (K' : (S a < c)%nat) by lia. apply lt_INR in K'. rewrite S_INR in K'. apply Rmult_lt_0_compat; lra.
  - assert (K : (c < n - 1)%nat) by lia. assert (K' : (0 < c)%nat) by lia. apply lt_INR in K, K'. cbn [INR] in *.
    assert (0 < (INR (n - 1) - INR c) * INR c) by (apply Rmult_lt_0_compat; lra).
    assert (0 < INR (n - 1) * ((INR (n - 1) - INR c) * INR c)) by (apply Rmult_lt_0_compat; lra). lra.
Qed.
(** Two squares that overlap at a corner. *)
Definition low_box : obox := {| bx := 1; by_ := 1; blength := 2; bwidth := 2; bheading := 0 |}.
Definition high_box : obox := {| bx := 2; by_ := 2; blength := 2; bwidth := 2; bheading := 0 |}.
Lemma low_corners : box_polygon low_box = map inj [(0, 2); (0, 0); (2, 0); (2, 2)]%Q.
Proof.
  rewrite box_place by (cbn; lra). cbn [low_box bx by_ bheading blength bwidth local map]. unfold place, inj; cbn [fst snd].
  rewrite cos_0, sin_0. unfold Q2R; cbn [Qnum Qden].
  repeat (match goal with |- _ :: _ = _ :: _ => apply f_equal2 end); auto; apply pair_equal_spec; split; lra.
Qed.
Lemma high_corners : box_polygon high_box = map inj [(1, 3); (1, 1); (3, 1); (3, 3)]%Q.
Proof.
  rewrite box_place by (cbn; lra). cbn [high_box bx by_ bheading blength bwidth local map]. unfold place, inj; cbn [fst snd].
  rewrite cos_0, sin_0. unfold Q2R; cbn [Qnum Qden].
  repeat (match goal with |- _ :: _ = _ :: _ => apply f_equal2 end); auto; apply pair_equal_spec; split; lra.
Qed.
Lemma squares_no_contact : no_contact (box_polygon low_box) (box_polygon high_box).
Proof.
  rewrite low_corners, high_corners. intros i j. unfold corner. cbn [map length inj]. unfold inj; cbn [fst snd].
  pose proof (four i) as Hi. pose proof (four j) as Hj. cbv zeta in Hi, Hj.
  change (S (S (S (S O)))) with 4%nat.
  destruct Hi as [(-> & ->)|[(-> & ->)|[(-> & ->)|(-> & ->)]]]; destruct Hj as [(-> & ->)|[(-> & ->)|[(-> & ->)|(-> & ->)]]];
  cbn [nth]; unfold Q2R; cbn [Qnum Qden]; split; intros (t & T & A & B); cbn [fst snd] in *; lra.
Qed.
Definition overlap_box : obox := {| bx := 3 / 2; by_ := 3 / 2; blength := 1; bwidth := 1; bheading := 0 |}.
Lemma overlap_points z : covers overlap_box z <-> covers low_box z /\ covers high_box z.
Proof.
  unfold covers, in_rectangle. cbn [overlap_box low_box high_box bx by_ bheading blength bwidth]. rewrite cos_0, sin_0.
  split.
  - intros [A B]. unfold Rabs in *. destruct (Rcase_abs _) in A; destruct (Rcase_abs _) in B; repeat split; destruct (Rcase_abs _); lra.
  - intros [[A B] [C D]]. unfold Rabs in *.
    destruct (Rcase_abs _) in A; destruct (Rcase_abs _) in B; destruct (Rcase_abs _) in C; destruct (Rcase_abs _) in D; split; destruct (Rcase_abs _); lra.
Qed.
Lemma squares_iou : compute_iou_2d low_box high_box = Ok (1 / 7).
Proof.
  rewrite (iou_area low_box high_box (box_polygon overlap_box)).
  - rewrite box_area by (cbn; lra). cbn [overlap_box low_box high_box blength bwidth]. unfold kEpsilon.
    destruct (Rle_dec _ _); [lra|]. f_equal. field.
  - unfold big; cbn; lra.
  - unfold big; cbn; lra.
  - exact squares_no_contact.
  - apply box_convex; cbn; lra.
  - intros z. rewrite box_inside by (cbn; lra). exact (overlap_points z).
Qed.
