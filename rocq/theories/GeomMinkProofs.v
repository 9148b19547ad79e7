(** The Minkowski sum of two rectangles. *)
From Coq Require Import Reals Lra Psatz List Lia.
From Verif Require Import Base GeomModel GeomSpec GeomBase GeomConvex GeomDistProofs.
Import ListNotations.
Open Scope R_scope.

(** ** Rectangles by a corner and two sides *)
Definition rot90 (a : point) (k : R) : point := (- k * snd a, k * fst a).
Definition para (o a d : point) (s t : R) : point :=
  (fst o + s * fst a + t * fst d, snd o + s * snd a + t * snd d).
Definition in_para (o a d p : point) : Prop := exists s t, 0 <= s <= 1 /\ 0 <= t <= 1 /\ p = para o a d s t.
Lemma in_para_convex o a d : convex (in_para o a d).
Proof.
  intros p q x [s [t [Hs [Ht ->]]]] [s' [t' [Hs' [Ht' ->]]]] [r [Hr ->]].
  exists (s + r * (s' - s)), (t + r * (t' - t)). split; [nra|]. split; [nra|].
  unfold between, para. cbn [fst snd]. f_equal; ring.
Qed.
Lemma in_para_hull o a d C : convex C -> C (para o a d 0 0) -> C (para o a d 1 0) -> C (para o a d 1 1) -> C (para o a d 0 1) ->
  forall p, in_para o a d p -> C p.
Proof.
  intros HC H00 H10 H11 H01 p [s [t [Hs [Ht ->]]]].
  apply (HC (para o a d s 0) (para o a d s 1)).
  - apply (HC (para o a d 0 0) (para o a d 1 0)); auto. exists s. split; [assumption|].
    unfold between, para. cbn [fst snd]. f_equal; ring.
  - apply (HC (para o a d 0 1) (para o a d 1 1)); auto. exists s. split; [assumption|].
    unfold between, para. cbn [fst snd]. f_equal; ring.
  - exists t. split; [assumption|]. unfold between, para. cbn [fst snd]. f_equal; ring.
Qed.

(** ** The octagon *)
Definition octagon (o a d o' b e : point) : list point :=
  [padd (para o a d 0 0) (para o' b e 0 0); padd (para o a d 1 0) (para o' b e 0 0);
   padd (para o a d 1 0) (para o' b e 1 0); padd (para o a d 1 1) (para o' b e 1 0);
   padd (para o a d 1 1) (para o' b e 1 1); padd (para o a d 0 1) (para o' b e 1 1);
   padd (para o a d 0 1) (para o' b e 0 1); padd (para o a d 0 0) (para o' b e 0 1)].

Section Octagon.
Variables (o o' a b : point) (k m : R).
Hypothesis Hk : 0 < k.
Hypothesis Hm : 0 < m.
Hypothesis Ha1 : 0 <= fst a. Hypothesis Ha2 : 0 <= snd a. Hypothesis Ha : a <> (0, 0).
Hypothesis Hb1 : 0 <= fst b. Hypothesis Hb2 : 0 <= snd b. Hypothesis Hb : b <> (0, 0).
Hypothesis Hab : 0 <= cross a b.
Notation d := (rot90 a k).
Notation e := (rot90 b m).
Notation oct := (octagon o a d o' b e).

Lemma a_sqr_pos : 0 < dot a a.
Proof.
  unfold dot. destruct a as [x y]. cbn [fst snd] in *.
  destruct (Req_EM_T x 0) as [->|]; [|nra]. destruct (Req_EM_T y 0) as [->|]; [congruence|nra].
Qed.
Lemma b_sqr_pos : 0 < dot b b.
Proof.
  unfold dot. destruct b as [x y]. cbn [fst snd] in *.
  destruct (Req_EM_T x 0) as [->|]; [|nra]. destruct (Req_EM_T y 0) as [->|]; [congruence|nra].
Qed.
Lemma ab_dot : 0 <= dot a b.
Proof. unfold dot. nra. Qed.
Lemma mod8 i : (i mod 8 = 0 \/ i mod 8 = 1 \/ i mod 8 = 2 \/ i mod 8 = 3 \/ i mod 8 = 4 \/ i mod 8 = 5 \/ i mod 8 = 6 \/ i mod 8 = 7)%nat.
Proof. assert (i mod 8 < 8)%nat by (apply Nat.mod_upper_bound; lia). lia. Qed.
Lemma oct_vertex i : vertex oct i = nth (i mod 8) oct (0, 0).
Proof. reflexivity. Qed.
Lemma oct_vertex_S i : vertex oct (S i) = nth (S (i mod 8) mod 8) oct (0, 0).
Proof.
  rewrite oct_vertex. f_equal. rewrite <- (Nat.add_1_r i), <- (Nat.add_1_r (i mod 8)).
  now rewrite Nat.add_mod_idemp_l.
Qed.
Lemma oct_left i x y : in_para o a d x -> in_para o' b e y ->
  0 <= turn (vertex oct i) (vertex oct (S i)) (padd x y).
Proof.
  intros [s [t [Hs [Ht ->]]]] [s' [t' [Hs' [Ht' ->]]]].
  assert (A := a_sqr_pos). assert (B := b_sqr_pos). assert (D := ab_dot). assert (X := Hab).
  rewrite oct_vertex_S, (oct_vertex i).
  destruct (mod8 i) as [E|[E|[E|[E|[E|[E|[E|E]]]]]]]; rewrite E;
    cbn [octagon nth Nat.modulo Nat.divmod fst snd Nat.sub].
  - replace (turn _ _ _) with (t * k * dot a a + s' * cross a b + t' * m * dot a b)
      by (unfold turn, padd, para, rot90, dot, cross; cbn [fst snd]; ring).
    repeat apply Rplus_le_le_0_compat; repeat apply Rmult_le_pos; lra.
  - replace (turn _ _ _) with ((1 - s) * cross a b + t * k * dot a b + t' * m * dot b b)
      by (unfold turn, padd, para, rot90, dot, cross; cbn [fst snd]; ring).
    repeat apply Rplus_le_le_0_compat; repeat apply Rmult_le_pos; lra.
  - replace (turn _ _ _) with (k * (1 - s) * dot a a + k * (1 - s') * dot a b + k * t' * m * cross a b)
      by (unfold turn, padd, para, rot90, dot, cross; cbn [fst snd]; ring).
    repeat apply Rplus_le_le_0_compat; repeat apply Rmult_le_pos; lra.
  - replace (turn _ _ _) with (m * (1 - s) * dot a b + m * (1 - t) * k * cross a b + m * (1 - s') * dot b b)
      by (unfold turn, padd, para, rot90, dot, cross; cbn [fst snd]; ring).
    repeat apply Rplus_le_le_0_compat; repeat apply Rmult_le_pos; lra.
  - replace (turn _ _ _) with ((1 - t) * k * dot a a + (1 - s') * cross a b + (1 - t') * m * dot a b)
      by (unfold turn, padd, para, rot90, dot, cross; cbn [fst snd]; ring).
    repeat apply Rplus_le_le_0_compat; repeat apply Rmult_le_pos; lra.
  - replace (turn _ _ _) with (s * cross a b + (1 - t) * k * dot a b + (1 - t') * m * dot b b)
      by (unfold turn, padd, para, rot90, dot, cross; cbn [fst snd]; ring).
    repeat apply Rplus_le_le_0_compat; repeat apply Rmult_le_pos; lra.
  - replace (turn _ _ _) with (k * s * dot a a + k * s' * dot a b + k * (1 - t') * m * cross a b)
      by (unfold turn, padd, para, rot90, dot, cross; cbn [fst snd]; ring).
    repeat apply Rplus_le_le_0_compat; repeat apply Rmult_le_pos; lra.
  - replace (turn _ _ _) with (m * s * dot a b + m * t * k * cross a b + m * s' * dot b b)
      by (unfold turn, padd, para, rot90, dot, cross; cbn [fst snd]; ring).
    repeat apply Rplus_le_le_0_compat; repeat apply Rmult_le_pos; lra.
Qed.
Lemma corner_in u w o1 a1 d1 : (u = 0 \/ u = 1) -> (w = 0 \/ w = 1) -> in_para o1 a1 d1 (para o1 a1 d1 u w).
Proof. intros Hu Hw. exists u, w. split; [lra|]. split; [lra|]. reflexivity. Qed.
Lemma oct_in p : In p oct -> exists x y, in_para o a d x /\ in_para o' b e y /\ p = padd x y.
Proof.
  unfold octagon. intros H. cbn [In] in H.
  repeat (destruct H as [<-|H]; [eexists; eexists; split; [|split; [|reflexivity]]; apply corner_in; auto|]).
  destruct H.
Qed.
Lemma oct_convex_polygon : convex_polygon oct.
Proof.
  split; [discriminate|]. split.
  - intros i j. assert (H : In (vertex oct j) oct) by (apply vertex_in; discriminate).
    apply oct_in in H. destruct H as [x [y [Hx [Hy ->]]]]. now apply oct_left.
  - exists 0%nat, 1%nat, 3%nat. apply Rgt_not_eq.
    change (0 < turn (padd (para o a d 0 0) (para o' b e 0 0)) (padd (para o a d 1 0) (para o' b e 0 0)) (padd (para o a d 1 1) (para o' b e 1 0))).
    replace (turn _ _ _) with (k * dot a a + cross a b) by (unfold turn, padd, para, rot90, dot, cross; cbn [fst snd]; ring).
    assert (A := a_sqr_pos). assert (0 < k * dot a a) by (now apply Rmult_lt_0_compat). lra.
Qed.
Lemma oct_proper : proper_edges oct.
Proof.
  intros i C. assert (A := a_sqr_pos). assert (B := b_sqr_pos).
  assert (Ak : 0 < k * k * dot a a) by (repeat apply Rmult_lt_0_compat; assumption).
  assert (Bm : 0 < m * m * dot b b) by (repeat apply Rmult_lt_0_compat; assumption).
  assert (Z : dot (psub (vertex oct (S i)) (vertex oct i)) (psub (vertex oct (S i)) (vertex oct i)) = 0).
  { rewrite C. unfold dot, psub. cbn [fst snd]. ring. }
  rewrite oct_vertex_S, (oct_vertex i) in Z.
  destruct (mod8 i) as [E|[E|[E|[E|[E|[E|[E|E]]]]]]]; rewrite E in Z;
    cbn [octagon nth Nat.modulo Nat.divmod fst snd Nat.sub] in Z.
  all: try (assert (Q : dot a a = 0) by (rewrite <- Z; unfold dot, psub, padd, para, rot90; cbn [fst snd]; ring); lra).
  all: try (assert (Q : dot b b = 0) by (rewrite <- Z; unfold dot, psub, padd, para, rot90; cbn [fst snd]; ring); lra).
  all: try (assert (Q : k * k * dot a a = 0) by (rewrite <- Z; unfold dot, psub, padd, para, rot90; cbn [fst snd]; ring); lra).
  all: try (assert (Q : m * m * dot b b = 0) by (rewrite <- Z; unfold dot, psub, padd, para, rot90; cbn [fst snd]; ring); lra).
Qed.
Lemma oct_hull x : hull oct x <-> sum_of (in_para o a d) (in_para o' b e) x.
Proof.
  split.
  - intros H. apply H.
    + intros p q z [x1 [y1 [Hx1 [Hy1 ->]]]] [x2 [y2 [Hx2 [Hy2 ->]]]] [t [Ht ->]].
      exists (between x1 x2 t), (between y1 y2 t).
      split; [apply (in_para_convex o a d x1 x2); auto; now exists t|].
      split; [apply (in_para_convex o' b e y1 y2); auto; now exists t|].
      unfold between. cbn [fst snd]. f_equal; ring.
    + intros p Hp. apply oct_in in Hp. destruct Hp as [y [z [Hy [Hz ->]]]]. exists y, z. auto.
  - intros [y [z [Hy [Hz ->]]]]. apply hull_inside; [apply oct_convex_polygon|apply oct_proper|].
    intros i. rewrite <- turn_cross. now apply (oct_left i y z).
Qed.
End Octagon.

(** ** Rectangles from their lowest corner *)
Lemma corner_mod b i : corner b (i mod 4) = corner b i.
Proof. unfold corner. now rewrite Nat.mod_mod. Qed.
Lemma downmost_cases b : (downmost b = 0 \/ downmost b = 1 \/ downmost b = 2 \/ downmost b = 3)%nat /\
  forall i, snd (corner b (downmost b)) <= snd (corner b i).
Proof.
  unfold downmost. cbn [fold_left].
  assert (C : forall i, corner b i = corner b 0 \/ corner b i = corner b 1 \/ corner b i = corner b 2 \/ corner b i = corner b 3).
  { intros i. rewrite <- (corner_mod b i).
    assert (i mod 4 < 4)%nat by (apply Nat.mod_upper_bound; lia).
    assert (i mod 4 = 0 \/ i mod 4 = 1 \/ i mod 4 = 2 \/ i mod 4 = 3)%nat as [->|[->|[->| ->]]] by lia; auto. }
  assert (K : forall m, (m = 0 \/ m = 1 \/ m = 2 \/ m = 3)%nat ->
     snd (corner b m) <= snd (corner b 0) -> snd (corner b m) <= snd (corner b 1) ->
     snd (corner b m) <= snd (corner b 2) -> snd (corner b m) <= snd (corner b 3) ->
     (m = 0 \/ m = 1 \/ m = 2 \/ m = 3)%nat /\ forall i, snd (corner b m) <= snd (corner b i)).
  { intros m Hm H0 H1 H2 H3. split; [assumption|]. intros i. destruct (C i) as [->|[->|[->| ->]]]; assumption. }
  destruct (rltb (snd (corner b 1)) (snd (corner b 0))) eqn:R1.
  - apply rltb_iff in R1. destruct (rltb (snd (corner b 2)) (snd (corner b 1))) eqn:R2.
    + apply rltb_iff in R2. destruct (rltb (snd (corner b 3)) (snd (corner b 2))) eqn:R3;
        [apply rltb_iff in R3|apply rltb_false in R3]; apply K; auto; lra.
    + apply rltb_false in R2. destruct (rltb (snd (corner b 3)) (snd (corner b 1))) eqn:R3;
        [apply rltb_iff in R3|apply rltb_false in R3]; apply K; auto; lra.
  - apply rltb_false in R1. destruct (rltb (snd (corner b 2)) (snd (corner b 0))) eqn:R2.
    + apply rltb_iff in R2. destruct (rltb (snd (corner b 3)) (snd (corner b 2))) eqn:R3;
        [apply rltb_iff in R3|apply rltb_false in R3]; apply K; auto; lra.
    + apply rltb_false in R2. destruct (rltb (snd (corner b 3)) (snd (corner b 0))) eqn:R3;
        [apply rltb_iff in R3|apply rltb_false in R3]; apply K; auto; lra.
Qed.
Definition rectangle (b : quad) : Prop := is_rectangle (c0 b) (c1 b) (c2 b) (c3 b).
Lemma is_rectangle_shift p0 p1 p2 p3 : is_rectangle p0 p1 p2 p3 -> is_rectangle p1 p2 p3 p0.
Proof.
  unfold is_rectangle, turn. intros [[E1 E2] [O T]]. split; [split; lra|].
  replace (fst p3) with (fst p0 + fst p2 - fst p1) by lra. replace (snd p3) with (snd p0 + snd p2 - snd p1) by lra.
  split; lra.
Qed.
(** The corners from the lowest one on. *)
Lemma rectangle_para b : rectangle b -> exists o a k, 0 < k /\ 0 <= fst a /\ 0 <= snd a /\ a <> (0, 0) /\
  corner b (0 + downmost b) = para o a (rot90 a k) 0 0 /\ corner b (1 + downmost b) = para o a (rot90 a k) 1 0 /\
  corner b (2 + downmost b) = para o a (rot90 a k) 1 1 /\ corner b (3 + downmost b) = para o a (rot90 a k) 0 1.
Proof.
  intros Hr.
  assert (Hs : forall i, is_rectangle (corner b i) (corner b (S i)) (corner b (S (S i))) (corner b (S (S (S i))))).
  { intros i. assert (A0 := Hr). assert (A1 := is_rectangle_shift _ _ _ _ A0). assert (A2 := is_rectangle_shift _ _ _ _ A1).
    assert (A3 := is_rectangle_shift _ _ _ _ A2).
    assert (i mod 4 < 4)%nat by (apply Nat.mod_upper_bound; lia).
    assert (D : forall j, corner b (j + i) = corner b (j + i mod 4)).
    { intros j. rewrite <- (corner_mod b (j + i)), <- (corner_mod b (j + i mod 4)). f_equal.
      now rewrite Nat.add_mod_idemp_r. }
    change (is_rectangle (corner b (0 + i)) (corner b (1 + i)) (corner b (2 + i)) (corner b (3 + i))).
    rewrite (D 0%nat), (D 1%nat), (D 2%nat), (D 3%nat).
    assert (i mod 4 = 0 \/ i mod 4 = 1 \/ i mod 4 = 2 \/ i mod 4 = 3)%nat as [->|[->|[->| ->]]] by lia; assumption. }
  destruct (downmost_cases b) as [_ Hmin]. set (z := downmost b) in *.
  assert (H := Hs z). assert (M1 := Hmin (S z)). assert (M3 := Hmin (S (S (S z)))).
  cbn [Nat.add]. set (p0 := corner b z) in *. set (p1 := corner b (S z)) in *. set (p2 := corner b (S (S z))) in *.
  set (p3 := corner b (S (S (S z)))) in *. clearbody p0 p1 p2 p3. clear Hs Hmin.
  destruct H as [[E1 E2] [O T]]. unfold turn in T.
  destruct p0 as [x0 y0], p1 as [x1 y1], p2 as [x2 y2], p3 as [x3 y3]. cbn [fst snd] in *.
  set (a1 := x1 - x0) in *. set (a2 := y1 - y0) in *.
  set (d1 := x3 - x0). set (d2 := y3 - y0).
  assert (O' : a1 * d1 + a2 * d2 = 0).
  { unfold d1, d2. replace (x3 - x0) with (x2 - x1) by lra. replace (y3 - y0) with (y2 - y1) by lra. exact O. }
  assert (T' : 0 < a1 * d2 - a2 * d1).
  { unfold d1, d2. replace (x3 - x0) with (x2 - x1) by lra. replace (y3 - y0) with (y2 - y1) by lra.
    unfold a1, a2 in *. nra. }
  assert (N : 0 < a1 * a1 + a2 * a2).
  { destruct (Req_EM_T a1 0) as [Z1|]; [destruct (Req_EM_T a2 0) as [Z2|]; [|nra]|nra]. rewrite Z1, Z2 in T'. lra. }
  set (k := (a1 * d2 - a2 * d1) / (a1 * a1 + a2 * a2)).
  assert (Kp : 0 < k) by (unfold k; apply Rmult_lt_0_compat; [assumption|now apply Rinv_0_lt_compat]).
  assert (Kd1 : - k * a2 = d1).
  { unfold k. apply Rmult_eq_reg_r with (a1 * a1 + a2 * a2); [|lra].
    replace (- ((a1 * d2 - a2 * d1) / (a1 * a1 + a2 * a2)) * a2 * (a1 * a1 + a2 * a2))
      with (- (a1 * d2 - a2 * d1) * a2) by (field; lra).
    replace (- (a1 * d2 - a2 * d1) * a2) with (a2 * a2 * d1 - a1 * (a2 * d2)) by ring.
    replace (a2 * d2) with (- (a1 * d1)) by lra. ring. }
  assert (Kd2 : k * a1 = d2).
  { unfold k. apply Rmult_eq_reg_r with (a1 * a1 + a2 * a2); [|lra].
    replace ((a1 * d2 - a2 * d1) / (a1 * a1 + a2 * a2) * a1 * (a1 * a1 + a2 * a2))
      with ((a1 * d2 - a2 * d1) * a1) by (field; lra).
    replace ((a1 * d2 - a2 * d1) * a1) with (a1 * a1 * d2 - a2 * (a1 * d1)) by ring.
    replace (a1 * d1) with (- (a2 * d2)) by lra. ring. }
  assert (A2 : 0 <= a2) by (unfold a2; lra).
  assert (D2 : 0 <= d2) by (unfold d2; lra).
  assert (A1 : 0 <= a1).
  { apply Rmult_le_reg_l with k; [assumption|]. rewrite Rmult_0_r. lra. }
  exists (x0, y0), (a1, a2), k. unfold para, rot90. cbn [fst snd].
  split; [assumption|]. split; [assumption|]. split; [assumption|].
  split; [intros C; apply pair_equal_spec in C; destruct C as [Z1 Z2]; rewrite Z1, Z2 in N; lra|].
  rewrite Kd1, Kd2. unfold a1, a2, d1, d2 in *. repeat split; f_equal; lra.
Qed.
Lemma quad_list_in b i p : p = corner b i -> In p [c0 b; c1 b; c2 b; c3 b].
Proof.
  intros ->. unfold corner. destruct (i mod 4)%nat as [|[|[|]]]; cbn; auto.
Qed.
Lemma rectangle_hull b o a d : corner b (0 + downmost b) = para o a d 0 0 -> corner b (1 + downmost b) = para o a d 1 0 ->
  corner b (2 + downmost b) = para o a d 1 1 -> corner b (3 + downmost b) = para o a d 0 1 ->
  forall x, hull [c0 b; c1 b; c2 b; c3 b] x <-> in_para o a d x.
Proof.
  intros H0 H1 H2 H3 x. split.
  - intros H. apply H; [apply in_para_convex|]. intros p Hp.
    assert (C : p = para o a d 0 0 \/ p = para o a d 1 0 \/ p = para o a d 1 1 \/ p = para o a d 0 1).
    { rewrite <- H0, <- H1, <- H2, <- H3. destruct (downmost_cases b) as [D _].
      destruct D as [->|[->|[->| ->]]]; cbn [In] in Hp; unfold corner; cbn [Nat.add Nat.modulo Nat.divmod fst snd Nat.sub];
        destruct Hp as [<-|[<-|[<-|[<-|[]]]]]; auto. }
    destruct C as [->|[->|[->| ->]]]; apply corner_in; auto.
  - intros H C HC HV. revert x H. apply in_para_hull; [assumption| | | |].
    + rewrite <- H0. apply HV. now apply (quad_list_in b (0 + downmost b)).
    + rewrite <- H1. apply HV. now apply (quad_list_in b (1 + downmost b)).
    + rewrite <- H2. apply HV. now apply (quad_list_in b (2 + downmost b)).
    + rewrite <- H3. apply HV. now apply (quad_list_in b (3 + downmost b)).
Qed.

Lemma padd_comm p q : padd p q = padd q p.
Proof. unfold padd. f_equal; ring. Qed.
Lemma sum_of_sym A B x : sum_of A B x <-> sum_of B A x.
Proof.
  split; intros [a [b [Ha [Hb ->]]]]; exists b, a; (split; [assumption|]; split; [assumption|]); f_equal; ring.
Qed.
Lemma sum_of_iff (A A' B B' : point -> Prop) : (forall x, A x <-> A' x) -> (forall x, B x <-> B' x) ->
  forall x, sum_of A B x <-> sum_of A' B' x.
Proof.
  intros HA HB x. split; intros [a [b [Ha [Hb ->]]]]; exists a, b.
  - split; [now apply HA|]. split; [now apply HB|reflexivity].
  - split; [now apply HA|]. split; [now apply HB|reflexivity].
Qed.
Lemma unit_cross a b u w : unit_vector a = Some u -> unit_vector b = Some w ->
  cross a b = norm a * norm b * cross u w /\ 0 < norm a * norm b.
Proof.
  intros Hu Hw. apply unit_vector_some in Hu, Hw. destruct Hu as [_ [Na [Ea _]]], Hw as [_ [Nb [Eb _]]].
  split; [|now apply Rmult_lt_0_compat]. set (la := norm a) in *. set (lb := norm b) in *. clearbody la lb.
  rewrite Ea, Eb. unfold cross. cbn [fst snd]. ring.
Qed.

Lemma minkowski_sum_correct a b : rectangle a -> rectangle b ->
  length (minkowski_sum a b) = 8%nat /\ convex_polygon (minkowski_sum a b) /\ proper_edges (minkowski_sum a b) /\
  forall x, hull (minkowski_sum a b) x <-> sum_of (hull [c0 a; c1 a; c2 a; c3 a]) (hull [c0 b; c1 b; c2 b; c3 b]) x.
Proof.
  intros Ra Rb.
  destruct (rectangle_para a Ra) as [o [u [k [Hk [Hu1 [Hu2 [Hu [A0 [A1 [A2 A3]]]]]]]]]].
  destruct (rectangle_para b Rb) as [o' [w [m [Hm [Hw1 [Hw2 [Hw [B0 [B1 [B2 B3]]]]]]]]]].
  assert (HA := rectangle_hull a o u _ A0 A1 A2 A3). assert (HB := rectangle_hull b o' w _ B0 B1 B2 B3).
  assert (Da : psub (corner a (downmost a + 1)) (corner a (downmost a)) = u).
  { rewrite Nat.add_comm, A1. change (downmost a) with (0 + downmost a)%nat. rewrite A0.
    unfold psub, para. destruct u. cbn [fst snd]. f_equal; ring. }
  assert (Db : psub (corner b (downmost b + 1)) (corner b (downmost b)) = w).
  { rewrite Nat.add_comm, B1. change (downmost b) with (0 + downmost b)%nat. rewrite B0.
    unfold psub, para. destruct w. cbn [fst snd]. f_equal; ring. }
  split.
  { unfold minkowski_sum. rewrite map_length, combine_length. destruct (minkowski_condition a b); reflexivity. }
  assert (Hcond : minkowski_condition a b = true /\ 0 <= cross u w \/ minkowski_condition a b = false /\ 0 <= cross w u).
  { unfold minkowski_condition, downmost_direction. rewrite Da, Db.
    destruct (unit_vector u) as [uu|] eqn:U; [|apply unit_vector_none in U; contradiction].
    destruct (unit_vector w) as [ww|] eqn:W; [|apply unit_vector_none in W; contradiction].
    destruct (unit_cross _ _ _ _ U W) as [Ec Ep].
    destruct (rleb 0 (cross uu ww)) eqn:L.
    - left. split; [reflexivity|]. apply rleb_iff in L. rewrite Ec. nra.
    - right. split; [reflexivity|]. apply rleb_false in L. replace (cross w u) with (- cross u w) by (unfold cross; ring).
      rewrite Ec. nra. }
  destruct Hcond as [[C X]|[C X]].
  - assert (Em : minkowski_sum a b = octagon o u (rot90 u k) o' w (rot90 w m)).
    { unfold minkowski_sum. rewrite C. unfold point_order_1, point_order_2. cbn [combine map fst snd].
      rewrite A0, A1, A2, A3, B0, B1, B2, B3. reflexivity. }
    rewrite Em. split; [now apply oct_convex_polygon|]. split; [now apply oct_proper|].
    intros x. rewrite oct_hull by assumption. symmetry. now apply sum_of_iff.
  - assert (Em : minkowski_sum a b = octagon o' w (rot90 w m) o u (rot90 u k)).
    { unfold minkowski_sum. rewrite C. unfold point_order_1, point_order_2. cbn [combine map fst snd].
      rewrite A0, A1, A2, A3, B0, B1, B2, B3. unfold octagon. repeat (apply f_equal2; [apply padd_comm|]). reflexivity. }
    rewrite Em. split; [now apply oct_convex_polygon|]. split; [now apply oct_proper|].
    intros x. rewrite oct_hull by assumption. rewrite sum_of_sym. symmetry. now apply sum_of_iff.
Qed.
