(** The corners of a convex polygon are determined by its points; a polygon and itself. *)
From Coq Require Import Reals Lra Psatz List Arith Lia Bool.
From Verif Require Import Base GeomModel GeomBase PolyModel PolySpec PolySegProofs PolyChain PolyPair PolyPass PolyPath PolyExact PolyTurning PolyVertices PolyInside PolyComplete PolyMeet PolyArea.
Import ListNotations.
Open Scope R_scope.

Lemma distinct C i k : good C -> (i < k < i + cn C)%nat -> cv C i <> cv C k.
Proof.
  intros G K E. destruct (Nat.eq_dec k (S i)) as [->|N]; [now apply (edge_proper C i G)|].
  pose proof (vertex_strict C G i k ltac:(lia)) as V. rewrite E in V. lra.
Qed.
Lemma lowest_unique C i a z : good C -> ca C i < a < ca C (S i) -> inC C z -> hgt a z <= hgt a (cv C (S i)) -> z = cv C (S i).
Proof.
  intros G A Z H. pose proof (g_step C G i) as St. pose proof (Z i) as Zi. pose proof (Z (S i)) as Zs. unfold left in Zi, Zs.
  rewrite <- (end_height C G i) in Zi. set (w := cv C (S i)) in *. set (u := ca C i) in *. set (b := ca C (S i)) in *.
  assert (E : sin (b - u) * (hgt a z - hgt a w) = sin (b - a) * (hgt u z - hgt u w) + sin (a - u) * (hgt b z - hgt b w)).
  { unfold hgt. rewrite !sin_minus. destruct z as [z1 z2], w as [w1 w2]; cbn [fst snd].
    pose proof (sincos a) as Tc. pose proof (sincos u) as Ta. pose proof (sincos b) as Tb. ring. }
  assert (S1 : 0 < sin (b - u)) by (apply sin_gt_0; lra). assert (S2 : 0 < sin (b - a)) by (apply sin_gt_0; lra).
  assert (S3 : 0 < sin (a - u)) by (apply sin_gt_0; lra).
  assert (H0 : sin (b - u) * (hgt a z - hgt a w) <= 0).
  { assert (0 <= sin (b - u) * (hgt a w - hgt a z)) by (apply Rmult_le_pos; lra). lra. }
  assert (H1 : 0 <= sin (b - a) * (hgt u z - hgt u w)) by (apply Rmult_le_pos; lra).
  assert (H2 : 0 <= sin (a - u) * (hgt b z - hgt b w)) by (apply Rmult_le_pos; lra).
  assert (Z1 : sin (b - a) * (hgt u z - hgt u w) = 0) by lra. assert (Z2 : sin (a - u) * (hgt b z - hgt b w) = 0) by lra.
  apply Rmult_integral in Z1 as [|Z1]; [lra|]. apply Rmult_integral in Z2 as [|Z2]; [lra|].
  apply (height_det u b); lra.
Qed.
Lemma length_of v s t a b : 0 <= s -> 0 <= t -> move v s a = move v t b -> s = t.
Proof.
  intros S0 T0 E. unfold move in E. apply pair_equal_spec in E as [E1 E2].
  assert (A : s * cos a = t * cos b) by lra. assert (B : s * sin a = t * sin b) by lra.
  assert (Q : s * s = t * t).
  { transitivity (s * s * (sin a * sin a + cos a * cos a)); [rewrite sincos; ring|].
    transitivity (t * t * (sin b * sin b + cos b * cos b)); [|rewrite sincos; ring].
    replace (s * s * (sin a * sin a + cos a * cos a)) with ((s * sin a) * (s * sin a) + (s * cos a) * (s * cos a)) by ring.
    rewrite A, B. ring. }
  assert (F : (s - t) * (s + t) = 0) by lra. apply Rmult_integral in F as [F|F]; lra.
Qed.
Section Same.
Variables (C D : chain) (GC : good C) (GD : good D) (E : forall z, inC C z <-> inC D z).
Lemma same_step i k : cv C i = cv D k -> cv C (S i) = cv D (S k).
Proof.
  intros V. pose proof (g_pos C GC i) as L1. pose proof (g_pos D GD k) as L2.
  assert (I1 : inC D (cv C (S i))) by (apply E; now apply vertex_in). assert (I2 : inC C (cv D (S k))) by (apply E; now apply vertex_in).
  pose proof (I1 k) as H1. pose proof (I2 i) as H2. unfold left in H1, H2.
  rewrite (g_move C GC), hgt_move, V in H1. rewrite (g_move D GD), hgt_move, V in H2.
  replace (ca D k - ca C i) with (- (ca C i - ca D k)) in H2 by ring. rewrite sin_neg in H2.
  assert (Z : sin (ca C i - ca D k) = 0).
  { destruct (Rtotal_order (sin (ca C i - ca D k)) 0) as [X|[X|X]]; auto.
    - assert (0 < cl C i * (- sin (ca C i - ca D k))) by (apply Rmult_lt_0_compat; lra). lra.
    - assert (0 < cl D k * sin (ca C i - ca D k)) by (apply Rmult_lt_0_compat; lra). lra. }
  destruct (height_on C GC i (cv D (S k)) I2) as (t & T & Et).
  { rewrite (g_move D GD), hgt_move, V. replace (ca D k - ca C i) with (- (ca C i - ca D k)) by ring. rewrite sin_neg, Z. ring. }
  destruct (height_on D GD k (cv C (S i)) I1) as (t' & T' & Et').
  { rewrite (g_move C GC), hgt_move, V, Z. ring. }
  assert (X1 : cl D k = t) by (apply (length_of (cv D k) (cl D k) t (ca D k) (ca C i)); [lra | lra | rewrite <- (g_move D GD), Et, V; auto]).
  assert (X2 : cl C i = t') by (apply (length_of (cv C i) (cl C i) t' (ca C i) (ca D k)); [lra | lra | rewrite <- (g_move C GC), Et', V; auto]).
  rewrite Et, (g_move C GC). f_equal. lra.
Qed.
Lemma same_start : exists k, forall i, cv C (S i) = cv D (k + i).
Proof.
  set (a := (ca C 0 + ca C 1) / 2). pose proof (g_step C GC 0) as St.
  set (k := turns (a - ca D 0)). pose proof (turns_ok (a - ca D 0)) as T. fold k in T. pose proof PI_RGT_0.
  destruct (first_after D GD (a + IZR (k + 1) * (2 * PI))) as (l & L1 & L2); [rewrite plus_IZR; lra|].
  assert (B : cv D (S l) = cv C 1).
  { apply (lowest_unique C 0 a); auto; [unfold a; lra | apply E; now apply vertex_in |].
    assert (I : inC D (cv C 1)) by (apply E; now apply vertex_in).
    pose proof (support D GD l (a + IZR (k + 1) * (2 * PI)) (cv C 1) ltac:(lra) I) as W. now rewrite !hgt_turns in W. }
  exists (S l). induction i as [|i IH]; [now rewrite Nat.add_0_r|]. rewrite Nat.add_succ_r. now apply same_step.
Qed.
End Same.
Lemma same_count C D : good C -> good D -> (forall z, inC C z <-> inC D z) -> (cn D <= cn C)%nat.
Proof.
  intros GC GD E. destruct (same_start C D GC GD E) as (k & K). destruct (le_lt_dec (cn D) (cn C)) as [|L]; auto. exfalso.
  pose proof (g_n C GC). apply (distinct D k (k + cn C) GD); [lia|]. rewrite <- K. rewrite <- (Nat.add_0_r k) at 1. rewrite <- K.
  symmetry. apply (g_v C GC 1).
Qed.
Theorem area_of_points P Q : convex P -> convex Q -> (forall z, inside P z <-> inside Q z) -> twice_area P = twice_area Q.
Proof.
  intros CP CQ H. destruct (convex_chain P CP) as (C & GC & RC). destruct (convex_chain Q CQ) as (D & GD & RD).
  assert (E : forall z, inC C z <-> inC D z).
  { intros z. rewrite <- (inside_chain C P z GC RC), <- (inside_chain D Q z GD RD). apply H. }
  assert (N : cn C = cn D) by (apply Nat.le_antisymm; apply same_count; auto; intros; now rewrite E).
  destruct (same_start C D GC GD E) as (k & K).
  rewrite !twice_rim. replace (length P) with (cn C) by apply RC. replace (length Q) with (cn D) by apply RD. rewrite <- N.
  rewrite (sumn_ext (rim (corner P)) (rim (cv C))) by (intros; unfold rim, corner; now rewrite <- !(proj2 RC)).
  rewrite (sumn_ext (rim (corner Q)) (rim (cv D))) by (intros; unfold rim, corner; now rewrite <- !(proj2 RD)).
  rewrite <- (sumn_period (rim (cv C)) (cn C) 1) by (intros; unfold rim; replace (S (i + cn C)) with (S i + cn C)%nat by lia; now rewrite !(g_v C GC)).
  rewrite <- (sumn_period (rim (cv D)) (cn C) k).
  2:{ intros i. rewrite N. unfold rim. replace (S (i + cn D)) with (S i + cn D)%nat by lia. now rewrite !(g_v D GD). }
  rewrite <- (Nat.add_0_r k) at 1. rewrite <- (sumn_shift (rim (cv D)) k 0). change 1%nat with (1 + 0)%nat. rewrite <- (sumn_shift (rim (cv C)) 1 0).
  apply sumn_ext. intros i _. unfold rim. cbn [Nat.add]. rewrite !K. now rewrite Nat.add_succ_r.
Qed.

(** A polygon and itself. *)
Section Self.
Variables (A : chain) (GA : good A) (P : list pt) (RA : reps A P).
Notation p := (cv A).
Notation n := (cn A).
Lemma inter_self i : inter A A i i = Some (p i).
Proof.
  destruct (inter A A i i) as [x|] eqn:X.
  - destruct (inter_some A A GA GA i i x X) as (_ & _ & D). destruct D as [_ D].
    + replace (ca A i - ca A i) with 0 by ring. apply sin_0.
    + f_equal. apply D. now apply on_start.
  - exfalso. apply (inter_none A A GA GA i i X (p i)); now apply on_start.
Qed.
Lemma inter_next i : inter A A i (S i) = Some (p (S i)).
Proof.
  destruct (inter A A i (S i)) as [x|] eqn:X.
  - destruct (inter_some A A GA GA i (S i) x X) as (X1 & X2 & _). f_equal.
    apply (inter_unique A A i (S i)); auto using on_end, on_start.
    pose proof (g_step A GA i) as St. assert (sin (ca A i - ca A (S i)) < 0) by (apply sin_lt_0_var; lra). lra.
  - exfalso. apply (inter_none A A GA GA i (S i) X (p (S i))); auto using on_end, on_start.
Qed.
Lemma on_left i j : on A j (p (S i)) -> rleb 0 (cross_maybe_exact (p (S j)) (p j) (p (S i)) (p j)) = true.
Proof. intros O. apply rleb_iff, (inside_test A A GA). unfold left. rewrite (on_height A j _ O). lra. Qed.
Lemma step_self i fp fq V : ~ (2 < length V /\ p i = at_ V 0)%nat ->
  step P P (st P P i i fp fq V) = inr (st P P i (S i) true false (append_convex_point (p i) V)).
Proof.
  intros N. rewrite (step_st A A GA GA P P RA RA), inter_self.
  destruct (Nat.ltb 2 (length V) && peqb (p i) (at_ V 0)) eqn:T.
  { exfalso. apply N. apply andb_true_iff in T as [T1 T2]. apply Nat.ltb_lt in T1. apply peqb_iff in T2. auto. }
  cbv zeta. rewrite (on_left i i (on_end A GA i)). cbn [negb]. f_equal.
  assert (Sy : sync A A i i) by (unfold sync; pose proof PI_RGT_0; lra).
  destruct (advance_st A A GA GA P P RA RA i i true false (append_convex_point (p i) V) Sy) as [[Ad _]|[_ ->]]; auto.
  exfalso. destruct Ad as [[_ X]|[X _]]; [|lra]. apply X. unfold left. rewrite (end_height A GA). lra.
Qed.
Lemma step_corner i fp fq V : ~ (2 < length V /\ p (S i) = at_ V 0)%nat ->
  step P P (st P P i (S i) fp fq V) = inr (st P P (S i) (S i) true false (append_convex_point (p (S i)) V)).
Proof.
  intros N. rewrite (step_st A A GA GA P P RA RA), inter_next.
  destruct (Nat.ltb 2 (length V) && peqb (p (S i)) (at_ V 0)) eqn:T.
  { exfalso. apply N. apply andb_true_iff in T as [T1 T2]. apply Nat.ltb_lt in T1. apply peqb_iff in T2. auto. }
  cbv zeta. rewrite (on_left i (S i) (on_start A GA (S i))). cbn [negb]. f_equal.
  pose proof (g_step A GA i) as St. assert (Sy : sync A A i (S i)) by (unfold sync; lra).
  destruct (advance_st A A GA GA P P RA RA i (S i) true false (append_convex_point (p (S i)) V) Sy) as [[_ ->]|[Ad _]]; [now rewrite append_twice|].
  exfalso. destruct Ad as [[X _]|[_ X]]; [lra|]. apply X. apply vertex_in; auto.
Qed.
Lemma append_new x V : V <> [] -> x <> at_ V 0 -> x <> last V o -> append_convex_point x V = V ++ [x].
Proof. intros NV N1 N2. destruct (append_cases x V NV) as [[_ X]|[(_ & X & _)|[X _]]]; [contradiction | contradiction | auto]. Qed.
Lemma append_last x V : append_convex_point x (V ++ [x]) = V ++ [x].
Proof.
  destruct (append_cases x (V ++ [x])) as [[X _]|[[X _]|(_ & _ & X)]]; auto; [now destruct V|]. now rewrite last_last in X.
Qed.
Definition first_corners (k : nat) : list pt := map p (seq n (S k)).
Lemma first_snoc k : first_corners (S k) = first_corners k ++ [p (n + S k)].
Proof. unfold first_corners. rewrite (seq_S (S k) n), map_app. reflexivity. Qed.
Lemma first_last k : last (first_corners k) o = p (n + k).
Proof. destruct k; [unfold first_corners; cbn [seq map last]; now rewrite Nat.add_0_r|]. rewrite first_snoc. apply last_last. Qed.
Lemma closing_self d : forall k r fp fq, (k + d = n - 1)%nat -> (2 * d < r)%nat ->
  closing r P P (st P P (n + k) (n + S k) fp fq (first_corners k)) = Closed (first_corners (n - 1)).
Proof.
  pose proof (g_n A GA) as N3.
  assert (L : forall k, length (first_corners k) = S k) by (intros; unfold first_corners; now rewrite map_length, seq_length).
  induction d as [|d IH]; intros k r fp fq K R.
  - destruct r as [|r]; [lia|]. cbn [closing]. rewrite (step_st A A GA GA P P RA RA).
    rewrite Nat.add_succ_r, inter_next. rewrite L. replace (Nat.ltb 2 (S k)) with true by (symmetry; apply Nat.ltb_lt; lia).
    replace (p (S (n + k))) with (at_ (first_corners k) 0).
    2:{ unfold first_corners. cbn [seq map at_ nth]. replace (S (n + k)) with (n + n)%nat by lia. symmetry. apply (g_v A GA). }
    rewrite (proj2 (peqb_iff _ _) eq_refl). cbn [andb]. now replace (n - 1)%nat with k by lia.
  - destruct r as [|[|r]]; try lia. cbn [closing].
    assert (Hd : forall k, at_ (first_corners k) 0 = p n) by reflexivity.
    assert (Ne : p (n + S k) <> p n) by (intros X; symmetry in X; revert X; apply distinct; auto; lia).
    rewrite (Nat.add_succ_r n k), step_corner by (rewrite Hd, <- Nat.add_succ_r; tauto). rewrite <- Nat.add_succ_r.
    rewrite append_new; [ | discriminate | now rewrite Hd |].
    2:{ rewrite first_last. intros X. symmetry in X. revert X. apply distinct; auto. lia. }
    rewrite <- first_snoc. rewrite step_self by (rewrite Hd; tauto). rewrite first_snoc, append_last, <- first_snoc.
    rewrite <- (Nat.add_succ_r n (S k)). apply IH; lia.
Qed.
Lemma traverse_self : traverse P P = Closed P.
Proof.
  pose proof (g_n A GA) as N3. rewrite (start_state A A GA GA P P RA RA). destruct RA as [N V].
  assert (E : ((length P + length P) * 2)%nat = S (4 * n - 1)) by lia. rewrite E. cbn [searching].
  rewrite step_self by (cbn [length]; lia). cbn [append_convex_point st convex_points].
  change (closing (length P + length P) P P (st P P n (S n) true false (first_corners 0)) = Closed P).
  replace (st P P n (S n) true false (first_corners 0)) with (st P P (n + 0) (n + 1) true false (first_corners 0)) by (now rewrite Nat.add_0_r, Nat.add_1_r).
  rewrite (closing_self (n - 1)) by lia. f_equal. unfold first_corners. replace (S (n - 1)) with n by lia.
  apply (nth_ext _ _ o o); [rewrite map_length, seq_length; auto|]. intros i I. rewrite map_length, seq_length in I.
  rewrite (nth_indep _ o (p 0)) by (rewrite map_length, seq_length; auto). rewrite map_nth, seq_nth by auto.
  rewrite Nat.add_comm, (g_v A GA), V. f_equal. apply Nat.mod_small. lia.
Qed.
End Self.
Theorem vertices_self P : convex P -> intersection_vertices P P = P.
Proof.
  intros CP. destruct (convex_chain P CP) as (A & GA & RA). unfold intersection_vertices.
  rewrite (maybe_complete P P (corner P 0)); auto.
  - cbn [negb]. now rewrite (traverse_self A GA P RA).
  - split; [intros ->; destruct CP as [N _]; cbn in N; lia|]. intros i. now apply weakly_left.
  - split; [intros ->; destruct CP as [N _]; cbn in N; lia|]. intros i. now apply weakly_left.
Qed.
