(** The corners of the common part. *)
From Coq Require Import Reals Lra Psatz List Arith Lia Bool.
From Verif Require Import Base GeomModel GeomBase PolyModel PolySpec PolySegProofs PolyChain PolyPair PolyPass PolyPath PolyExact PolyTurning PolyVertices PolyInside PolyComplete.
Import ListNotations.
Open Scope R_scope.

Lemma corners_inside P Q z : convex P -> convex Q -> (forall w, In w P -> inside Q w) -> inside P z -> inside Q z.
Proof.
  intros CP CQ H Z. destruct (convex_chain P CP) as (C & GC & RC). destruct (convex_chain Q CQ) as (D & GD & RD).
  apply (inside_chain D Q z GD RD). apply (corners_in C D z GC GD); [|now apply (inside_chain C P z GC RC)].
  intros i. apply (inside_chain D Q _ GD RD). apply H. destruct RC as [N V]. rewrite V. apply nth_In, Nat.mod_upper_bound.
  pose proof (proj1 CP). lia.
Qed.
Lemma all_inside P Q : convex Q -> forallb (point_inside Q) P = true -> forall w, In w P -> inside Q w.
Proof. intros CQ H w W. rewrite forallb_forall in H. now apply point_inside_iff, H. Qed.
Theorem vertices_exact P Q : convex P -> convex Q -> intersection_vertices P Q <> [] ->
  convex (intersection_vertices P Q) /\ forall z, inside (intersection_vertices P Q) z <-> inside P z /\ inside Q z.
Proof.
  intros CP CQ. unfold intersection_vertices. destruct (negb (maybe_has_intersection P Q)); [now intros H|].
  destruct (traverse P Q) as [l| |] eqn:T; [|now intros H|].
  - intros _. destruct (two_chains P Q CP CQ) as (A & B & GA & GB & RA & RB & Sy).
    destruct (closed_exact A B GA GB P Q RA RB Sy l T) as (G & L & Go & Ex).
    split; [apply (chain_convex _ l Go), around_reps|]. intros z.
    rewrite (inside_chain _ l z Go (around_reps l G L)), (inside_chain A P z GA RA), (inside_chain B Q z GB RB). apply Ex.
  - destruct (forallb (point_inside Q) P) eqn:E1.
    + intros _. split; auto. intros z. split; [|tauto]. intros Z. split; auto.
      apply (corners_inside P Q); auto. now apply all_inside.
    + destruct (forallb (point_inside P) Q) eqn:E2; [|now intros H].
      intros _. split; auto. intros z. split; [|tauto]. intros Z. split; auto.
      apply (corners_inside Q P); auto. now apply all_inside.
Qed.
Lemma some_outside P Q : convex Q -> forallb (point_inside Q) P = false -> exists i, ~ inside Q (corner P i).
Proof.
  intros CQ H. assert (E : exists w, In w P /\ point_inside Q w = false).
  { clear CQ. induction P as [|a P IH]; [discriminate|]. cbn [forallb] in H. apply andb_false_iff in H as [H|H].
    - exists a. split; auto. now left.
    - destruct (IH H) as (w & W & E). exists w. split; auto. now right. }
  destruct E as (w & W & E). apply (In_nth _ _ (0, 0)) in W as (i & I & <-). exists i. unfold corner. rewrite Nat.mod_small by auto.
  intros X. apply (point_inside_iff Q CQ) in X. congruence.
Qed.
Theorem vertices_found P Q z : convex P -> convex Q -> no_contact P Q -> inside P z -> inside Q z -> intersection_vertices P Q <> [].
Proof.
  intros CP CQ NC ZP ZQ. unfold intersection_vertices. rewrite (maybe_complete P Q z) by auto. cbn [negb].
  destruct (two_chains P Q CP CQ) as (A & B & GA & GB & RA & RB & Sy).
  assert (VA : forall i, cv A i = corner P i) by apply RA. assert (VB : forall i, cv B i = corner Q i) by apply RB.
  assert (NC' : forall i j, ~ on B j (cv A i) /\ ~ on A i (cv B j)).
  { intros i j. destruct (NC i j) as [N1 N2]. rewrite <- (VA i), <- (VB j), <- (VB (S j)) in N1. rewrite <- (VA i), <- (VB j), <- (VA (S i)) in N2.
    split; intros O; [apply N1 | apply N2]; now apply between_on. }
  assert (Cl : forall i j x, on A i x -> on B j x -> exists l, traverse P Q = Closed l).
  { intros i j x. apply (traverse_closes A B GA GB P Q RA RB NC' Sy). }
  assert (Found : traverse P Q <> Open).
  { intros E. destruct (searching_apart A B GA GB P Q RA RB ((length P + length Q) * 2) (cn A) (cn B)) as [No|_].
    { rewrite (start_state A B GA GB P Q RA RB), No in E. discriminate. }
    assert (R0 : running A B (cn A) (cn B)) by (split; auto).
    assert (Mz : meet A B z) by (split; [now apply (inside_chain A P) | now apply (inside_chain B Q)]).
    destruct (searching_found A B GA GB P Q RA RB ((length P + length Q) * 2) (cn A) (cn B) R0 (ex_intro _ z Mz))
      as [X|(i0 & j0 & x0 & i' & j' & m' & R & X & _)].
    - rewrite (start_state A B GA GB P Q RA RB), X in E. discriminate.
    - destruct (inter_some A B GA GB i0 j0 x0 X) as (X1 & X2 & _). destruct (Cl _ _ _ X1 X2) as (l & L). congruence. }
  destruct (traverse P Q) as [l| |] eqn:T; [|now elim Found|].
  - intros ->. destruct (closed_exact A B GA GB P Q RA RB Sy [] T) as (G & L & Go & _). pose proof (g_n _ Go) as N. cbn in N. lia.
  - destruct (forallb (point_inside Q) P) eqn:E1; [intros ->; destruct CP as [N _]; cbn in N; lia|].
    destruct (forallb (point_inside P) Q) eqn:E2; [intros ->; destruct CQ as [N _]; cbn in N; lia|].
    exfalso. destruct (some_outside P Q CQ E1) as (i & I). destruct (some_outside Q P CP E2) as (j & J).
    destruct (boundaries_meet A B GA GB z i j) as (i1 & j1 & x & X1 & X2).
    + split; [now apply (inside_chain A P) | now apply (inside_chain B Q)].
    + rewrite VA. intros X. apply I. now apply (inside_chain B Q).
    + rewrite VB. intros X. apply J. now apply (inside_chain A P).
    + destruct (Cl _ _ _ X1 X2) as (l & L). congruence.
Qed.
