(** Polygons on which construction and check do not do what one expects. *)
From Coq Require Import Reals List Arith Lra Lia Bool Psatz.
From Verif Require Import Base ResultLib GeomModel PolyModel PolySpec HullModel HullSpec.
From Verif Require Import GeomBase PolyInside HullProofs HullCheck.
Import ListNotations.
Open Scope R_scope.

(** The ends can still be close after the removal. *)
Definition ring : list pt := [(0, 0); (1, 0); (- (9 / 100000000000), 0); (9 / 100000000000, 0)].
Lemma ring_kept : remove_consecutive_duplicate_points ring = [(0, 0); (1, 0); (- (9 / 100000000000), 0)].
Proof.
  unfold ring, remove_consecutive_duplicate_points. cbn [keep_from].
  rewrite (proj2 (le_true _ (distance_sqr (1, 0) (0, 0)))) by (unfold kEpsilon, distance_sqr; cbn [fst snd]; lra).
  rewrite (proj2 (le_true _ (distance_sqr (- (9 / 100000000000), 0) (1, 0)))) by (unfold kEpsilon, distance_sqr; cbn [fst snd]; lra).
  rewrite (proj2 (le_true _ (distance_sqr (9 / 100000000000, 0) (- (9 / 100000000000), 0)))) by (unfold kEpsilon, distance_sqr; cbn [fst snd]; lra).
  cbn [length Nat.leb andb last removelast].
  rewrite (proj2 (lt_true (distance_sqr (0, 0) (9 / 100000000000, 0)) _)) by (unfold kEpsilon, distance_sqr; cbn [fst snd]; lra). reflexivity.
Qed.
Theorem ring_refuted : exists l g, (3 <= length l)%nat /\ make_polygon false l = Ok g /\ (3 <= length (points g))%nat /\ ~ open_ends (points g).
Proof.
  exists ring. eexists. split; [cbn; lia|]. split.
  - unfold make_polygon. cbn [ring length Nat.leb andb]. fold ring. rewrite ring_kept. apply build. discriminate.
  - cbn [points filled length]. split; [lia|]. intro O. apply (O (0, 0) (- (9 / 100000000000), 0) eq_refl eq_refl).
    unfold close, square_distance, Rsqr. cbn [fst snd]. lra.
Qed.

(** A clockwise square passes the check and has no inside. *)
Definition wrong_way : list pt := [(0, 0); (0, 1); (1, 1); (1, 0)].
Lemma wrong_clockwise : clockwise wrong_way.
Proof.
  split; [cbn; lia|]. unfold wrong_way, mirrored. cbn [map fst snd length]. intros i j Hi Hj.
  assert (Hs : Nat.modulo (S i) 4 = Nat.modulo (S (Nat.modulo i 4)) 4).
  { rewrite <- Nat.add_1_r, <- (Nat.add_1_r (Nat.modulo i 4)). now rewrite Nat.add_mod_idemp_l by lia. }
  unfold corner. cbn [length]. rewrite Hs in *. pose proof (Nat.mod_upper_bound i 4 ltac:(lia)) as Ui. pose proof (Nat.mod_upper_bound j 4 ltac:(lia)) as Uj.
  revert Hi Hj Ui Uj. generalize (Nat.modulo i 4) (Nat.modulo j 4). clear i j Hs. intros i j Hi Hj Ui Uj.
  destruct i as [|[|[|[|i]]]]; [| | | |lia]; (destruct j as [|[|[|[|j]]]]; [| | | |lia]); cbn in *; try contradiction; unfold turn; cbn [fst snd]; lra.
Qed.
Lemma wrong_spaced : spaced wrong_way /\ open_ends wrong_way.
Proof.
  split.
  - intros [|[|[|[|i]]]] a b A B; cbn in A, B; try discriminate; try (injection A as <-; injection B as <-; unfold close, square_distance, Rsqr; cbn [fst snd]; lra).
  - intros a b A B. cbn in A, B. injection A as <-. injection B as <-. unfold close, square_distance, Rsqr. cbn [fst snd]. lra.
Qed.
Theorem clockwise_refuted : exists P g z, clockwise P /\ make_polygon true P = Ok g /\ inside (map mirrored P) (mirrored z) /\ point_inside (points g) z = false.
Proof.
  destruct (proj2 (proj2 (made true wrong_way)) ltac:(cbn; lia) (fun _ => clockwise_accepted _ wrong_clockwise)) as (g & k & E & _ & _ & _ & _ & P & K & _).
  exists wrong_way, g, (/ 2, / 2). split; [exact wrong_clockwise|]. split; [exact E|]. split.
  - split; [discriminate|]. intro i. unfold wrong_way, mirrored, corner. cbn [map fst snd length].
    assert (Hs : Nat.modulo (S i) 4 = Nat.modulo (S (Nat.modulo i 4)) 4).
    { rewrite <- Nat.add_1_r, <- (Nat.add_1_r (Nat.modulo i 4)). now rewrite Nat.add_mod_idemp_l by lia. }
    rewrite Hs. pose proof (Nat.mod_upper_bound i 4 ltac:(lia)) as Ui. revert Ui. generalize (Nat.modulo i 4). clear i Hs. intros i Ui.
    destruct i as [|[|[|[|i]]]]; [| | | |lia]; cbn; unfold turn; cbn [fst snd]; lra.
  - rewrite (proj2 K wrong_spaced) in P. rewrite P. change (point_inside wrong_way (/ 2, / 2) = false).
    assert (Z : not_right wrong_way (/ 2, / 2) 0 1 = false).
    { unfold not_right. apply negb_false_iff, lt_true. unfold cross, psub, at_, wrong_way. cbn [nth fst snd]. lra. }
    unfold point_inside. change (Nat.ltb (length wrong_way) 3) with false. cbv iota zeta. destruct (_ || _ || _ || _); [reflexivity|].
    change (narrow (length wrong_way) wrong_way (/ 2, / 2) 0 (length wrong_way)) with (0%nat, 4%nat). cbn [fst snd Nat.sub seq forallb].
    rewrite Z. reflexivity.
Qed.

(** A fan around the first corner that turns clearly everywhere is the last thing that is checked. *)
Lemma fan_conclusive l iis : (forall ii, In ii iis -> (2 <= ii)%nat -> kEpsilon < turn (at_ l 0) (at_ l (ii - 1)) (at_ l ii)) -> forall f, snd f = false ->
  exists f', shift_loop l (at_ l 0) iis f = Some (f', true) /\ snd f' = false.
Proof.
  induction iis as [|ii iis IH]; intros H f E; cbn [shift_loop]; [exists f; auto|].
  assert (H' : forall i, In i iis -> (2 <= i)%nat -> kEpsilon < turn (at_ l 0) (at_ l (i - 1)) (at_ l i)) by (intros i I; apply H; now right).
  destruct (Nat.leb_spec 2 ii) as [L|L].
  - rewrite cross_turn. pose proof (H ii (or_introl eq_refl) L) as C. rewrite (proj2 (lt_true _ _) C). cbn [negb andb]. pose proof eps_pos.
    pose proof (see_nonneg _ f ltac:(apply Rlt_le, Rlt_trans with kEpsilon; [exact eps_pos|exact C]) E) as E'. rewrite (both_snd _ E'). now apply IH.
  - rewrite (both_snd _ E). now apply IH.
Qed.
Lemma fan_accepted l : l <> [] ->
  (forall ii, (ii < length l)%nat -> 0 <= turn (at_ l (prev_ix (length l) ii)) (at_ l ii) (at_ l (next_ix (length l) ii))) ->
  (forall ii, (2 <= ii < length l)%nat -> kEpsilon < turn (at_ l 0) (at_ l (ii - 1)) (at_ l ii)) -> is_convex_hull l = Some true.
Proof.
  intros N T F. unfold is_convex_hull.
  destruct (turns_left l T (seq 0 (length l)) (fun i I => proj2 (proj1 (in_seq _ 0 i) I)) (false, false) eq_refl) as (f & -> & E).
  destruct (fan_conclusive l (seq 0 (length l)) (fun i I L => F i (conj L (proj2 (proj1 (in_seq _ 0 i) I)))) f E) as (f' & Q & E').
  destruct l as [|a l]; [contradiction|]. change (seq 0 (length (a :: l))) with (0%nat :: seq 1 (length l)) at 1. cbn [refs_loop]. rewrite Q. now rewrite E'.
Qed.
(** A spiral that goes around its first corner more than once. *)
Definition spiral : list pt := [(0, 0); (1, 0); (0, 2); (-3, 0); (0, -4); (5, 1); (1, 6)].
Lemma spiral_accepted : is_convex_hull spiral = Some true.
Proof.
  apply fan_accepted; [discriminate| |]; cbn [spiral length].
  - intros ii I. destruct ii as [|[|[|[|[|[|[|ii]]]]]]]; [| | | | | | |lia]; cbn; unfold turn; cbn [fst snd]; lra.
  - intros ii I. destruct ii as [|[|[|[|[|[|[|ii]]]]]]]; [lia|lia| | | | | |lia]; cbn; unfold turn, kEpsilon; cbn [fst snd]; lra.
Qed.
Theorem spiral_refuted : exists P, is_convex_hull P = Some true /\ (exists g, make_polygon true P = Ok g /\ points g = P) /\
  ~ convex P /\ ~ clockwise P.
Proof.
  exists spiral. split; [exact spiral_accepted|]. split; [|split].
  - destruct (proj2 (proj2 (made true spiral)) ltac:(cbn; lia) ltac:(intros _; rewrite spiral_accepted; discriminate)) as (g & k & E & _ & _ & _ & _ & P & K & _).
    exists g. split; [exact E|]. assert (k = spiral) as ->; [|exact P]. apply K. split.
    + intros [|[|[|[|[|[|[|i]]]]]]] a b A B; cbn in A, B; try discriminate; try (injection A as <-; injection B as <-; unfold close, square_distance, Rsqr; cbn [fst snd]; lra).
      + intros a b A B. cbn in A, B. injection A as <-. injection B as <-. unfold close, square_distance, Rsqr. cbn [fst snd]. lra.
  - intros (_ & H). specialize (H 0%nat 4%nat ltac:(discriminate) ltac:(discriminate)). unfold turn, corner in H. cbn in H. lra.
  - intros (_ & H). specialize (H 0%nat 2%nat ltac:(discriminate) ltac:(discriminate)). unfold turn, corner in H. cbn in H. lra.
Qed.
(** A square meets the conditions. *)
Lemma square_clear i : / 10000000000 < Rabs (turn (corner (map mirrored wrong_way) i) (corner (map mirrored wrong_way) (S i)) (corner (map mirrored wrong_way) (S (S i)))).
Proof.
  apply Rlt_le_trans with (turn (corner (map mirrored wrong_way) i) (corner (map mirrored wrong_way) (S i)) (corner (map mirrored wrong_way) (S (S i)))); [|apply Rle_abs].
  unfold wrong_way, mirrored, corner. cbn [map fst snd length].
  replace (Nat.modulo (S i) 4) with (Nat.modulo (S (Nat.modulo i 4)) 4) by (rewrite <- Nat.add_1_r, <- (Nat.add_1_r i); apply Nat.add_mod_idemp_l; lia).
  replace (Nat.modulo (S (S i)) 4) with (Nat.modulo (S (S (Nat.modulo i 4))) 4)
    by (replace (S (S (Nat.modulo i 4))) with (Nat.modulo i 4 + 2)%nat by lia; replace (S (S i)) with (i + 2)%nat by lia; apply Nat.add_mod_idemp_l; lia).
  pose proof (Nat.mod_upper_bound i 4 ltac:(lia)) as Ui. revert Ui. generalize (Nat.modulo i 4). clear i. intros i Ui.
  destruct i as [|[|[|[|i]]]]; [| | | |lia]; cbn; unfold turn; cbn [fst snd]; lra.
Qed.
