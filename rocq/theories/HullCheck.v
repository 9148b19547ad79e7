(** Proofs about the convexity check. *)
From Coq Require Import Reals List Arith Lra Lia Bool Psatz.
From Verif Require Import Base ResultLib GeomModel PolyModel PolySpec HullModel HullSpec.
From Verif Require Import GeomBase PolyInside HullProofs.
Import ListNotations.
Open Scope R_scope.

Lemma cross_turn a b c : cross3 a b c = turn a b c.
Proof. unfold cross3, cross, psub, turn. cbn [fst snd]. ring. Qed.
(** The directions seen are only added to. *)
Lemma see_nonneg c f : 0 <= c -> snd f = false -> snd (see c f) = false.
Proof.
  intros C F. unfold see. pose proof eps_pos. destruct (rltb kEpsilon c); [exact F|]. rewrite (proj2 (lt_false c (- kEpsilon))) by lra. exact F.
Qed.
Lemma see_nonpos c f : c <= 0 -> fst f = false -> fst (see c f) = false.
Proof.
  intros C F. unfold see. pose proof eps_pos. rewrite (proj2 (lt_false kEpsilon c)) by lra. destruct (rltb c _); exact F.
Qed.
Lemma both_snd f : snd f = false -> both f = false.
Proof. intro H. unfold both. rewrite H. apply andb_false_r. Qed.
Lemma both_fst f : fst f = false -> both f = false.
Proof. intro H. unfold both. now rewrite H. Qed.
Definition prev_ix (n ii : nat) : nat := if Nat.eqb ii 0 then (n - 1)%nat else (ii - 1)%nat.
Definition next_ix (n ii : nat) : nat := if Nat.eqb ii (n - 1) then 0%nat else (ii + 1)%nat.
Section Signs.
Variable l : list pt.
Let n := length l.
Section Left.
Hypothesis T : forall ii, (ii < n)%nat -> 0 <= turn (at_ l (prev_ix n ii)) (at_ l ii) (at_ l (next_ix n ii)).
Hypothesis F : forall r ii, (r < n)%nat -> (2 <= ii < n)%nat -> 0 <= turn (at_ l r) (at_ l (ii - 1)) (at_ l ii).
Lemma turns_left iis : (forall i, In i iis -> (i < n)%nat) -> forall f, snd f = false -> exists f', turns_loop l iis f = Some f' /\ snd f' = false.
Proof.
  induction iis as [|ii iis IH]; intros H f E; cbn [turns_loop]; [exists f; auto|].
  rewrite cross_turn. pose proof (see_nonneg _ f (T ii (H ii (or_introl eq_refl))) E) as E'. unfold prev_ix, next_ix, n in E'.
  rewrite (both_snd _ E'). apply IH; [intros i I; apply H; now right|exact E'].
Qed.
Lemma shift_left r iis : (r < n)%nat -> (forall i, In i iis -> (i < n)%nat) -> forall f, snd f = false ->
  exists f' c, shift_loop l (at_ l r) iis f = Some (f', c) /\ snd f' = false.
Proof.
  intro R0. induction iis as [|ii iis IH]; intros H f E; cbn [shift_loop]; [exists f, true; auto|].
  assert (H' : forall i, In i iis -> (i < n)%nat) by (intros i I; apply H; now right).
  destruct (Nat.leb_spec 2 ii) as [L|L].
  - rewrite cross_turn. destruct (_ && _) eqn:D; [exists f, false; auto|]. clear D.
    pose proof (see_nonneg _ f (F r ii R0 (conj L (H ii (or_introl eq_refl)))) E) as E'. rewrite (both_snd _ E'). now apply IH.
  - rewrite (both_snd _ E). now apply IH.
Qed.
Lemma refs_left refs : (forall i, In i refs -> (i < n)%nat) -> forall f, snd f = false -> exists f', refs_loop l refs f = Some f' /\ snd f' = false.
Proof.
  induction refs as [|r refs IH]; intros H f E; cbn [refs_loop]; [exists f; auto|].
  destruct (shift_left r (seq 0 n) (H r (or_introl eq_refl)) (fun i I => proj2 (proj1 (in_seq n 0 i) I)) f E) as (f' & c & Q & E'). fold n. rewrite Q.
  destruct c; [exists f'; auto|]. apply IH; [intros i I; apply H; now right|exact E'].
Qed.
Lemma hull_left : is_convex_hull l = Some true.
Proof.
  unfold is_convex_hull. fold n. assert (S : forall i, In i (seq 0 n) -> (i < n)%nat) by (intros i I; apply in_seq in I; lia).
  destruct (turns_left (seq 0 n) S (false, false) eq_refl) as (f & -> & E). destruct (refs_left (seq 0 n) S f E) as (f' & -> & E'). now rewrite E'.
Qed.
End Left.
Section Right.
Hypothesis T : forall ii, (ii < n)%nat -> turn (at_ l (prev_ix n ii)) (at_ l ii) (at_ l (next_ix n ii)) <= 0.
Hypothesis F : forall r ii, (r < n)%nat -> (2 <= ii < n)%nat -> turn (at_ l r) (at_ l (ii - 1)) (at_ l ii) <= 0.
Lemma turns_right iis : (forall i, In i iis -> (i < n)%nat) -> forall f, fst f = false -> exists f', turns_loop l iis f = Some f' /\ fst f' = false.
Proof.
  induction iis as [|ii iis IH]; intros H f E; cbn [turns_loop]; [exists f; auto|].
  rewrite cross_turn. pose proof (see_nonpos _ f (T ii (H ii (or_introl eq_refl))) E) as E'. unfold prev_ix, next_ix, n in E'.
  rewrite (both_fst _ E'). apply IH; [intros i I; apply H; now right|exact E'].
Qed.
Lemma shift_right r iis : (r < n)%nat -> (forall i, In i iis -> (i < n)%nat) -> forall f, fst f = false ->
  exists f' c, shift_loop l (at_ l r) iis f = Some (f', c) /\ fst f' = false.
Proof.
  intro R0. induction iis as [|ii iis IH]; intros H f E; cbn [shift_loop]; [exists f, true; auto|].
  assert (H' : forall i, In i iis -> (i < n)%nat) by (intros i I; apply H; now right).
  destruct (Nat.leb_spec 2 ii) as [L|L].
  - rewrite cross_turn. destruct (_ && _) eqn:D; [exists f, false; auto|]. clear D.
    pose proof (see_nonpos _ f (F r ii R0 (conj L (H ii (or_introl eq_refl)))) E) as E'. rewrite (both_fst _ E'). now apply IH.
  - rewrite (both_fst _ E). now apply IH.
Qed.
Lemma refs_right refs : (forall i, In i refs -> (i < n)%nat) -> forall f, fst f = false -> exists f', refs_loop l refs f = Some f' /\ fst f' = false.
Proof.
  induction refs as [|r refs IH]; intros H f E; cbn [refs_loop]; [exists f; auto|].
  destruct (shift_right r (seq 0 n) (H r (or_introl eq_refl)) (fun i I => proj2 (proj1 (in_seq n 0 i) I)) f E) as (f' & c & Q & E'). fold n. rewrite Q.
  destruct c; [exists f'; auto|]. apply IH; [intros i I; apply H; now right|exact E'].
Qed.
Lemma hull_right : is_convex_hull l <> None.
Proof.
  unfold is_convex_hull. fold n. assert (S : forall i, In i (seq 0 n) -> (i < n)%nat) by (intros i I; apply in_seq in I; lia).
  destruct (turns_right (seq 0 n) S (false, false) eq_refl) as (f & -> & E). destruct (refs_right (seq 0 n) S f E) as (f' & -> & E'). discriminate.
Qed.
End Right.
(** What acceptance tells. *)
Lemma see_keeps c f : (snd f = true -> snd (see c f) = true) /\ (snd (see c f) = false -> - kEpsilon <= c /\ snd f = false).
Proof.
  unfold see. destruct (rltb kEpsilon c) eqn:A; [apply lt_true in A|]. { cbn [snd]. pose proof eps_pos. split; [auto|]. intro; split; [lra|assumption]. }
  destruct (rltb c (- kEpsilon)) eqn:B; [cbn [snd]; split; [auto|discriminate]|]. apply lt_false in B. auto.
Qed.
Lemma turns_tell iis : forall f f', turns_loop l iis f = Some f' -> snd f' = false ->
  snd f = false /\ forall ii, In ii iis -> - kEpsilon <= turn (at_ l (prev_ix n ii)) (at_ l ii) (at_ l (next_ix n ii)).
Proof.
  induction iis as [|ii iis IH]; intros f f' H E; cbn [turns_loop] in H; [injection H as ->; split; [exact E|intros _ []]|].
  rewrite cross_turn in H. destruct (both _); [discriminate H|]. destruct (IH _ _ H E) as (E1 & A).
  destruct (proj2 (see_keeps _ _) E1) as (C & E0). split; [exact E0|]. intros i [<-|I]; [exact C|now apply A].
Qed.
Lemma shift_tell r iis : forall f f' c, shift_loop l r iis f = Some (f', c) -> snd f' = false -> snd f = false.
Proof.
  induction iis as [|ii iis IH]; intros f f' c H E; cbn [shift_loop] in H; [injection H as -> _; exact E|].
  destruct (Nat.leb 2 ii).
  - rewrite cross_turn in H. destruct (_ && _); [injection H as -> _; exact E|]. destruct (both _); [discriminate H|]. pose proof (IH _ _ _ H E) as E1.
    apply (proj2 (see_keeps _ _) E1).
  - destruct (both _); [discriminate H|]. exact (IH _ _ _ H E).
Qed.
Lemma refs_tell refs : forall f f', refs_loop l refs f = Some f' -> snd f' = false -> snd f = false.
Proof.
  induction refs as [|r refs IH]; intros f f' H E; cbn [refs_loop] in H; [injection H as ->; exact E|].
  destruct (shift_loop _ _ _ _) as [(f1, [|])|] eqn:Q; [injection H as ->; exact (shift_tell _ _ _ _ _ Q E)| |discriminate H].
  exact (shift_tell _ _ _ _ _ Q (IH _ _ H E)).
Qed.
Lemma hull_tells : is_convex_hull l = Some true -> forall ii, (ii < n)%nat -> - kEpsilon <= turn (at_ l (prev_ix n ii)) (at_ l ii) (at_ l (next_ix n ii)).
Proof.
  unfold is_convex_hull. destruct (turns_loop _ _ _) as [f|] eqn:A; [|discriminate]. destruct (refs_loop _ _ _) as [f'|] eqn:B; [|discriminate].
  intro H. injection H as H. apply negb_true_iff in H. pose proof (refs_tell _ _ _ B H) as E. intros ii I.
  apply (proj2 (turns_tell _ _ _ A E) ii). apply in_seq. fold n. lia.
Qed.
End Signs.

(** The corners around. *)
Lemma corner_at l i : (i < length l)%nat -> corner l i = at_ l i.
Proof. intro I. unfold corner, at_. now rewrite Nat.mod_small. Qed.
Lemma around_turn l i : (i < length l)%nat -> exists k, corner l k = at_ l (prev_ix (length l) i) /\ corner l (S k) = at_ l i /\ corner l (S (S k)) = at_ l (next_ix (length l) i) /\
  k = (if Nat.eqb i 0 then length l - 1 else i - 1)%nat.
Proof.
  intro I. set (n := length l) in *. unfold prev_ix, next_ix. eexists. split; [|split; [|split; [|reflexivity]]].
  - apply corner_at. destruct (Nat.eqb_spec i 0); fold n; lia.
  - destruct (Nat.eqb_spec i 0) as [->|E].
    + unfold corner, at_. fold n. replace (S (n - 1)) with n by lia. rewrite Nat.mod_same by lia. reflexivity.
    + replace (S (i - 1)) with i by lia. now apply corner_at.
  - unfold corner, at_. fold n. f_equal. destruct (Nat.eqb_spec i 0) as [->|E].
    + replace (S (S (n - 1))) with (1 + 1 * n)%nat by lia. rewrite Nat.mod_add by lia.
      destruct (Nat.eqb_spec 0 (n - 1)) as [Z|Z]; [replace n with 1%nat by lia; reflexivity|apply Nat.mod_small; lia].
    + replace (S (S (i - 1))) with (i + 1)%nat by lia.
      destruct (Nat.eqb_spec i (n - 1)) as [->|Z]; [replace (n - 1 + 1)%nat with n by lia; apply Nat.mod_same; lia|apply Nat.mod_small; lia].
Qed.
Lemma turn_same_l a b : turn a b a = 0.
Proof. unfold turn. ring. Qed.
Lemma turn_same_r a b : turn a b b = 0.
Proof. unfold turn. ring. Qed.
Lemma convex_nonneg l i j : convex l -> 0 <= turn (corner l i) (corner l (S i)) (corner l j).
Proof.
  intros (L & H). destruct (Nat.eq_dec (Nat.modulo j (length l)) (Nat.modulo i (length l))) as [E|E].
  - replace (corner l j) with (corner l i) by (unfold corner; now rewrite E). rewrite turn_same_l. lra.
  - destruct (Nat.eq_dec (Nat.modulo j (length l)) (Nat.modulo (S i) (length l))) as [E'|E'].
    + replace (corner l j) with (corner l (S i)) by (unfold corner; now rewrite E'). rewrite turn_same_r. lra.
    + apply Rlt_le. now apply H.
Qed.
Theorem convex_accepted l : convex l -> is_convex_hull l = Some true.
Proof.
  intro C. apply hull_left.
  - intros ii I. destruct (around_turn l ii I) as (k & <- & <- & <- & _). now apply convex_nonneg.
  - intros r ii Rn I. rewrite turn_rot, <- (corner_at l (ii - 1)), <- (corner_at l ii), <- (corner_at l r) by lia.
    replace ii with (S (ii - 1)) at 2 by lia. now apply convex_nonneg.
Qed.
Lemma turn_mirrored a b z : turn (mirrored a) (mirrored b) (mirrored z) = - turn a b z.
Proof. unfold turn, mirrored. cbn [fst snd]. ring. Qed.
Theorem clockwise_accepted l : clockwise l -> is_convex_hull l <> None.
Proof.
  intro C. assert (N : l <> []) by (destruct C as (L & _); intros ->; cbn in L; lia).
  assert (H : forall i j, turn (corner l i) (corner l (S i)) (corner l j) <= 0).
  { intros i j. pose proof (convex_nonneg _ i j C) as K. rewrite !corner_map, turn_mirrored in K by exact N. lra. }
  apply hull_right.
  - intros ii I. destruct (around_turn l ii I) as (k & <- & <- & <- & _). apply H.
  - intros r ii Rn I. rewrite turn_rot, <- (corner_at l (ii - 1)), <- (corner_at l ii), <- (corner_at l r) by lia.
    replace ii with (S (ii - 1)) at 2 by lia. apply H.
Qed.
(** With three or four corners that turn clearly, the check is exact. *)
Theorem small_exact l : length l = 3%nat \/ length l = 4%nat ->
  (forall i, / 10000000000 < Rabs (turn (corner l i) (corner l (S i)) (corner l (S (S i))))) ->
  is_convex_hull l = Some true <-> convex l.
Proof.
  intros L B. split; [|apply convex_accepted]. intro H.
  assert (P : forall i, (i < length l)%nat -> 0 < turn (corner l i) (corner l (S i)) (corner l (S (S i)))).
  { intros i I. set (j := next_ix (length l) i).
    assert (J : (j < length l)%nat) by (unfold j, next_ix; destruct (Nat.eqb_spec i (length l - 1)); lia).
    pose proof (hull_tells l H j J) as T. destruct (around_turn l j J) as (k & E1 & E2 & E3 & K). rewrite <- E1, <- E2, <- E3 in T.
    assert (Ki : k = i). { rewrite K. unfold j, next_ix. destruct (Nat.eqb_spec i (length l - 1)); cbn [Nat.eqb]; [lia|]. destruct (Nat.eqb_spec (i + 1) 0); lia. }
    rewrite Ki in T. specialize (B i). unfold kEpsilon in T. unfold Rabs in B. destruct (Rcase_abs _); lra. }
  assert (L3 : (3 <= length l)%nat) by lia. split; [exact L3|]. intros i j Hi Hj.
  set (n := length l) in *.
  assert (Mi : corner l i = corner l (Nat.modulo i n)) by (unfold corner; fold n; now rewrite Nat.mod_mod by lia).
  assert (Msi : corner l (S i) = corner l (S (Nat.modulo i n))).
  { unfold corner. fold n. f_equal. rewrite <- Nat.add_1_r, <- (Nat.add_1_r (Nat.modulo i n)). now rewrite Nat.add_mod_idemp_l by lia. }
  assert (Mj : corner l j = corner l (Nat.modulo j n)) by (unfold corner; fold n; now rewrite Nat.mod_mod by lia).
  assert (Hs : Nat.modulo (S i) n = Nat.modulo (S (Nat.modulo i n)) n).
  { rewrite <- Nat.add_1_r, <- (Nat.add_1_r (Nat.modulo i n)). now rewrite Nat.add_mod_idemp_l by lia. }
  rewrite Mi, Msi, Mj. rewrite Hs in Hj. pose proof (Nat.mod_upper_bound i n ltac:(lia)) as Ui. pose proof (Nat.mod_upper_bound j n ltac:(lia)) as Uj.
  revert Hi Hj Ui Uj. generalize (Nat.modulo i n) (Nat.modulo j n). clear i j Mi Msi Mj Hs. intros i j Hi Hj Ui Uj.
  destruct l as [|a [|b [|c [|d [|e l]]]]]; cbn in n; try (exfalso; subst n; cbn in *; lia); subst n; cbn [length] in *.
  - pose proof (P 0%nat ltac:(lia)) as P0. unfold corner in *. cbn [length] in *. 
    destruct i as [|[|[|i]]]; [| | |lia]; (destruct j as [|[|[|j]]]; [| | |lia]); cbn in *; try contradiction; unfold turn in *; lra.
  - pose proof (P 0%nat ltac:(lia)) as P0. pose proof (P 1%nat ltac:(lia)) as P1. pose proof (P 2%nat ltac:(lia)) as P2. pose proof (P 3%nat ltac:(lia)) as P3.
    unfold corner in *. cbn [length] in *.
    destruct i as [|[|[|[|i]]]]; [| | | |lia]; (destruct j as [|[|[|[|j]]]]; [| | | |lia]); cbn in *; try contradiction; unfold turn in *; lra.
Qed.
