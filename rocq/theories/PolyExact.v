(** The points collected are the corners of the common part. *)
From Coq Require Import Reals Lra Psatz List Arith Lia Bool.
From Verif Require Import Base GeomModel GeomBase PolyModel PolySpec PolySegProofs PolyChain PolyPair PolyPass PolyPath.
Import ListNotations.
Open Scope R_scope.

(** A chain that repeats lists of corners, angles and lengths. *)
Definition around (V : list pt) (G L : list R) : chain :=
  let n := length V in
  {| cn := n; cv := fun i => nth (Nat.modulo i n) V o;
     ca := fun i => nth (Nat.modulo i n) G 0 + INR (Nat.div i n) * (2 * PI);
     cl := fun i => nth (Nat.modulo i n) L 0 |}.
Lemma move_per z s a k : move z s (a + INR k * (2 * PI)) = move z s a.
Proof.
  induction k; [cbn [INR]; f_equal; ring|].
  rewrite S_INR. replace (a + (INR k + 1) * (2 * PI)) with (a + INR k * (2 * PI) + 2 * PI) by ring.
  now rewrite move_2pi.
Qed.
Lemma around_good V G L : (3 <= length V)%nat ->
  (forall i, (i < length V)%nat -> 0 < nth i L 0 /\
     nth (Nat.modulo (S i) (length V)) V o = move (nth i V o) (nth i L 0) (nth i G 0)) ->
  (forall i, (S i < length V)%nat -> 0 < nth (S i) G 0 - nth i G 0 < PI) ->
  0 < nth 0 G 0 + 2 * PI - nth (length V - 1) G 0 < PI ->
  good (around V G L).
Proof.
  intros N H St Cl. set (n := length V) in *.
  assert (MS : forall i, (Nat.modulo (S i) n = S (Nat.modulo i n) /\ Nat.div (S i) n = Nat.div i n /\ S (Nat.modulo i n) < n \/
                         Nat.modulo (S i) n = 0 /\ Nat.div (S i) n = S (Nat.div i n) /\ Nat.modulo i n = n - 1)%nat).
  { intros i. pose proof (Nat.mod_upper_bound i n ltac:(lia)). pose proof (Nat.div_mod i n ltac:(lia)).
    destruct (Nat.eq_dec (S (i mod n)) n) as [E|E].
    - right. split; [symmetry; apply (Nat.mod_unique _ _ (S (i / n))); nia|]. split; [symmetry; apply (Nat.div_unique _ _ _ 0); nia | lia].
    - left. split; [symmetry; apply (Nat.mod_unique _ _ (i / n)); lia|]. split; [symmetry; apply (Nat.div_unique _ _ _ (S (i mod n))); lia | lia]. }
  assert (Up : forall i, (Nat.modulo i n < n)%nat) by (intros; apply Nat.mod_upper_bound; lia).
  assert (Mn : forall i, (Nat.modulo (i + n) n = Nat.modulo i n)%nat).
  { intros i. rewrite <- (Nat.mul_1_l n) at 1. apply Nat.mod_add. lia. }
  assert (Dn : forall i, (Nat.div (i + n) n = S (Nat.div i n))%nat).
  { intros i. rewrite <- (Nat.mul_1_l n) at 1. rewrite Nat.div_add by lia. lia. }
  constructor; cbn [cn cv ca cl around]; fold n; auto.
  - intros i. now rewrite Mn.
  - intros i. rewrite Mn, Dn, S_INR. ring.
  - intros i. now rewrite Mn.
  - intros i. destruct (MS i) as [(-> & -> & U)|(-> & -> & U)].
    + specialize (St (Nat.modulo i n) U). lra.
    + rewrite S_INR, U. lra.
  - intros i. apply (H _ (Up i)).
  - intros i. rewrite move_per. destruct (H _ (Up i)) as [_ E]. rewrite <- E. f_equal.
    destruct (MS i) as [(-> & _ & U)|(-> & _ & ->)].
    + symmetry. apply Nat.mod_small. auto.
    + replace (S (n - 1)) with n by lia. rewrite Nat.mod_same; lia.
Qed.

Section Exact.
Variables (A B : chain) (GA : good A) (GB : good B).
Notation al := (ca A).
Notation be := (ca B).
(** Two supporting directions with points on both: the turn is less than a half. *)
Lemma turn_range w s g s' g' : ~ flat A B -> extreme A B w -> 0 < s -> 0 < s' ->
  supp A B g w -> supp A B g' w -> (exists z, meet A B z /\ w = move z s g) -> meet A B (move w s' g') ->
  0 <= g' - g <= 2 * PI -> 0 < g' - g < PI.
Proof.
  intros NF Ex S0 S1 Su Su' (z & Mz & Ez) Mw R.
  pose proof (Su' z Mz) as U. rewrite Ez, hgt_move in U.
  assert (Sn : 0 <= sin (g' - g)).
  { replace (g - g') with (- (g' - g)) in U by ring. rewrite sin_neg in U.
    destruct (Rle_lt_dec 0 (sin (g' - g))) as [|X]; auto. assert (0 < s * (- sin (g' - g))) by (apply Rmult_lt_0_compat; lra). lra. }
  assert (N0 : forall d, g' = g + d -> (d = 0 \/ d = 2 * PI) -> False).
  { intros d E D. apply (proj2 Ex z g s S0 Mz Ez s' S1). destruct D as [-> | ->].
    - rewrite Rplus_0_r in E. now rewrite <- E.
    - rewrite <- move_2pi, <- E. exact Mw. }
  assert (Npi : g' <> g + PI).
  { intros E. apply NF. apply (opposite_flat A B g w); auto. now rewrite <- E. }
  assert (N1 : g' - g <> 0) by (intros E; apply (N0 0); auto; lra).
  assert (N2 : g' - g <> 2 * PI) by (intros E; apply (N0 (2 * PI)); auto; lra).
  split; [lra|]. destruct (Rlt_le_dec (g' - g) PI) as [|X]; auto. exfalso.
  assert (sin (g' - g) < 0) by (apply sin_lt_0; lra). lra.
Qed.
Lemma done_chain lo V : ~ flat A B -> (2 < length V)%nat ->
  (exists G L, path A B V G L /\ closes A B V G lo) ->
  exists G L, good (around V G L) /\ (forall i, (i < length V)%nat -> supp A B (nth i G 0) (nth i V o)) /\
    (forall w, In w V -> extreme A B w).
Proof.
  intros NF Len (G & L & (E1 & E2 & Ex & H) & g & s & S0 & E & Bd & Lo & Su).
  assert (LG : (2 <= length G)%nat) by lia.
  exists (G ++ [g]), (L ++ [s]).
  assert (Gi : forall i, (i < length G)%nat -> nth i (G ++ [g]) 0 = nth i G 0) by (intros; apply app_nth1; auto).
  assert (Gn : nth (length G) (G ++ [g]) 0 = g) by (rewrite app_nth2, Nat.sub_diag by lia; auto).
  assert (Li : forall i, (i < length G)%nat -> nth i (L ++ [s]) 0 = nth i L 0) by (intros; apply app_nth1; lia).
  assert (Ln : nth (length G) (L ++ [s]) 0 = s) by (rewrite app_nth2 by lia; replace (length G - length L)%nat with 0%nat by lia; auto).
  assert (Vx : forall i, (i <= length G)%nat -> extreme A B (nth i V o)) by (intros; apply Ex, nth_In; lia).
  rewrite last_nth in E, Su. replace (length V - 1)%nat with (length G) in * by lia. unfold at_ in E.
  assert (Tn : forall i, (i < length G)%nat -> 0 < nth i L 0 /\ nth (S i) V o = move (nth i V o) (nth i L 0) (nth i G 0) /\
     supp A B (nth i G 0) (nth i V o) /\ supp A B (nth i G 0) (nth (S i) V o)).
  { intros i I. destruct (H i I) as (H1 & H2 & H3 & _). split; auto. split; auto. split; auto.
    intros z Z. rewrite H2, hgt_move. replace (nth i G 0 - nth i G 0) with 0 by ring. rewrite sin_0. pose proof (H3 z Z). lra. }
  assert (Su0 : supp A B g (nth 0 V o)).
  { intros z Z. rewrite E, hgt_move. replace (g - g) with 0 by ring. rewrite sin_0. pose proof (Su z Z). lra. }
  assert (Step : forall i, (S i < length G)%nat -> 0 < nth (S i) G 0 - nth i G 0 < PI).
  { intros i I. destruct (Tn i ltac:(lia)) as (T1 & T2 & T3 & T4). destruct (Tn (S i) I) as (U1 & U2 & U3 & U4).
    apply (turn_range (nth (S i) V o) (nth i L 0) (nth i G 0) (nth (S i) L 0) (nth (S i) G 0)); auto.
    - apply Vx. lia.
    - exists (nth i V o). split; auto. apply Vx. lia.
    - rewrite <- U2. apply Vx. lia.
    - destruct (H i ltac:(lia)) as (_ & _ & _ & H4). pose proof (H4 I). pose proof (Bd i ltac:(lia)). pose proof (Bd (S i) I). lra. }
  assert (Last : 0 < g - nth (length G - 1) G 0 < PI).
  { destruct (Tn (length G - 1)%nat ltac:(lia)) as (T1 & T2 & T3 & T4). replace (S (length G - 1)) with (length G) in * by lia.
    apply (turn_range (nth (length G) V o) (nth (length G - 1) L 0) (nth (length G - 1) G 0) s g); auto.
    - exists (nth (length G - 1) V o). split; auto. apply Vx. lia.
    - rewrite <- E. apply Vx. lia.
    - pose proof (Bd (length G - 1)%nat ltac:(lia)). lra. }
  split; [|split; auto].
  - apply around_good; [lia | | |].
    + intros i I. destruct (Nat.eq_dec i (length G)) as [->|Ni].
      * rewrite Ln, Gn. split; auto. replace (S (length G)) with (length V) by lia. rewrite Nat.mod_same by lia. exact E.
      * rewrite Li, Gi by lia. rewrite Nat.mod_small by lia. destruct (Tn i ltac:(lia)) as (T1 & T2 & _). auto.
    + intros i I. destruct (Nat.eq_dec (S i) (length G)) as [e|Ni].
      * rewrite e, Gn, Gi by lia. replace i with (length G - 1)%nat by lia. auto.
      * rewrite !Gi by lia. apply Step. lia.
    + rewrite Gi by lia. replace (length V - 1)%nat with (length G) by lia. rewrite Gn.
      destruct (Tn 0%nat ltac:(lia)) as (T1 & T2 & T3 & T4).
      assert (K : 0 < nth 0 G 0 + 2 * PI - g < PI); [|exact K].
      apply (turn_range (nth 0 V o) s g (nth 0 L 0) (nth 0 G 0 + 2 * PI)); auto.
      * apply Vx. lia.
      * intros z Z. rewrite !hgt_2pi. auto.
      * exists (nth (length G) V o). split; auto. apply Vx. lia.
      * rewrite move_2pi, <- T2. apply Vx. lia.
      * pose proof (Bd 0%nat ltac:(lia)). lra.
  - intros i I. destruct (Nat.eq_dec i (length G)) as [->|Ni]; [rewrite Gn; auto | rewrite Gi by lia; apply Tn; lia].
Qed.
(** A chain whose corners lie in another: so do its points. *)
Lemma corners_in C D z : good C -> good D -> (forall i, inC D (cv C i)) -> inC C z -> inC D z.
Proof.
  clear. intros GC GD H Z k.
  assert (K : exists N, ca C 0 <= ca D k + INR N * (2 * PI)).
  { destruct (archimed ((ca C 0 - ca D k) / (2 * PI))) as [U _]. pose proof PI_RGT_0 as Pi.
    set (N := Z.to_nat (Rdefinitions.up ((ca C 0 - ca D k) / (2 * PI)))). exists N.
    assert (W : (ca C 0 - ca D k) / (2 * PI) <= INR N).
    { destruct (Z_le_gt_dec 0 (Rdefinitions.up ((ca C 0 - ca D k) / (2 * PI)))) as [Z0|Z0].
      - unfold N. rewrite INR_IZR_INZ, Z2Nat.id by auto. lra.
      - assert (IZR (Rdefinitions.up ((ca C 0 - ca D k) / (2 * PI))) < 0) by (apply IZR_lt; lia). pose proof (pos_INR N). lra. }
    apply (Rmult_le_compat_r (2 * PI)) in W; [|lra].
    replace ((ca C 0 - ca D k) / (2 * PI) * (2 * PI)) with (ca C 0 - ca D k) in W by (field; lra). lra. }
  destruct K as [N K]. destruct (first_after C GC _ K) as (l & L1 & L2).
  pose proof (support C GC l (ca D k + INR N * (2 * PI)) z ltac:(lra) Z) as W. rewrite !hgt_per in W. pose proof (H (S l) k) as W2. unfold left in *. lra.
Qed.
Lemma around_cv V G L i : cv (around V G L) i = corner V i.
Proof. reflexivity. Qed.
Lemma around_exact V G L z : good (around V G L) ->
  (forall i, (i < length V)%nat -> supp A B (nth i G 0) (nth i V o)) -> (forall w, In w V -> extreme A B w) ->
  inC (around V G L) z <-> meet A B z.
Proof.
  intros GV Su Ex. pose proof (g_n _ GV) as N. cbn [cn around] in N. split.
  - intros Z.
    assert (M : forall i, meet A B (cv (around V G L) i)).
    { intros i. apply Ex. cbn [cv around]. apply nth_In, Nat.mod_upper_bound. lia. }
    split; [apply (corners_in (around V G L) A) | apply (corners_in (around V G L) B)]; auto; intros i; apply M.
  - intros M i. unfold left. cbn [ca cv around]. rewrite !hgt_per.
    apply Su; auto. apply Nat.mod_upper_bound. lia.
Qed.
End Exact.

(** Chains and the specification. *)
Lemma inside_chain C L z : good C -> reps C L -> inside L z <-> inC C z.
Proof.
  intros G [N V]. pose proof (g_n C G) as N3. split.
  - intros [_ H] i. apply turn_left_iff; auto. specialize (H i). unfold corner in H. now rewrite <- !V in H.
  - intros H. split; [intros ->; cbn in N; lia|]. intros i. unfold corner. rewrite <- !V. now apply turn_left_iff.
Qed.
Lemma chain_convex C L : good C -> reps C L -> convex L.
Proof.
  intros G [N V]. pose proof (g_n C G) as N3. split; [lia|]. intros i j H1 H2.
  unfold corner. rewrite <- !V. rewrite turn_left by auto. apply Rmult_lt_0_compat; [apply g_pos; auto|].
  destruct (window C G i j) as (k & k1 & k2 & K & E).
  assert (Ek : Nat.modulo k (length L) = Nat.modulo j (length L)).
  { rewrite <- (Nat.mod_add k k1), <- (Nat.mod_add j k2) by lia. rewrite <- N. now rewrite E. }
  assert (hgt (ca C i) (cv C i) < hgt (ca C i) (cv C k)).
  { apply (vertex_strict C G i k). assert (k <> i) by congruence. assert (k <> S i) by congruence. lia. }
  rewrite V, <- Ek, <- V. lra.
Qed.
Lemma around_reps V G L : reps (around V G L) V.
Proof. split; reflexivity. Qed.
