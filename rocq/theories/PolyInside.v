(** The test whether a point is inside, and the bounding boxes. *)
From Coq Require Import Reals Lra Psatz List Arith Lia Bool.
From Verif Require Import Base GeomModel GeomBase PolyModel PolySpec PolySegProofs PolyChain PolyPair PolyPass PolyPath PolyExact PolyTurning.
Import ListNotations.
Open Scope R_scope.

(** The corner lowest over a direction. *)
Lemma lowest C z a : good C -> inC C z -> exists i, hgt a (cv C i) <= hgt a z.
Proof.
  intros G Z. set (k := turns (a - ca C 0)). pose proof (turns_ok (a - ca C 0)) as T. fold k in T.
  destruct (first_after C G (a + IZR (k + 1) * (2 * PI))) as (l & L1 & L2).
  { rewrite plus_IZR. pose proof PI_RGT_0. lra. }
  exists (S l). pose proof (support C G l (a + IZR (k + 1) * (2 * PI)) z ltac:(lra) Z) as W. now rewrite !hgt_turns in W.
Qed.
Lemma box_bounds P w : In w P ->
  fst (fst (bounding_box P)) <= fst w <= fst (snd (bounding_box P)) /\
  snd (fst (bounding_box P)) <= snd w <= snd (snd (bounding_box P)).
Proof.
  destruct P as [|a P]; [intros []|]. unfold bounding_box. cbn [hd tl fst snd].
  assert (Lo : forall l (m : point), (forall x, In x (m :: l) ->
     fst (fold_left (fun m p : point => (Rmin (fst m) (fst p), Rmin (snd m) (snd p))) l m) <= fst x /\
     snd (fold_left (fun m p : point => (Rmin (fst m) (fst p), Rmin (snd m) (snd p))) l m) <= snd x)).
  { induction l as [|b l IH]; intros m x X; cbn [fold_left].
    - destruct X as [<-|[]]. lra.
    - set (m' := (Rmin (fst m) (fst b), Rmin (snd m) (snd b))).
      pose proof (IH m' m' (or_introl eq_refl)) as [U1 U2].
      pose proof (Rmin_l (fst m) (fst b)). pose proof (Rmin_r (fst m) (fst b)).
      pose proof (Rmin_l (snd m) (snd b)). pose proof (Rmin_r (snd m) (snd b)). unfold m' in U1, U2 at 2. cbn [fst snd] in U1, U2.
      destruct X as [<-|[<-|X]]; [unfold m' in *; cbn [fst snd] in *; lra | unfold m' in *; cbn [fst snd] in *; lra | apply IH; now right]. }
  assert (Hi : forall l (m : point), (forall x, In x (m :: l) ->
     fst x <= fst (fold_left (fun m p : point => (Rmax (fst m) (fst p), Rmax (snd m) (snd p))) l m) /\
     snd x <= snd (fold_left (fun m p : point => (Rmax (fst m) (fst p), Rmax (snd m) (snd p))) l m))).
  { induction l as [|b l IH]; intros m x X; cbn [fold_left].
    - destruct X as [<-|[]]. lra.
    - set (m' := (Rmax (fst m) (fst b), Rmax (snd m) (snd b))).
      pose proof (IH m' m' (or_introl eq_refl)) as [U1 U2].
      pose proof (Rmax_l (fst m) (fst b)). pose proof (Rmax_r (fst m) (fst b)).
      pose proof (Rmax_l (snd m) (snd b)). pose proof (Rmax_r (snd m) (snd b)).
      destruct X as [<-|[<-|X]]; [unfold m' in *; cbn [fst snd] in *; lra | unfold m' in *; cbn [fst snd] in *; lra | apply IH; now right]. }
  intros X. destruct (Lo P a w X), (Hi P a w X). lra.
Qed.
Lemma hgt_axes z : hgt 0 z = snd z /\ hgt PI z = - snd z /\ hgt (PI / 2) z = - fst z /\ hgt (- (PI / 2)) z = fst z.
Proof.
  unfold hgt. rewrite cos_0, sin_0, cos_PI, sin_PI, cos_PI2, sin_PI2, cos_neg, sin_neg, cos_PI2, sin_PI2. repeat split; ring.
Qed.
Lemma corner_in P i : (0 < length P)%nat -> In (corner P i) P.
Proof. intros N. apply nth_In, Nat.mod_upper_bound. lia. Qed.
Lemma inside_box P z : convex P -> inside P z ->
  fst (fst (bounding_box P)) <= fst z <= fst (snd (bounding_box P)) /\
  snd (fst (bounding_box P)) <= snd z <= snd (snd (bounding_box P)).
Proof.
  intros CP Z. destruct (convex_chain P CP) as (C & G & R). apply (inside_chain C P z G R) in Z.
  assert (N3 : (3 <= length P)%nat) by apply CP.
  assert (K : forall a, exists w, In w P /\ hgt a w <= hgt a z).
  { intros a. destruct (lowest C z a G Z) as (i & I). exists (cv C i). split; auto.
    destruct R as [_ V]. rewrite V. apply nth_In, Nat.mod_upper_bound. lia. }
  destruct (hgt_axes z) as (Z1 & Z2 & Z3 & Z4).
  destruct (K 0) as (w1 & W1 & H1). destruct (K PI) as (w2 & W2 & H2). destruct (K (PI / 2)) as (w3 & W3 & H3). destruct (K (- (PI / 2))) as (w4 & W4 & H4).
  destruct (hgt_axes w1) as (E1 & _). destruct (hgt_axes w2) as (_ & E2 & _). destruct (hgt_axes w3) as (_ & _ & E3 & _). destruct (hgt_axes w4) as (_ & _ & _ & E4).
  pose proof (box_bounds P w1 W1). pose proof (box_bounds P w2 W2). pose proof (box_bounds P w3 W3). pose proof (box_bounds P w4 W4). lra.
Qed.
Lemma maybe_complete P Q z : convex P -> convex Q -> inside P z -> inside Q z -> maybe_has_intersection P Q = true.
Proof.
  intros CP CQ ZP ZQ. pose proof (inside_box P z CP ZP). pose proof (inside_box Q z CQ ZQ). unfold maybe_has_intersection.
  repeat match goal with |- context [rltb ?a ?b] => replace (rltb a b) with false by (symmetry; apply rltb_false; lra) end.
  reflexivity.
Qed.

(** Corners taken in order make a convex polygon. *)
Section Sub.
Variables (P : list pt) (CP : convex P).
Notation v := (corner P).
Notation n := (length P).
Lemma turn_rot a b c : turn a b c = turn b c a.
Proof. unfold turn. ring. Qed.
Lemma triangle a b c : (a < b)%nat -> (b < c)%nat -> (c < a + n)%nat -> 0 < turn (v a) (v b) (v c).
Proof.
  intros A B. revert b A B. induction c as [|c IH]; intros b A B N; [lia|].
  pose proof (n3 P CP) as N3.
  destruct (Nat.eq_dec b c) as [->|Nb].
  { rewrite turn_rot.
    replace (v a) with (v (c + (a + n - c))) by (replace (c + (a + n - c))%nat with (a + n)%nat by lia; apply corner_n; auto).
    apply strictly_left; auto. lia. }
  pose proof (IH b A ltac:(lia) ltac:(lia)) as H1.
  assert (H2 : 0 < turn (v a) (v c) (v (S c))).
  { rewrite turn_rot. replace (v a) with (v (c + (a + n - c))) by (replace (c + (a + n - c))%nat with (a + n)%nat by lia; apply corner_n; auto).
    apply strictly_left; auto. lia. }
  assert (E1 : 0 <= turn (v a) (v (S a)) (v b)) by (apply weakly_left; auto).
  assert (E2 : 0 < turn (v a) (v (S a)) (v c)) by (replace c with (a + (c - a))%nat by lia; apply strictly_left; auto; lia).
  assert (E3 : 0 < turn (v a) (v (S a)) (v (S c))) by (replace (S c) with (a + (S c - a))%nat by lia; apply strictly_left; auto; lia).
  assert (Pl : turn (v a) (v (S a)) (v c) * turn (v a) (v b) (v (S c)) =
               turn (v a) (v (S a)) (v b) * turn (v a) (v c) (v (S c)) + turn (v a) (v (S a)) (v (S c)) * turn (v a) (v b) (v c))
    by (unfold turn; ring).
  assert (0 < turn (v a) (v (S a)) (v c) * turn (v a) (v b) (v (S c))).
  { rewrite Pl. apply Rplus_le_lt_0_compat; [apply Rmult_le_pos; lra | apply Rmult_lt_0_compat; lra]. }
  apply (Rmult_lt_reg_l (turn (v a) (v (S a)) (v c))); auto. lra.
Qed.
Definition increasing (I : list nat) : Prop :=
  (forall i j, (i < j < length I)%nat -> (nth i I 0 < nth j I 0%nat)%nat) /\ forall i, (i < length I)%nat -> (nth i I 0 < n)%nat.
Definition pick (I : list nat) : list pt := map v I.
Lemma pick_corner I i : (0 < length I)%nat -> corner (pick I) i = v (nth (Nat.modulo i (length I)) I 0%nat).
Proof.
  intros N. unfold corner at 1, pick. rewrite map_length.
  rewrite (nth_indep _ o (v 0)) by (rewrite map_length; apply Nat.mod_upper_bound; lia). apply map_nth.
Qed.
Lemma mod_next i m : (0 < m)%nat -> let k := Nat.modulo i m in
  (S k < m /\ Nat.modulo (S i) m = S k \/ S k = m /\ Nat.modulo (S i) m = 0)%nat.
Proof.
  intros M k. pose proof (Nat.mod_upper_bound i m ltac:(lia)). pose proof (Nat.div_mod i m ltac:(lia)). fold k in H, H0.
  destruct (Nat.eq_dec (S k) m) as [E|E].
  - right. split; auto. symmetry. apply (Nat.mod_unique _ _ (S (i / m))); nia.
  - left. split; [lia|]. symmetry. apply (Nat.mod_unique _ _ (i / m)); lia.
Qed.
Lemma pick_convex I : increasing I -> (3 <= length I)%nat -> convex (pick I).
Proof.
  intros [Inc Bd] N. split; [unfold pick; now rewrite map_length|]. intros i j H1 H2.
  assert (EL : length (pick I) = length I) by (unfold pick; apply map_length). rewrite EL in *.
  rewrite !pick_corner by lia.
  set (m := length I) in *. set (a := Nat.modulo i m) in *. set (b := Nat.modulo j m) in *.
  assert (Hb : (b < m)%nat) by (apply Nat.mod_upper_bound; lia). assert (Ha : (a < m)%nat) by (apply Nat.mod_upper_bound; lia).
  destruct (mod_next i m ltac:(lia)) as [[M1 M2]|[M1 M2]]; fold a in M1, M2; rewrite M2 in *.
  - destruct (Nat.lt_ge_cases b a) as [L|L].
    + rewrite <- turn_rot. apply triangle.
      * apply Inc. lia. * apply Inc. lia. * pose proof (Bd (S a) ltac:(lia)). lia.
    + apply triangle.
      * apply Inc. lia. * apply Inc. lia. * pose proof (Bd b ltac:(lia)). lia.
  - rewrite turn_rot. apply triangle.
    * apply Inc. lia. * apply Inc. lia. * pose proof (Bd a ltac:(lia)). lia.
Qed.
Lemma pick_inside I z : increasing I -> (3 <= length I)%nat ->
  (forall k, (S k < length I)%nat -> 0 <= turn (v (nth k I 0%nat)) (v (nth (S k) I 0%nat)) z) ->
  0 <= turn (v (nth (length I - 1) I 0%nat)) (v (nth 0 I 0%nat)) z -> inside P z.
Proof.
  intros Inc N H0 H1. pose proof (pick_convex I Inc N) as CI.
  destruct (convex_chain _ CI) as (C & GC & RC). destruct (convex_chain P CP) as (D & GD & RD).
  assert (EL : length (pick I) = length I) by (unfold pick; apply map_length).
  apply (inside_chain D P z GD RD). apply (corners_in C D z GC GD).
  - intros i. destruct RC as [_ VC]. rewrite VC. fold (corner (pick I) i). rewrite pick_corner by lia.
    destruct RD as [_ VD]. unfold corner. rewrite <- VD. now apply vertex_in.
  - apply (inside_chain C _ z GC RC). split; [intros E; rewrite E in EL; cbn in EL; lia|].
    intros i. rewrite !pick_corner by lia.
    destruct (mod_next i (length I) ltac:(lia)) as [[M1 M2]|[M1 M2]]; rewrite M2; [now apply H0|].
    replace (Nat.modulo i (length I)) with (length I - 1)%nat by lia. auto.
Qed.

(** The range the search leaves. *)
Definition diag (z : pt) (s e : nat) : Prop :=
  (s = 0%nat \/ 0 <= turn (v 0) (v s) z) /\ (e = n \/ turn (v 0) (v e) z < 0).
Lemma at_corner i : (i < n)%nat -> at_ P i = v i.
Proof. intros I. unfold at_, corner. now rewrite Nat.mod_small. Qed.
Lemma narrow_ok f z : forall s e, (s < e <= n)%nat -> ((s = 0 /\ e = n) \/ 5 <= e - s)%nat -> diag z s e ->
  let r := narrow f P z s e in (fst r < snd r <= n)%nat /\ ((fst r = 0 /\ snd r = n) \/ 5 <= snd r - fst r)%nat /\ diag z (fst r) (snd r).
Proof.
  induction f as [|f IH]; intros s e R S5 D; cbn [narrow]; auto.
  destruct (Nat.ltb kLinearSearchThreshold (e - s)) eqn:T; auto. apply Nat.ltb_lt in T. unfold kLinearSearchThreshold in T.
  cbv zeta. set (m := Nat.div (e + s) 2).
  assert (M : (s + 5 <= m /\ m + 5 <= e)%nat).
  { unfold m. pose proof (Nat.div_mod (e + s) 2 ltac:(lia)). pose proof (Nat.mod_upper_bound (e + s) 2 ltac:(lia)). lia. }
  assert (E : cross (psub (at_ P m) (at_ P 0)) (psub z (at_ P 0)) = turn (v 0) (v m) z).
  { rewrite !at_corner by lia. unfold cross, psub, turn; cbn [fst snd]. ring. }
  rewrite E. destruct (rleb_cases 0 (turn (v 0) (v m) z)) as [(-> & U)|(-> & U)].
  - apply IH; [lia | right; lia |]. split; [now right | apply D].
  - apply IH; [lia | right; lia |]. split; [apply D | right; lra].
Qed.
Lemma not_right_turn i j z : (i < n)%nat -> (j < n)%nat -> not_right P z i j = true <-> 0 <= turn (v i) (v j) z.
Proof.
  intros I J. unfold not_right. rewrite !at_corner by auto.
  replace (cross (psub (v j) (v i)) (psub z (v i))) with (turn (v i) (v j) z) by (unfold cross, psub, turn; cbn [fst snd]; ring).
  destruct (rltb_cases (turn (v i) (v j) z) 0) as [(-> & U)|(-> & U)]; cbn [negb]; split; intros; auto; try discriminate; lra.
Qed.
Theorem point_inside_iff z : point_inside P z = true <-> inside P z.
Proof.
  pose proof (n3 P CP) as N3. unfold point_inside.
  replace (Nat.ltb n 3) with false by (symmetry; apply Nat.ltb_ge; lia).
  set (b := rltb (fst z) _ || _ || _ || _).
  pose proof (narrow_ok n z 0 n ltac:(lia) ltac:(left; lia)) as Na.
  destruct Na as (R & S5 & [D1 D2]); [split; now left|].
  set (r := narrow n P z 0 n) in *. set (s := fst r) in *. set (e := snd r) in *.
  replace (Nat.ltb s e) with true by (symmetry; apply Nat.ltb_lt; lia).
  assert (Nx : (next P (e - 1) < n)%nat /\ v (next P (e - 1)) = v e).
  { unfold next. destruct (Nat.eqb_spec (e - 1) (n - 1)) as [E|E].
    - split; [lia|]. replace e with (0 + n)%nat by lia. symmetry. now apply corner_n.
    - split; [lia|]. f_equal. lia. }
  destruct Nx as [Nx1 Nx2].
  split.
  - destruct b; [discriminate|]. intros T. apply andb_true_iff in T as [T1 T2].
    rewrite forallb_forall in T1. apply not_right_turn in T2; [|lia|auto]. rewrite Nx2 in T2.
    assert (Ed : forall k, (s <= k < e)%nat -> 0 <= turn (v k) (v (S k)) z).
    { intros k K. destruct (Nat.eq_dec k (e - 1)) as [->|Nk].
      - replace (S (e - 1)) with e by lia. auto.
      - apply not_right_turn; try lia. apply T1. apply in_seq. lia. }
    set (e' := if Nat.eqb e n then n else S e).
    assert (He' : (s < e' <= n /\ (e = n /\ e' = n \/ e < n /\ e' = S e))%nat).
    { unfold e'. destruct (Nat.eqb_spec e n); lia. }
    destruct (Nat.eq_dec s 0) as [S0|S0].
    + apply (pick_inside (seq 0 e')).
      * split; rewrite seq_length.
        { intros i j IJ. rewrite !seq_nth by lia. lia. } { intros i Ii. rewrite seq_nth by lia. lia. }
      * rewrite seq_length. lia.
      * intros k K. rewrite seq_length in K. rewrite !seq_nth by lia. apply Ed. lia.
      * rewrite seq_length, !seq_nth by lia. cbn [Nat.add].
        destruct He' as [_ [[E1 ->]|[E1 ->]]].
        { replace (v 0) with (v (S (n - 1))) by (replace (S (n - 1)) with (0 + n)%nat by lia; now apply corner_n). apply Ed. lia. }
        { replace (S e - 1)%nat with e by lia. destruct D2 as [D2|D2]; [lia|]. unfold turn in *. lra. }
    + assert (Nt : forall k, (k < e' - s)%nat -> nth (S k) (0%nat :: seq s (e' - s)) 0%nat = (s + k)%nat) by (intros; cbn [nth]; now rewrite seq_nth).
      apply (pick_inside (0%nat :: seq s (e' - s))).
      * split; cbn [length]; rewrite seq_length.
        { intros i j IJ. destruct j as [|j]; [lia|]. rewrite Nt by lia. destruct i as [|i]; [cbn [nth]; lia | rewrite Nt by lia; lia]. }
        { intros [|i] Ii; [cbn [nth]; lia | rewrite Nt by lia; lia]. }
      * cbn [length]. rewrite seq_length. lia.
      * intros k K. cbn [length] in K. rewrite seq_length in K. rewrite Nt by lia. destruct k as [|k].
        { cbn [nth]. rewrite Nat.add_0_r. destruct D1; [lia | auto]. }
        { rewrite Nt by lia. rewrite Nat.add_succ_r. apply Ed. lia. }
      * cbn [length]. rewrite seq_length. replace (S (e' - s) - 1)%nat with (S (e' - s - 1)) by lia. rewrite Nt by lia. cbn [nth].
        destruct He' as [_ [[E1 E2]|[E1 E2]]].
        { replace (v 0) with (v (S (n - 1))) by (replace (S (n - 1)) with (0 + n)%nat by lia; now apply corner_n).
          replace (s + (e' - s - 1))%nat with (n - 1)%nat by lia. apply Ed. lia. }
        { replace (s + (e' - s - 1))%nat with e by lia. destruct D2 as [D2|D2]; [lia|]. unfold turn in *. lra. }
  - intros Z. pose proof (inside_box P z CP Z) as Bx.
    replace b with false.
    2:{ symmetry. unfold b. repeat match goal with |- context [rltb ?x ?y] => replace (rltb x y) with false by (symmetry; apply rltb_false; lra) end. reflexivity. }
    destruct Z as [_ Z]. apply andb_true_iff. split.
    + apply forallb_forall. intros k K. apply in_seq in K. apply not_right_turn; try lia. apply Z.
    + apply not_right_turn; [lia | auto |]. rewrite Nx2. replace e with (S (e - 1)) at 2 by lia. apply Z.
Qed.
End Sub.
