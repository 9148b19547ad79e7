(** One pass through the loop of the model, in terms of the chains of the two polygons. *)
From Coq Require Import Reals Lra Psatz List Arith Lia Bool.
From Verif Require Import Base GeomModel GeomBase PolyModel PolySpec PolySegProofs PolyChain PolyPair.
Import ListNotations.
Open Scope R_scope.

Definition reps (C : chain) (P : list pt) : Prop :=
  cn C = length P /\ forall i, cv C i = nth (Nat.modulo i (length P)) P (0, 0).

Lemma between_on C i z : good C -> between (cv C i) (cv C (S i)) z <-> on C i z.
Proof.
  intros G. pose proof (g_pos C G i) as L. split.
  - intros (t & T & E1 & E2). exists (t * cl C i). split; [nra|].
    rewrite (g_move C G) in E1, E2. unfold move in *. cbn [fst snd] in *.
    rewrite (surjective_pairing z), E1, E2. f_equal; ring.
  - intros (s & Sr & ->). exists (s / cl C i). rewrite (g_move C G). unfold move; cbn [fst snd].
    split; [|split; field; lra]. split.
    + apply Rmult_le_pos; [lra | left; apply Rinv_0_lt_compat; lra].
    + apply (Rmult_le_reg_r (cl C i)); auto. unfold Rdiv. rewrite Rmult_assoc, Rinv_l; lra.
Qed.
Lemma edge_proper C i : good C -> cv C i <> cv C (S i).
Proof.
  intros G E. rewrite (g_move C G) in E. rewrite <- (move_0 (cv C i) (ca C i)) in E at 1. apply move_inj in E.
  pose proof (g_pos C G i). lra.
Qed.
Lemma turn_left C i z : good C -> turn (cv C i) (cv C (S i)) z = cl C i * (hgt (ca C i) z - hgt (ca C i) (cv C i)).
Proof. intros G. rewrite (g_move C G). apply hgt_turn. Qed.
Lemma turn_left_iff C i z : good C -> 0 <= turn (cv C i) (cv C (S i)) z <-> left C i z.
Proof.
  intros G. rewrite turn_left by auto. pose proof (g_pos C G i) as L. unfold left. split; intros H.
  - apply (Rmult_le_reg_l (cl C i)); auto. lra.
  - apply Rmult_le_pos; lra.
Qed.
Lemma append_twice x l : append_convex_point x (append_convex_point x l) = append_convex_point x l.
Proof.
  destruct l as [|f l']; cbn [append_convex_point]; [now rewrite (proj2 (peqb_iff x x) eq_refl)|].
  destruct (negb (peqb x f) && negb (peqb x (last (f :: l') (0, 0)))) eqn:E.
  - cbn [app append_convex_point]. change (f :: l' ++ [x]) with ((f :: l') ++ [x]). rewrite last_last.
    rewrite (proj2 (peqb_iff x x) eq_refl). now rewrite andb_false_r.
  - cbn [append_convex_point]. now rewrite E.
Qed.

Section Loop.
Variables (A B : chain) (GA : good A) (GB : good B) (P Q : list pt) (RA : reps A P) (RB : reps B Q).
Notation p := (cv A).
Notation q := (cv B).
Notation al := (ca A).
Notation be := (ca B).

Lemma at_next C L i : good C -> reps C L -> at_ L (Nat.modulo i (length L)) = cv C i /\
  next L (Nat.modulo i (length L)) = Nat.modulo (S i) (length L).
Proof.
  clear. intros G [N V]. split; [unfold at_; now rewrite V|].
  pose proof (g_n C G) as G3. rewrite N in G3. set (n := length L) in *. unfold next. fold n.
  pose proof (Nat.mod_upper_bound i n ltac:(lia)) as U. pose proof (Nat.div_mod i n ltac:(lia)) as D.
  destruct (Nat.eqb_spec (i mod n) (n - 1)) as [E|E].
  - apply (Nat.mod_unique _ _ (S (i / n))); [lia|]. nia.
  - apply (Nat.mod_unique _ _ (i / n)); lia.
Qed.
Definition det (i j : nat) : R := det_of (p i) (p (S i)) (q j) (q (S j)).
Definition inter (i j : nat) : option pt := exact_intersection (p i) (p (S i)) (q j) (q (S j)) (det i j).
Lemma det_sin i j : det i j = cl A i * cl B j * sin (al i - be j).
Proof.
  unfold det, det_of, cross4, cross, psub. rewrite (g_move A GA i), (g_move B GB j). unfold move; cbn [fst snd].
  rewrite sin_minus. ring.
Qed.
Lemma inter_some i j x : inter i j = Some x -> on A i x /\ on B j x /\
  (sin (al i - be j) = 0 -> (x = p i \/ x = p (S i) \/ x = q j \/ x = q (S j)) /\ (on B j (p i) -> x = p i)).
Proof.
  intros E. unfold inter in E. apply intersection_some in E as (X & Y & D); auto using edge_proper.
  apply between_on in X, Y; auto. split; auto. split; auto. intros Z.
  destruct D as (D1 & D2 & _); [fold (det i j); rewrite det_sin, Z; ring|]. split; auto.
  intros O. apply D2. now apply between_on.
Qed.
Lemma inter_none i j : inter i j = None -> apart A B i j.
Proof.
  intros E z X Y. unfold inter in E. apply (intersection_none _ _ _ _ z) in E; auto using edge_proper; now apply between_on.
Qed.
Lemma inter_unique i j x y : on A i x -> on B j x -> on A i y -> on B j y -> sin (al i - be j) <> 0 -> x = y.
Proof.
  intros X1 X2 Y1 Y2 N. apply (height_det (be j) (al i)); auto.
  - now rewrite (on_height B j x), (on_height B j y).
  - now rewrite (on_height A i x), (on_height A i y).
Qed.

(** The two pointers turn together. *)
Definition sync (i j : nat) : Prop := - PI < al i - be j <= PI.
Lemma det_sign i j : sync i j -> (0 <= det i j <-> be j <= al i).
Proof.
  intros S. rewrite det_sin. pose proof (g_pos A GA i) as La. pose proof (g_pos B GB j) as Lb.
  assert (L : 0 < cl A i * cl B j) by now apply Rmult_lt_0_compat. unfold sync in S. split; intros H.
  - destruct (Rle_lt_dec (be j) (al i)) as [|X]; auto. exfalso.
    assert (sin (al i - be j) < 0) by (apply sin_lt_0_var; lra).
    assert (0 < cl A i * cl B j * (- sin (al i - be j))) by (apply Rmult_lt_0_compat; lra). lra.
  - apply Rmult_le_pos; [lra|]. apply sin_ge_0; lra.
Qed.
Definition adv_p (i j : nat) : Prop :=
  be j <= al i /\ ~ left B j (p (S i)) \/ al i < be j /\ left A i (q (S j)).
Definition adv_q (i j : nat) : Prop :=
  be j <= al i /\ left B j (p (S i)) \/ al i < be j /\ ~ left A i (q (S j)).

Definition st (i j : nat) (fp fq : bool) (V : list pt) : state :=
  {| p_idx := Nat.modulo i (length P); q_idx := Nat.modulo j (length Q); p_inside := fp; q_inside := fq; convex_points := V |}.
Lemma inside_test i j : 0 <= cross_maybe_exact (q (S j)) (q j) (p (S i)) (q j) <-> left B j (p (S i)).
Proof.
  rewrite exact_cross, <- (turn_left_iff B j (p (S i)) GB).
  replace (cross4 (q (S j)) (q j) (p (S i)) (q j)) with (turn (q j) (q (S j)) (p (S i))); [reflexivity|].
  unfold cross4, cross, psub, turn; cbn [fst snd]; ring.
Qed.
Lemma outside_test i j : 0 <= cross_maybe_exact (p (S i)) (p i) (q (S j)) (p i) <-> left A i (q (S j)).
Proof.
  rewrite exact_cross, <- (turn_left_iff A i (q (S j)) GA).
  replace (cross4 (p (S i)) (p i) (q (S j)) (p i)) with (turn (p i) (p (S i)) (q (S j))); [reflexivity|].
  unfold cross4, cross, psub, turn; cbn [fst snd]; ring.
Qed.
Lemma rleb_cases u v : rleb u v = true /\ u <= v \/ rleb u v = false /\ ~ u <= v.
Proof.
  destruct (rleb u v) eqn:E; [left; split; auto; now apply rleb_iff | right; split; auto].
  intros H. apply rleb_iff in H. congruence.
Qed.
Lemma advance_st i j fp fq V : sync i j ->
  adv_p i j /\ advance P Q (det i j) (st i j fp fq V) =
    st (S i) j fp fq (if fp then append_convex_point (p (S i)) V else V) \/
  adv_q i j /\ advance P Q (det i j) (st i j fp fq V) =
    st i (S j) fp fq (if fq then append_convex_point (q (S j)) V else V).
Proof.
  intros S. unfold advance, st. cbn [p_idx q_idx p_inside q_inside convex_points].
  destruct (at_next A P i GA RA) as [-> ->]. destruct (at_next B Q j GB RB) as [-> ->].
  destruct (at_next A P (Datatypes.S i) GA RA) as [-> _]. destruct (at_next B Q (Datatypes.S j) GB RB) as [-> _].
  pose proof (det_sign i j S) as D. pose proof (inside_test i j) as T1. pose proof (outside_test i j) as T2.
  destruct (rleb_cases 0 (det i j)) as [(-> & H)|(-> & H)].
  - assert (be j <= al i) by tauto. clear D.
    destruct (rltb_cases (cross_maybe_exact (q (Datatypes.S j)) (q j) (p (Datatypes.S i)) (q j)) 0) as [(-> & U)|(-> & U)].
    + left. split; auto. left. split; auto. rewrite <- T1. lra.
    + right. split; auto. left. split; auto. tauto.
  - assert (al i < be j) by (destruct (Rlt_le_dec (al i) (be j)); tauto).
    destruct (rleb_cases 0 (cross_maybe_exact (p (Datatypes.S i)) (p i) (q (Datatypes.S j)) (p i))) as [(-> & U)|(-> & U)].
    + left. split; auto. right. tauto.
    + right. split; auto. right. tauto.
Qed.
Lemma step_st i j fp fq V : step P Q (st i j fp fq V) =
  match inter i j with
  | None => inr (advance P Q (det i j) (st i j fp fq V))
  | Some x =>
    if Nat.ltb 2 (length V) && peqb x (at_ V 0) then inl V else
    let ins := rleb 0 (cross_maybe_exact (q (S j)) (q j) (p (S i)) (q j)) in
    inr (advance P Q (det i j) (st i j ins (negb ins) (append_convex_point x V)))
  end.
Proof.
  unfold step. change (p_idx (st i j fp fq V)) with (Nat.modulo i (length P)).
  change (q_idx (st i j fp fq V)) with (Nat.modulo j (length Q)). change (convex_points (st i j fp fq V)) with V.
  destruct (at_next A P i GA RA) as [-> ->]. destruct (at_next B Q j GB RB) as [-> ->].
  destruct (at_next A P (S i) GA RA) as [-> _]. destruct (at_next B Q (S j) GB RB) as [-> _].
  unfold inter, det, det_of. rewrite !(exact_cross (p i) (p (S i)) (q (S j)) (q j)). reflexivity.
Qed.

(** Where the current point is, and what the pointers have left behind. *)
Inductive mode := InP | AtP | InQ.
Definition flag_p (m : mode) : bool := match m with InQ => false | _ => true end.
Definition at_mode (i j : nat) (m : mode) (c : pt) : Prop :=
  match m with
  | InP => on A i c /\ inC B c /\
      (forall k, (k < j)%nat -> be k <= al i \/ forall z, on B k z -> ~ inC A z) /\
      (c = p i \/ exists j', (j' < j)%nat /\ on B j' c /\ be j' <= al i <= be j' + PI)
  | AtP => c = p i /\ on B j c
  | InQ => on B j c /\ inC A c /\
      (forall k, (k < i)%nat -> al k <= be j \/ forall z, on A k z -> ~ inC B z) /\
      (c = q j \/ exists i', (i' < i)%nat /\ on A i' c /\ al i' < be j < al i' + PI)
  end.
Definition running (i j : nat) : Prop := (cn A <= i)%nat /\ (cn B <= j)%nat /\ sync i j.
Lemma running_first i j : running i j -> be 0 <= al i /\ al 0 <= be j.
Proof.
  intros (Hi & Hj & S). unfold sync in S. pose proof PI_RGT_0.
  pose proof (a_le A GA _ _ Hi) as U. pose proof (a_le B GB _ _ Hj) as W.
  rewrite <- (Nat.add_0_l (cn A)), (g_a A GA) in U. rewrite <- (Nat.add_0_l (cn B)), (g_a B GB) in W. lra.
Qed.
Lemma run_p i j z : meet A B z -> running i j -> adv_p i j -> running (S i) j.
Proof.
  intros [Za Zb] (Hi & Hj & S) Ad. split; [lia|]. split; auto. unfold sync in *.
  pose proof (g_step A GA i) as St. destruct Ad as [[D N]|[D N]].
  - pose proof (keep_up B A GA j i z Zb Za D ltac:(lra) N). lra.
  - lra.
Qed.
Lemma run_q i j z : meet A B z -> running i j -> adv_q i j -> running i (S j).
Proof.
  intros [Za Zb] (Hi & Hj & S) Ad. split; auto. split; [lia|]. unfold sync in *.
  pose proof (g_step B GB j) as St. destruct Ad as [[D N]|[D N]].
  - lra.
  - pose proof (keep_up A B GB i j z Za Zb ltac:(lra) ltac:(lra) N). lra.
Qed.
Lemma at_mode_meet i j m c : at_mode i j m c -> meet A B c.
Proof.
  destruct m; cbn [at_mode].
  - intros (O & I & _). split; auto. apply (on_in A GA i); auto.
  - intros (-> & O). split; [apply vertex_in; auto | apply (on_in B GB j); auto].
  - intros (O & I & _). split; auto. apply (on_in B GB j); auto.
Qed.

Inductive pass (i j : nat) (V : list pt) : mode -> pt -> nat -> nat -> mode -> pt -> list pt -> Prop :=
| pass_pp c : apart A B i j -> al i < be j -> left A i (q (S j)) -> inC B (p (S i)) ->
    pass i j V InP c (S i) j InP (p (S i)) (append_convex_point (p (S i)) V)
| pass_qp c : apart A B i j -> adv_p i j -> pass i j V InQ c (S i) j InQ c V
| pass_pq c : apart A B i j -> adv_q i j -> pass i j V InP c i (S j) InP c V
| pass_qq c : apart A B i j -> be j <= al i -> left B j (p (S i)) -> inC A (q (S j)) ->
    pass i j V InQ c i (S j) InQ (q (S j)) (append_convex_point (q (S j)) V)
| pass_x m c x i' j' m' : inter i j = Some x -> ~ ((2 < length V)%nat /\ x = at_ V 0) ->
    (i' = i /\ j' = S j /\ m' = InP /\ be j <= al i /\ left B j (p (S i)) \/
     i' = S i /\ j' = j /\ m' = AtP /\ al i < be j /\ left A i (q (S j)) /\ x = p (S i) \/
     i' = S i /\ j' = j /\ m' = InQ /\ al i < be j /\ left A i (q (S j))) ->
    pass i j V m c i' j' m' x (append_convex_point x V).

(** A common point of the two edges: the advance that follows. *)
Lemma crossing_pass i j x V : running i j -> inter i j = Some x ->
  let ins := rleb 0 (cross_maybe_exact (q (S j)) (q j) (p (S i)) (q j)) in
  exists i' j' m',
    advance P Q (det i j) (st i j ins (negb ins) (append_convex_point x V)) =
      st i' j' (flag_p m') (negb (flag_p m')) (append_convex_point x V) /\
    (i' = i /\ j' = S j /\ m' = InP /\ be j <= al i /\ left B j (p (S i)) \/
     i' = S i /\ j' = j /\ m' = AtP /\ al i < be j /\ left A i (q (S j)) /\ x = p (S i) \/
     i' = S i /\ j' = j /\ m' = InQ /\ al i < be j /\ left A i (q (S j))) /\
    running i' j' /\ at_mode i' j' m' x.
Proof.
  intros R X ins. destruct (inter_some i j x X) as (Oa & Ob & D).
  assert (M : meet A B x) by (split; [apply (on_in A GA i) | apply (on_in B GB j)]; auto).
  destruct R as (Hi & Hj & Sy). assert (R : running i j) by (split; auto).
  assert (T : ins = true <-> left B j (p (S i))) by (unfold ins; rewrite rleb_iff; apply inside_test).
  unfold sync in Sy.
  destruct (Rle_lt_dec (be j) (al i)) as [C|C].
  - assert (L : left B j (p (S i))).
    { unfold left. pose proof (edge_up A GA i (be j) x Oa ltac:(lra)). rewrite <- (on_height B j x Ob). lra. }
    rewrite (proj2 T L). cbn [negb].
    destruct (advance_st i j true false (append_convex_point x V) Sy) as [[[[_ N]|[N _]] _]|[Ad ->]]; [tauto | lra |].
    exists i, (S j), InP. split; auto. split; [tauto|]. split; [now apply (run_q i j x)|].
    split; auto. split; [apply M|]. split.
    + intros k K. left. pose proof (a_le B GB k j ltac:(lia)). lra.
    + right. exists j. split; [lia|]. split; auto. lra.
  - assert (L : left A i (q (S j))).
    { unfold left. pose proof (edge_up B GB j (al i) x Ob ltac:(lra)). rewrite <- (on_height A i x Oa). lra. }
    destruct ins eqn:I.
    + assert (E : x = p (S i)).
      { apply (edge_end A GA i (be j)); auto; [lra|]. rewrite (on_height B j x Ob). apply (proj1 T eq_refl). }
      destruct (advance_st i j true (negb true) (append_convex_point x V) Sy) as [[Ad ->]|[[[N _]|[_ N]] _]]; [|lra|tauto].
      exists (S i), j, AtP. rewrite <- E, append_twice. split; auto. split; [tauto|]. split; [now apply (run_p i j x)|].
      split; auto.
    + destruct (advance_st i j false (negb false) (append_convex_point x V) Sy) as [[Ad ->]|[[[N _]|[_ N]] _]]; [|lra|tauto].
      exists (S i), j, InQ. split; auto. split; [tauto|]. split; [now apply (run_p i j x)|].
      split; auto. split; [apply M|]. split.
      * intros k K. left. pose proof (a_le A GA k i ltac:(lia)). lra.
      * right. exists i. split; [lia|]. split; auto. lra.
Qed.
Lemma pass_ok i j m c V : running i j -> at_mode i j m c ->
  (exists x, inter i j = Some x /\ (2 < length V)%nat /\ x = at_ V 0 /\
     step P Q (st i j (flag_p m) (negb (flag_p m)) V) = inl V) \/
  (exists i' j' m' c' V', pass i j V m c i' j' m' c' V' /\ running i' j' /\ at_mode i' j' m' c' /\
     step P Q (st i j (flag_p m) (negb (flag_p m)) V) = inr (st i' j' (flag_p m') (negb (flag_p m')) V')).
Proof.
  intros R M. pose proof (at_mode_meet _ _ _ _ M) as Mc. rewrite step_st.
  destruct (inter i j) as [x|] eqn:X.
  { destruct (Nat.ltb 2 (length V) && peqb x (at_ V 0)) eqn:T.
    - left. exists x. apply andb_true_iff in T as [T1 T2]. apply Nat.ltb_lt in T1. apply peqb_iff in T2. auto.
    - right. destruct (crossing_pass i j x V R X) as (i' & j' & m' & Ad & Ca & R' & M').
      exists i', j', m', x, (append_convex_point x V). cbv zeta. rewrite Ad. split; auto. apply pass_x; auto.
      intros [T1 T2]. apply Nat.ltb_lt in T1. apply peqb_iff in T2. rewrite T1, T2 in T. discriminate. }
  right. pose proof (inter_none i j X) as Ap.
  destruct (running_first i j R) as [F1 F2].
  pose proof R as (Hi & Hj & Sy). pose proof Sy as Sy'. unfold sync in Sy'.
  destruct m; cbn [flag_p negb at_mode] in *.
  - destruct M as (O & I & H & W).
    destruct (advance_st i j true false V Sy) as [[Ad ->]|[Ad ->]].
    + destruct Ad as [[D N]|[D N]].
      { exfalso. apply N. unfold left. pose proof (edge_up A GA i (be j) c O ltac:(lra)). pose proof (I j) as L. unfold left in L. lra. }
      assert (E : inC B (p (S i))) by (apply (enter A B GA GB i j c); auto; lra).
      exists (S i), j, InP, (p (S i)), (append_convex_point (p (S i)) V). split; [now apply pass_pp|].
      split; [apply (run_p i j c); auto; right; auto|]. split; auto.
      split; [apply on_start; auto|]. split; auto. split; [|now left].
      intros k K. destruct (H k K) as [U|U]; [left; pose proof (g_step A GA i); lra | now right].
    + exists i, (S j), InP, c, V. split; [now apply pass_pq|]. split; [now apply (run_q i j c)|]. split; auto.
      split; auto. split; auto. split.
      * intros k K. destruct (Nat.eq_dec k j) as [->|]; [|apply H; lia].
        destruct Ad as [[D _]|[D N]]; [left; lra | right]. apply (edge_out A B GB i j); auto. lra.
      * destruct W as [|(j' & J' & W)]; [now left | right]. exists j'. split; [lia | auto].
  - exfalso. destruct M as [-> O]. apply (Ap (p i)); auto. apply on_start; auto.
  - destruct M as (O & I & H & W).
    destruct (advance_st i j false true V Sy) as [[Ad ->]|[Ad ->]].
    + exists (S i), j, InQ, c, V. split; [now apply pass_qp|]. split; [now apply (run_p i j c)|]. split; auto.
      split; auto. split; auto. split.
      * intros k K. destruct (Nat.eq_dec k i) as [->|]; [|apply H; lia].
        destruct Ad as [[D N]|[D _]]; [right | left; lra]. apply (edge_out B A GA j i); auto. lra.
      * destruct W as [|(i' & I' & W)]; [now left | right]. exists i'. split; [lia | auto].
    + destruct Ad as [[D N]|[D N]].
      2:{ exfalso. apply N. unfold left. pose proof (edge_up B GB j (al i) c O ltac:(lra)). pose proof (I i) as L. unfold left in L. lra. }
      assert (E : inC A (q (S j))).
      { apply (enter B A GB GA j i c); auto. intros z Z1 Z2. apply (Ap z Z2 Z1). }
      exists i, (S j), InQ, (q (S j)), (append_convex_point (q (S j)) V). split; [now apply pass_qq|].
      split; [apply (run_q i j c); auto; left; auto|]. split; auto.
      split; [apply on_start; auto|]. split; auto. split; [|now left].
      intros k K. destruct (H k K) as [U|U]; [left; pose proof (g_step B GB j); lra | now right].
Qed.

(** Every point pushed is an extreme point of the common part. *)
Lemma corner_extreme_a i : inC B (p (S i)) -> extreme A B (p (S i)).
Proof.
  intros I. apply (two_supports A B (al i) (al (S i))).
  - split; auto. now apply vertex_in.
  - apply supp_x, on_end; auto.
  - apply supp_x, on_start; auto.
  - pose proof (g_step A GA i). assert (0 < sin (al (S i) - al i)) by (apply sin_gt_0; lra). lra.
Qed.
Lemma corner_extreme_b j : inC A (q (S j)) -> extreme A B (q (S j)).
Proof.
  intros I. apply (two_supports A B (be j) (be (S j))).
  - split; auto. now apply vertex_in.
  - apply supp_y, on_end; auto.
  - apply supp_y, on_start; auto.
  - pose proof (g_step B GB j). assert (0 < sin (be (S j) - be j)) by (apply sin_gt_0; lra). lra.
Qed.
Lemma inter_extreme i j x : running i j -> inter i j = Some x -> extreme A B x.
Proof.
  intros (Hi & Hj & _) X. destruct (inter_some i j x X) as (Oa & Ob & D).
  pose proof (on_in A GA i x Oa) as Ia. pose proof (on_in B GB j x Ob) as Ib.
  pose proof (g_n A GA). pose proof (g_n B GB).
  destruct (Req_dec (sin (al i - be j)) 0) as [Z|Z].
  - destruct (D Z) as [[E|[E|[E|E]]] _]; subst x.
    + destruct i as [|i]; [lia|]. now apply corner_extreme_a.
    + now apply corner_extreme_a.
    + destruct j as [|j]; [lia|]. now apply corner_extreme_b.
    + now apply corner_extreme_b.
  - apply (two_supports A B (be j) (al i)); auto; [split; auto | now apply supp_y | now apply supp_x].
Qed.
End Loop.
