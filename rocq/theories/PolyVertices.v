(** The loop as a whole. *)
From Coq Require Import Reals Lra Psatz List Arith Lia Bool.
From Verif Require Import Base GeomModel GeomBase PolyModel PolySpec PolySegProofs PolyChain PolyPair PolyPass PolyPath PolyExact PolyTurning.
Import ListNotations.
Open Scope R_scope.

Section Run.
Variables (A B : chain) (GA : good A) (GB : good B) (P Q : list pt) (RA : reps A P) (RB : reps B Q).
Notation p := (cv A).
Notation q := (cv B).

Lemma pass_push i j V m c i' j' m' c' V' : running A B i j -> pass A B i j V m c i' j' m' c' V' ->
  V' = V \/ exists x, extreme A B x /\ V' = append_convex_point x V.
Proof.
  intros R Ps. destruct Ps as [c Ap D L I|c Ap Ad|c Ap Ad|c Ap D L I|m c x i' j' m' X Ncl Ca].
  - right. eexists. split; [now apply corner_extreme_a | auto].
  - now left.
  - now left.
  - right. eexists. split; [now apply corner_extreme_b | auto].
  - right. exists x. split; auto. eapply inter_extreme; eauto.
Qed.
(** In a flat common part at most two points are found. *)
Definition few (V : list pt) : Prop :=
  (forall w, In w V -> extreme A B w) /\ (V = [] \/ exists a, V = [a] \/ exists b, V = [a; b] /\ a <> b).
Lemma few_push x V : flat A B -> few V -> extreme A B x -> few (append_convex_point x V).
Proof.
  intros F (Ex & H) Xx. destruct H as [->|(a & [->|(b & -> & N)])].
  - cbn [append_convex_point]. split; [intros w [<-|[]]; auto|]. right. exists x. now left.
  - cbn [append_convex_point last]. destruct (peqb x a) eqn:E; cbn [negb andb].
    + split; auto. right. exists a. now left.
    + apply peqb_false in E. cbn [app]. split; [intros w [<-|[<-|[]]]; auto; apply Ex; now left|]. right. exists a. right. exists x. auto.
  - cbn [append_convex_point last]. destruct (peqb x a) eqn:E; cbn [negb andb]; [split; auto; right; exists a; right; exists b; auto|].
    destruct (peqb x b) eqn:E'; cbn [negb]; [split; auto; right; exists a; right; exists b; auto|].
    apply peqb_false in E, E'. exfalso.
    apply (flat_two A B a b x F); auto; apply Ex; cbn; auto.
Qed.
Lemma few_length V : few V -> (length V <= 2)%nat.
Proof. intros (_ & [->|(a & [->|(b & -> & _)])]); cbn [length]; lia. Qed.
Lemma flat_closing r : forall i j m c V l, flat A B -> running A B i j -> at_mode A B i j m c -> few V ->
  closing r P Q (st P Q i j (flag_p m) (negb (flag_p m)) V) <> Closed l.
Proof.
  induction r as [|r IH]; intros i j m c V l F R M W; cbn [closing]; [discriminate|].
  destruct (pass_ok A B GA GB P Q RA RB i j m c V R M) as [(x & X & Len & _)|(i' & j' & m' & c' & V' & Ps & R' & M' & ->)].
  - apply few_length in W. lia.
  - apply (IH i' j' m' c'); auto. destruct (pass_push _ _ _ _ _ _ _ _ _ _ R Ps) as [->|(x & Xx & ->)]; auto. now apply few_push.
Qed.
(** The search for the first point. *)
Lemma searching_found f : forall i j, running A B i j -> (exists z, meet A B z) ->
  searching f P Q (st P Q i j false false []) = Nothing \/
  exists i0 j0 x0 i' j' m', running A B i0 j0 /\ inter A B i0 j0 = Some x0 /\
    running A B i' j' /\ at_mode A B i' j' m' x0 /\
    (i' = i0 /\ j' = S j0 /\ m' = InP /\ ca B j0 <= ca A i0 \/ i' = S i0 /\ j' = j0 /\ m' <> InP /\ ca A i0 < ca B j0) /\
    searching f P Q (st P Q i j false false []) = closing (length P + length Q) P Q (st P Q i' j' (flag_p m') (negb (flag_p m')) [x0]).
Proof.
  induction f as [|f IH]; intros i j R [z Mz]; cbn [searching]; [now left|].
  rewrite (step_st A B GA GB P Q RA RB). destruct (inter A B i j) as [x|] eqn:X.
  - right. cbn [length Nat.ltb Nat.leb andb].
    destruct (crossing_pass A B GA GB P Q RA RB i j x [] R X) as (i' & j' & m' & Ad & Ca & R' & M').
    cbv zeta. rewrite Ad. cbn [append_convex_point st convex_points].
    exists i, j, x, i', j', m'. split; auto. split; auto. split; auto. split; auto. split; auto.
    destruct Ca as [(-> & -> & -> & D & _)|[(-> & -> & -> & D & _)|(-> & -> & -> & D & _)]]; [left | right | right]; repeat split; auto; discriminate.
  - destruct (advance_st A B GA GB P Q RA RB i j false false []) as [[Ad ->]|[Ad ->]]; [apply R | |]; cbn [convex_points st].
    + apply IH; [now apply (run_p A B GA i j z) | now exists z].
    + apply IH; [now apply (run_q A B GB i j z) | now exists z].
Qed.
Lemma advance_any i j d V : exists i' j', advance P Q d (st P Q i j false false V) = st P Q i' j' false false V.
Proof.
  unfold advance, st. cbn [p_idx q_idx p_inside q_inside convex_points].
  destruct (at_next A P i GA RA) as [_ ->]. destruct (at_next B Q j GB RB) as [_ ->].
  match goal with |- context [if ?b then _ else _] => destruct b end; [exists (S i), j | exists i, (S j)]; reflexivity.
Qed.
Lemma searching_apart f : forall i j, searching f P Q (st P Q i j false false []) = Nothing \/ exists z, meet A B z.
Proof.
  induction f as [|f IH]; intros i j; cbn [searching]; auto.
  rewrite (step_st A B GA GB P Q RA RB). destruct (inter A B i j) as [x|] eqn:X.
  - right. exists x. destruct (inter_some A B GA GB i j x X) as (Xa & Xb & _). split; [apply (on_in A GA i) | apply (on_in B GB j)]; auto.
  - destruct (advance_any i j (det A B i j) []) as (i' & j' & ->). cbn [convex_points st]. apply IH.
Qed.
Lemma start_state : traverse P Q = searching ((length P + length Q) * 2) P Q (st P Q (cn A) (cn B) false false []).
Proof.
  unfold traverse, st. destruct RA as [NA _], RB as [NB _]. pose proof (g_n A GA). pose proof (g_n B GB).
  rewrite NA, NB, !Nat.mod_same by lia. reflexivity.
Qed.
Hypothesis Sy : sync A B (cn A) (cn B).
Theorem closed_exact l : traverse P Q = Closed l ->
  exists G L, good (around l G L) /\ forall z, inC (around l G L) z <-> meet A B z.
Proof.
  intros E. rewrite start_state in E.
  destruct (searching_apart ((length P + length Q) * 2) (cn A) (cn B)) as [No|Me]; [rewrite No in E; discriminate|].
  assert (R0 : running A B (cn A) (cn B)) by (split; auto).
  destruct (searching_found ((length P + length Q) * 2) (cn A) (cn B) R0 Me) as [X|(i0 & j0 & x0 & i' & j' & m' & R & X & R' & M' & Ca & Eq)].
  { rewrite X in E. discriminate. }
  rewrite Eq in E. destruct (inter_some A B GA GB i0 j0 x0 X) as (O1 & O2 & _).
  pose proof (inter_extreme A B GA GB i0 j0 x0 R X) as Xx.
  assert (F : ~ flat A B).
  { intros F. apply (flat_closing (length P + length Q) i' j' m' x0 [x0] l F R' M'); auto.
    split; [intros w [<-|[]]; auto|]. right. exists x0. now left. }
  assert (Fu : Full A B i0 j0 x0 (length P + length Q) i' j' m' x0 [x0]).
  { destruct RA as [NA _], RB as [NB _]. pose proof (g_n A GA). pose proof (g_n B GB).
    split; auto. split; auto. split; [discriminate|]. split; auto. split; [cbn [length]; lia|].
    assert (Hl : lo A B i0 j0 <= hi_of A B m' i' j').
    { unfold lo. destruct Ca as [(-> & -> & -> & D)|(-> & -> & Nm & D)].
      - cbn [hi_of]. rewrite Rmax_left; lra.
      - destruct m'; [now elim Nm | |]; cbn [hi_of]; rewrite Rmax_right; lra. }
    split; [lia|]. split; [lia|]. split; [lia|]. split; [lia|]. split; [left; lia|]. split; auto. split; auto.
    exists [], []. split; [|intros i I; cbn in I; lia]. split; auto. split; auto. split; [intros w [<-|[]]; auto|].
    intros i I. cbn in I. lia. }
  assert (Sy0 : sync A B i0 j0) by apply R.
  destruct (closing_path A B GA GB P Q RA RB F i0 j0 x0 O1 O2 Sy0 _ _ _ _ _ _ _ Fu E) as [Len D].
  destruct (done_chain A B (lo A B i0 j0) l F Len D) as (G & L & Go & Su & Ex).
  exists G, L. split; auto. intros z. now apply around_exact.
Qed.
End Run.
