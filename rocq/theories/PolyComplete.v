(** Without contact of the corners nothing is missed. *)
From Coq Require Import Reals Lra Psatz List Arith Lia Bool.
From Verif Require Import Base GeomModel GeomBase PolyModel PolySpec PolySegProofs PolyChain PolyPair PolyPass PolyPath PolyExact PolyTurning PolyVertices PolyInside.
Import ListNotations.
Open Scope R_scope.

Section One.
Variables (C : chain) (G : good C).
Lemma on_per k i z : on C (i + k * cn C) z <-> on C i z.
Proof.
  induction k; [now rewrite Nat.mul_0_l, Nat.add_0_r|]. rewrite <- IHk, <- (on_n C G (i + k * cn C)).
  replace (i + S k * cn C)%nat with (i + k * cn C + cn C)%nat by lia. reflexivity.
Qed.
(** A point of two edges is a corner. *)
Lemma on_once i k z : (i < k < i + cn C)%nat -> on C i z -> on C k z -> z = cv C k \/ z = cv C (S k).
Proof.
  intros K Oi Ok. pose proof (on_height C i z Oi) as H.
  destruct (Nat.eq_dec k (S i)) as [->|N1].
  { left. apply (edge_start C (S i) (ca C i)); auto; [apply (g_step C G)|]. rewrite (end_height C G). lra. }
  destruct (Nat.eq_dec (S k) (i + cn C)) as [E|N2].
  { right. apply (edge_start C (S k) (ca C k)); [rewrite E; now apply on_n | apply (g_step C G) |].
    rewrite (end_height C G), (on_height C k z Ok). lra. }
  exfalso. pose proof (vertex_strict C G i k ltac:(lia)). pose proof (vertex_strict C G i (S k) ltac:(lia)).
  pose proof (a_lt C G i k ltac:(lia)). pose proof (a_lt C G k (i + cn C) ltac:(lia)) as U. rewrite (g_a C G) in U.
  destruct (Rle_lt_dec (ca C k) (ca C i + PI)) as [A|A].
  - pose proof (edge_up C G k (ca C i) z Ok ltac:(lra)). lra.
  - pose proof (edge_down C G k (ca C i + 2 * PI) z Ok ltac:(lra)) as W. rewrite !hgt_2pi in W. lra.
Qed.
Lemma on_same i k z : (forall l, z <> cv C l) -> on C i z -> on C k z -> exists u w, (i + u * cn C = k + w * cn C)%nat.
Proof.
  intros N Oi Ok. destruct (window C G i k) as (l & u & w & L & E).
  destruct (Nat.eq_dec l i) as [->|Nl]; [eauto|]. exfalso.
  assert (Ol : on C l z) by (apply (on_per u); rewrite E; now apply on_per).
  destruct (on_once i l z ltac:(lia) Oi Ol) as [X|X]; apply N in X; auto.
Qed.
End One.

Lemma wrap m a k u w : (a + u * m = k + w * m)%nat -> (k < a + m)%nat -> (k <= a)%nat.
Proof.
  intros E L. destruct (le_lt_dec u w) as [H|H].
  - apply (Nat.mul_le_mono_r _ _ m) in H. lia.
  - assert (H' : (S w <= u)%nat) by lia. apply (Nat.mul_le_mono_r _ _ m) in H'. cbn [Nat.mul] in H'. lia.
Qed.

Section Slide.
Variables (X Y : chain) (GY : good Y).
Lemma slide j z d s : on Y j z -> (forall l, z <> cv Y l) -> 0 < sin (d - ca Y j) -> ca Y 0 <= d -> 0 < s ->
  (forall t, 0 <= t <= s -> inC X (move z t d)) -> exists t, 0 < t /\ meet X Y (move z t d).
Proof.
  intros O N Sp D0 S0 IX.
  destruct (exit_edge Y GY d z s ltac:(lra) D0 (on_in Y GY j z O)) as [I|(k & t & K & T & Ok)].
  - exists s. split; auto. split; auto. apply IX. lra.
  - exists t. split; [|split; [now apply IX | now apply (on_in Y GY k)]].
    destruct (Rle_lt_dec t 0) as [Z|]; auto. exfalso. replace t with 0 in Ok by lra. rewrite move_0 in Ok.
    destruct (on_same Y GY j k z N O Ok) as (u & w & E).
    assert (Ea : ca Y j + INR u * (2 * PI) = ca Y k + INR w * (2 * PI)) by (rewrite <- !(a_per Y GY), E; reflexivity).
    assert (Sn : sin (d - ca Y k) < 0) by (apply sin_lt_0_var; lra).
    rewrite <- (sin_period (d - ca Y j) w) in Sp. rewrite <- (sin_period (d - ca Y k) u) in Sn.
    replace (d - ca Y k + 2 * INR u * PI) with (d - ca Y j + 2 * INR w * PI) in Sn by lra. lra.
Qed.
End Slide.

Section NoContact.
Variables (A B : chain) (GA : good A) (GB : good B) (P Q : list pt) (RA : reps A P) (RB : reps B Q).
Notation p := (cv A).
Notation q := (cv B).
Notation al := (ca A).
Notation be := (ca B).
Hypothesis NC : forall i j, ~ on B j (p i) /\ ~ on A i (q j).

Section At.
Variables (i0 j0 : nat) (x0 : pt) (O1 : on A i0 x0) (O2 : on B j0 x0).
Lemma not_p k : x0 <> p k.
Proof. intros E. apply (proj1 (NC k j0)). now rewrite <- E. Qed.
Lemma not_q k : x0 <> q k.
Proof. intros E. apply (proj2 (NC i0 k)). now rewrite <- E. Qed.
Lemma no_touch : ~ contact A B x0.
Proof. intros (k & [E|E]); [now apply not_p in E | now apply not_q in E]. Qed.
Lemma crosses : sin (al i0 - be j0) <> 0.
Proof.
  intros E. destruct (inter A B i0 j0) as [x|] eqn:X; [|now apply (inter_none A B GA GB i0 j0 X x0)].
  destruct (inter_some A B GA GB i0 j0 x X) as (Xa & Xb & D). destruct (D E) as [[U|[U|[U|U]]] _]; subst x.
  - now apply (proj1 (NC i0 j0)). - now apply (proj1 (NC (S i0) j0)). - now apply (proj2 (NC i0 j0)). - now apply (proj2 (NC i0 (S j0))).
Qed.
Lemma both_ways C i d : good C -> on C i x0 -> (forall k, x0 <> cv C k) -> d = ca C i \/ d = ca C i + PI ->
  exists s, 0 < s /\ forall t, 0 <= t <= s -> inC C (move x0 t d).
Proof.
  clear O1 O2. intros G O N D. pose proof O as (s & Sr & E).
  assert (S0 : 0 < s).
  { destruct (Rle_lt_dec s 0) as [Z|]; auto. elim (N i). rewrite E. replace s with 0 by lra. apply move_0. }
  assert (S1 : s < cl C i).
  { destruct (Rle_lt_dec (cl C i) s) as [Z|]; auto. elim (N (S i)). rewrite E, (g_move C G). f_equal. lra. }
  destruct D as [-> | ->].
  - exists (cl C i - s). split; [lra|]. intros t T. apply (on_in C G i). rewrite E, move_move. exists (s + t). split; [lra | auto].
  - exists s. split; auto. intros t T. apply (on_in C G i). exists (s - t). split; [lra|].
    rewrite E. unfold move; cbn [fst snd]. rewrite neg_cos, neg_sin. f_equal; ring.
Qed.
Lemma not_flat : running A B i0 j0 -> ~ flat A B.
Proof.
  intros R (g & h & F). destruct (running_first A B GA GB i0 j0 R) as [F1 F2]. pose proof crosses as Cr. pose proof PI_RGT_0 as Pi.
  assert (M0 : meet A B x0) by (split; [apply (on_in A GA i0) | apply (on_in B GB j0)]; auto).
  assert (Za : sin (al i0 - g) = 0).
  { assert (E : exists d, (d = al i0 \/ d = al i0 + PI) /\ 0 < sin (d - be j0) /\ be 0 <= d).
    { destruct (Rlt_le_dec 0 (sin (al i0 - be j0))); [exists (al i0) | exists (al i0 + PI)]; (split; [auto|]; split; [|lra]); auto.
      replace (al i0 + PI - be j0) with (al i0 - be j0 + PI) by ring. rewrite neg_sin. lra. }
    destruct E as (d & D1 & D2 & D3).
    destruct (both_ways A i0 d GA O1 not_p D1) as (s & S0 & Is).
    destruct (slide A B GB j0 x0 d s O2 not_q D2 D3 S0 Is) as (t & T & M).
    pose proof (F _ M) as E1. rewrite hgt_move, (F _ M0) in E1.
    assert (E2 : sin (d - g) = 0) by (assert (E2 : t * sin (d - g) = 0) by lra; apply Rmult_integral in E2 as [|]; lra).
    destruct D1 as [-> | ->]; auto. replace (al i0 + PI - g) with (al i0 - g + PI) in E2 by ring. rewrite neg_sin in E2. lra. }
  assert (Zb : sin (be j0 - g) = 0).
  { assert (Cr' : sin (be j0 - al i0) <> 0).
    { replace (be j0 - al i0) with (- (al i0 - be j0)) by ring. rewrite sin_neg. lra. }
    assert (E : exists d, (d = be j0 \/ d = be j0 + PI) /\ 0 < sin (d - al i0) /\ al 0 <= d).
    { destruct (Rlt_le_dec 0 (sin (be j0 - al i0))); [exists (be j0) | exists (be j0 + PI)]; (split; [auto|]; split; [|lra]); auto.
      replace (be j0 + PI - al i0) with (be j0 - al i0 + PI) by ring. rewrite neg_sin. lra. }
    destruct E as (d & D1 & D2 & D3).
    destruct (both_ways B j0 d GB O2 not_q D1) as (s & S0 & Is).
    destruct (slide B A GA i0 x0 d s O1 not_p D2 D3 S0 Is) as (t & T & M).
    assert (M' : meet A B (move x0 t d)) by (destruct M; split; auto).
    pose proof (F _ M') as E1. rewrite hgt_move, (F _ M0) in E1.
    assert (E2 : sin (d - g) = 0) by (assert (E2 : t * sin (d - g) = 0) by lra; apply Rmult_integral in E2 as [|]; lra).
    destruct D1 as [-> | ->]; auto. replace (be j0 + PI - g) with (be j0 - g + PI) in E2 by ring. rewrite neg_sin in E2. lra. }
  apply Cr. replace (al i0 - be j0) with (al i0 - g - (be j0 - g)) by ring. rewrite sin_minus, Za, Zb. ring.
Qed.
Hypothesis Sy0 : sync A B i0 j0.
Hypothesis R0 : running A B i0 j0.
Theorem closing_total r : forall i j m c V, (1 <= r)%nat -> Full A B i0 j0 x0 r i j m c V ->
  exists l, closing r P Q (st P Q i j (flag_p m) (negb (flag_p m)) V) = Closed l.
Proof.
  pose proof (not_flat R0) as NF.
  induction r as [|r IH]; intros i j m c V Hr F; [lia|]. cbn [closing]. pose proof F as (R & M & _).
  destruct (pass_ok A B GA GB P Q RA RB i j m c V R M) as [(x & X & Len & Ex & ->)|(i' & j' & m' & c' & V' & Ps & R' & M' & ->)]; [eauto|].
  destruct r as [|r].
  - exfalso. destruct F as (_ & _ & NV & H0 & Hd & Cn & I1 & J1 & Bi & Bj & Ec & Lo & Gs & Ls & Pa & Bd).
    assert (Bj' : (j <= j0 + cn B)%nat) by (destruct Bj as [|(_ & _ & K)]; [auto | now apply no_touch in K]).
    assert (Ei : i = (i0 + cn A)%nat) by lia. assert (Ej : j = (j0 + cn B)%nat) by lia.
    assert (Oi : on A i x0) by (rewrite Ei; now apply on_n). assert (Oj : on B j x0) by (rewrite Ej; now apply on_n).
    destruct Ps as [c Ap D L I|c Ap Ad|c Ap Ad|c Ap D L I|m c x i' j' m' X Ncl Ca]; try now apply (Ap x0).
    destruct (inter_some A B GA GB i j x X) as (Xa & Xb & _).
    assert (Cr : sin (al i - be j) <> 0).
    { rewrite Ei, Ej, (g_a A GA), (g_a B GB). replace (al i0 + 2 * PI - (be j0 + 2 * PI)) with (al i0 - be j0) by ring. apply crosses. }
    assert (Ex : x = x0) by (apply (inter_unique A B i j); auto). subst x.
    destruct (le_lt_dec (length V) 2) as [Le|Gt]; [|apply Ncl; split; [lia | auto]].
    destruct (ahead A B GA GB NF i j m c x0 R M X) as (s & S0 & Es).
    destruct (Nat.eq_dec (length V) 2) as [Len|Nl].
    + assert (Sp : 0 < s).
      { destruct (Rle_lt_dec s 0) as [Z|]; auto. elim (Hd ltac:(lia)). rewrite <- Ec, Es at 1. replace s with 0 by lra. now rewrite move_0. }
      destruct Pa as (E1 & E2 & Ex & H). destruct (H 0%nat ltac:(lia)) as (T1 & T2 & T3 & _).
      assert (LV : nth 1 V o = last V o) by (rewrite last_nth; f_equal; lia).
      apply NF. apply (back_flat A B x0 (last V o) (nth 0 Ls 0) s (nth 0 Gs 0) (hi_of A B m i j)); auto.
      * rewrite <- LV, T2. now f_equal.
      * rewrite <- Ec. exact Es.
      * rewrite <- H0. exact T3.
      * rewrite <- Ec. now apply (supp_mode A B i j m).
    + assert (Cx : c = x0).
      { destruct V as [|a [|b V]]; [easy | rewrite Ec; exact H0 | cbn [length] in *; lia]. }
      unfold sync in Sy0. destruct m; cbn [at_mode] in M.
      * destruct M as (_ & _ & _ & [W|(k & K & Ok & W)]); [rewrite Cx in W; now apply not_p in W|]. rewrite Cx in Ok.
        destruct (on_same B GB j0 k x0 not_q O2 Ok) as (u & w & E).
        assert (Le0 : (k <= j0)%nat) by (apply (wrap (cn B) j0 k u w); auto; lia).
        pose proof (a_le B GB k j0 Le0). rewrite Ei, (g_a A GA) in W. lra.
      * destruct M as [W _]. rewrite Cx in W. now apply not_p in W.
      * destruct M as (_ & _ & _ & [W|(k & K & Ok & W)]); [rewrite Cx in W; now apply not_q in W|]. rewrite Cx in Ok.
        destruct (on_same A GA i0 k x0 not_p O1 Ok) as (u & w & E).
        assert (Le0 : (k <= i0)%nat) by (apply (wrap (cn A) i0 k u w); auto; lia).
        pose proof (a_le A GA k i0 Le0). rewrite Ej, (g_a B GB) in W. lra.
  - destruct (full_pass A B GA GB NF i0 j0 x0 O1 O2 Sy0 (S r) i j m c V i' j' m' c' V' ltac:(lia) F Ps R' M') as [F'|(_ & _ & K)];
      [|now apply no_touch in K].
    apply (IH i' j' m' c' V'); auto. lia.
Qed.
End At.

(** The boundaries of two polygons that meet cross, unless one is in the other. *)
Lemma late_angle C a : good C -> exists k, a <= ca C (0 + k * cn C).
Proof.
  clear. intros G. destruct (archimed ((a - ca C 0) / (2 * PI))) as [H _]. pose proof PI_RGT_0 as Pi.
  set (k := Z.to_nat (Rdefinitions.up ((a - ca C 0) / (2 * PI)))).
  exists k. rewrite (a_per C G).
  assert (K : (a - ca C 0) / (2 * PI) <= INR k).
  { destruct (Z_le_gt_dec 0 (Rdefinitions.up ((a - ca C 0) / (2 * PI)))) as [Z0|Z0].
    - unfold k. rewrite INR_IZR_INZ, Z2Nat.id by auto. lra.
    - assert (IZR (Rdefinitions.up ((a - ca C 0) / (2 * PI))) < 0) by (apply IZR_lt; lia). pose proof (pos_INR k). lra. }
  apply (Rmult_le_compat_r (2 * PI)) in K; [|lra].
  replace ((a - ca C 0) / (2 * PI) * (2 * PI)) with (a - ca C 0) in K by (field; lra). lra.
Qed.
Lemma walk d : forall k w, al 0 <= be k -> on B k w -> inC A w -> ~ inC A (q (S k + d)) -> exists i j x, on A i x /\ on B j x.
Proof.
  clear NC RA RB P Q. induction d as [|d IH]; intros k w K Ow Iw N.
  - destruct Ow as (s & Sr & E).
    destruct (exit_edge A GA (be k) w (cl B k - s) ltac:(lra) K Iw) as [I|(i & t & _ & T & Ot)].
    + elim N. rewrite Nat.add_0_r, (g_move B GB). rewrite E, move_move in I. now replace (s + (cl B k - s)) with (cl B k) in I by ring.
    + exists i, k, (move w t (be k)). split; auto. rewrite E, move_move. exists (s + t). split; [lra | auto].
  - pose proof Ow as (s & Sr & E).
    destruct (exit_edge A GA (be k) w (cl B k - s) ltac:(lra) K Iw) as [I|(i & t & _ & T & Ot)].
    + apply (IH (S k) (q (S k))).
      * pose proof (g_step B GB k). lra.
      * now apply on_start.
      * rewrite (g_move B GB). rewrite E, move_move in I. now replace (s + (cl B k - s)) with (cl B k) in I by ring.
      * now replace (S (S k) + d)%nat with (S k + S d)%nat by lia.
    + exists i, k, (move w t (be k)). split; auto. rewrite E, move_move. exists (s + t). split; [lra | auto].
Qed.
Lemma boundaries_meet z i j : meet A B z -> ~ inC B (p i) -> ~ inC A (q j) -> exists i j x, on A i x /\ on B j x.
Proof.
  clear NC RA RB P Q. intros [Za Zb] Np Nq.
  assert (Nz : psub (p i) z <> o).
  { intros E. apply Np. replace (p i) with z; auto. destruct z as [a b], (p i) as [c d]. unfold psub in E; cbn [fst snd] in E.
    apply pair_equal_spec in E. f_equal; lra. }
  destruct (bearing_ok _ Nz) as (Lp & E1 & E2). set (s := len (psub (p i) z)) in *. set (g := bearing (psub (p i) z)) in *.
  set (k := turns (g - be 0)). pose proof (turns_ok (g - be 0)) as T. fold k in T. pose proof PI_RGT_0 as Pi.
  set (d := g + IZR (k + 1) * (2 * PI)).
  assert (D0 : be 0 <= d) by (unfold d; rewrite plus_IZR; lra).
  assert (Ep : p i = move z s d).
  { unfold d. rewrite move_turns. unfold move. rewrite (surjective_pairing (p i)). unfold psub in E1, E2; cbn [fst snd] in E1, E2. f_equal; lra. }
  destruct (exit_edge B GB d z s ltac:(lra) D0 Zb) as [I|(l & t & _ & Tt & Ot)]; [elim Np; now rewrite Ep|].
  assert (Iw : inC A (move z t d)) by (apply (convex_in A d t s z (p i)); auto using vertex_in).
  destruct (late_angle B (al 0) GB) as (u & U).
  set (l' := (l + u * cn B)%nat).
  assert (Ol : on B l' (move z t d)) by (now apply on_per).
  assert (Ul : al 0 <= be l') by (pose proof (a_le B GB (0 + u * cn B) l' ltac:(unfold l'; lia)); lra).
  pose proof (g_n B GB) as N3.
  set (jj := (j + S l' * cn B)%nat). assert (J : (S l' <= jj)%nat) by (unfold jj; nia).
  apply (walk (jj - S l') l' (move z t d)); auto.
  replace (S l' + (jj - S l'))%nat with jj by lia. unfold jj. now rewrite (v_per B GB).
Qed.
(** The search runs into a crossing. *)
Lemma closing_something r s : closing r P Q s <> Nothing.
Proof. clear. revert s. induction r as [|r IH]; intros s; cbn [closing]; [discriminate|]. destruct (step P Q s); [discriminate | apply IH]. Qed.
Lemma target i1 j1 x : sync A B (cn A) (cn B) -> on A i1 x -> on B j1 x ->
  exists i j, (cn A <= i < 3 * cn A)%nat /\ (cn B <= j < 3 * cn B)%nat /\ sync A B i j /\ on A i x /\ on B j x.
Proof.
  intros Sy O1 O2. pose proof PI_RGT_0 as Pi.
  destruct (window A GA (cn A) i1) as (i & u & w & I & E).
  destruct (window B GB (cn B) j1) as (j & u' & w' & J & E').
  assert (Oi : on A i x) by (apply (on_per A GA u); rewrite E; now apply on_per).
  assert (Oj : on B j x) by (apply (on_per B GB u'); rewrite E'; now apply on_per).
  pose proof (a_le A GA (cn A) i ltac:(lia)). pose proof (a_lt A GA i (cn A + cn A) ltac:(lia)) as Ua. rewrite (g_a A GA) in Ua.
  pose proof (a_le B GB (cn B) j ltac:(lia)). pose proof (a_lt B GB j (cn B + cn B) ltac:(lia)) as Ub. rewrite (g_a B GB) in Ub.
  unfold sync in *. destruct (Rle_lt_dec (al i - be j) PI) as [H1|H1].
  - destruct (Rle_lt_dec (al i - be j) (- PI)) as [H2|H2].
    + exists (i + cn A)%nat, j. rewrite (g_a A GA). split; [lia|]. split; [lia|]. split; [lra|]. split; auto. now apply on_n.
    + exists i, j. split; [lia|]. split; [lia|]. split; [lra|]. auto.
  - exists i, (j + cn B)%nat. rewrite (g_a B GB). split; [lia|]. split; [lia|]. split; [lra|]. split; auto. now apply on_n.
Qed.
Lemma search_total it jt x f : (cn A <= it)%nat -> (cn B <= jt)%nat -> sync A B it jt -> on A it x -> on B jt x ->
  forall i j, running A B i j -> (i <= it)%nat -> (j <= jt)%nat -> (it - i + (jt - j) < f)%nat ->
  searching f P Q (st P Q i j false false []) <> Nothing.
Proof.
  intros Ia Jb Sy O1 O2.
  assert (Rt : running A B it jt) by (split; auto).
  pose proof (not_flat it jt x O1 O2 Rt) as NF.
  assert (Mx : meet A B x) by (split; [apply (on_in A GA it) | apply (on_in B GB jt)]; auto).
  set (i0 := (it - cn A)%nat). set (j0 := (jt - cn B)%nat).
  assert (Ei : (i0 + cn A)%nat = it) by (unfold i0; lia). assert (Ej : (j0 + cn B)%nat = jt) by (unfold j0; lia).
  assert (O1' : on A i0 x) by (apply (on_n A GA); now rewrite Ei). assert (O2' : on B j0 x) by (apply (on_n B GB); now rewrite Ej).
  assert (Sy0 : sync A B i0 j0) by (unfold sync in *; rewrite <- Ei, <- Ej, (g_a A GA), (g_a B GB) in Sy; lra).
  induction f as [|f IH]; intros i j R I J L; [lia|]. cbn [searching].
  rewrite (step_st A B GA GB P Q RA RB). destruct (inter A B i j) as [y|] eqn:Y.
  - cbn [length Nat.ltb Nat.leb andb]. destruct (crossing_pass A B GA GB P Q RA RB i j y [] R Y) as (i' & j' & m' & Ad & _).
    cbv zeta. rewrite Ad. cbn [append_convex_point st convex_points]. apply closing_something.
  - pose proof (inter_none A B GA GB i j Y) as Ap.
    destruct (advance_st A B GA GB P Q RA RB i j false false []) as [[Ad ->]|[Ad ->]]; [apply R | |]; cbn [convex_points st].
    + assert (Ni : i <> it).
      { intros ->. destruct (Nat.eq_dec j jt) as [->|Nj]; [now apply (Ap x)|].
        destruct (stop_p A B GA GB i0 j0 x O1' O2' Sy0 it j) as (_ & _ & E); auto; [lia|]. now apply (not_q it x O1) in E. }
      apply IH; [now apply (run_p A B GA i j x) | lia | lia | lia].
    + assert (Nj : j <> jt).
      { intros ->. destruct (Nat.eq_dec i it) as [->|Ni]; [now apply (Ap x)|].
        destruct (stop_q A B GA GB NF i0 j0 x O1' O2' Sy0 i jt) as (_ & _ & E); auto; [lia|]. now apply (not_p jt x O2) in E. }
      apply IH; [now apply (run_q A B GB i j x) | lia | lia | lia].
Qed.
(** The loop closes if the boundaries cross. *)
Hypothesis Sy : sync A B (cn A) (cn B).
Theorem traverse_closes i j x : on A i x -> on B j x -> exists l, traverse P Q = Closed l.
Proof.
  intros O1 O2. destruct (target i j x Sy O1 O2) as (it & jt & I & J & St & Oi & Oj).
  assert (R0 : running A B (cn A) (cn B)) by (split; auto).
  assert (Mx : meet A B x) by (split; [apply (on_in A GA it) | apply (on_in B GB jt)]; auto).
  destruct RA as [NA _]. destruct RB as [NB _].
  rewrite (start_state A B GA GB P Q RA RB).
  destruct (searching_found A B GA GB P Q RA RB ((length P + length Q) * 2) (cn A) (cn B) R0 (ex_intro _ x Mx))
    as [X|(i0 & j0 & x0 & i' & j' & m' & R & X & R' & M' & Ca & Eq)].
  { exfalso. revert X. apply (search_total it jt x); auto; lia. }
  rewrite Eq. destruct (inter_some A B GA GB i0 j0 x0 X) as (X1 & X2 & _).
  pose proof (inter_extreme A B GA GB i0 j0 x0 R X) as Xx.
  apply (closing_total i0 j0 x0 X1 X2) with (c := x0); auto; [apply R | pose proof (g_n A GA); lia |].
  pose proof (g_n A GA). pose proof (g_n B GB).
  split; auto. split; auto. split; [discriminate|]. split; auto. split; [cbn [length]; lia|].
  assert (Hl : lo A B i0 j0 <= hi_of A B m' i' j').
  { unfold lo. destruct Ca as [(-> & -> & -> & D)|(-> & -> & Nm & D)].
    - cbn [hi_of]. rewrite Rmax_left; lra.
    - destruct m'; [now elim Nm | |]; cbn [hi_of]; rewrite Rmax_right; lra. }
  split; [lia|]. split; [lia|]. split; [lia|]. split; [lia|]. split; [left; lia|]. split; auto. split; auto.
  exists [], []. split; [|intros k K; cbn in K; lia]. split; auto. split; auto. split; [intros w [<-|[]]; auto|].
  intros k K. cbn in K. lia.
Qed.
End NoContact.
