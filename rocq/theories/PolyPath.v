(** The points the loop collects turn once around the common part. *)
From Coq Require Import Reals Lra Psatz List Arith Lia Bool.
From Verif Require Import Base GeomModel GeomBase PolyModel PolySpec PolySegProofs PolyChain PolyPair PolyPass.
Import ListNotations.
Open Scope R_scope.

Notation o := ((0, 0) : pt).
Lemma last_nth (V : list pt) : last V o = nth (length V - 1) V o.
Proof.
  induction V as [|a V IH]; auto. destruct V as [|b V]; auto.
  change (last (a :: b :: V) o) with (last (b :: V) o). rewrite IH. cbn [length].
  replace (S (S (length V)) - 1)%nat with (S (S (length V) - 1)) by lia. reflexivity.
Qed.
Lemma flat_sym A B : flat B A -> flat A B.
Proof. intros (a & h & F). exists a, h. intros z [Za Zb]. apply F. split; auto. Qed.

Section Path.
Variables (A B : chain).
(** The directions and lengths of the moves between the points of V. *)
Definition path (V : list pt) (G L : list R) : Prop :=
  length V = S (length G) /\ length L = length G /\ (forall w, In w V -> extreme A B w) /\
  forall i, (i < length G)%nat ->
    0 < nth i L 0 /\ nth (S i) V o = move (nth i V o) (nth i L 0) (nth i G 0) /\ supp A B (nth i G 0) (nth i V o) /\
    ((S i < length G)%nat -> nth i G 0 <= nth (S i) G 0).
Definition bounded (lo hi : R) (G : list R) : Prop := forall i, (i < length G)%nat -> lo <= nth i G 0 <= hi.
Definition closes (V : list pt) (G : list R) (lo : R) : Prop :=
  exists g s, 0 < s /\ at_ V 0 = move (last V o) s g /\ bounded lo g G /\ lo <= g <= lo + 2 * PI /\ supp A B g (last V o).
Lemma append_cases x V : V <> [] ->
  append_convex_point x V = V /\ x = last V o \/
  append_convex_point x V = V /\ x = at_ V 0 /\ x <> last V o \/
  append_convex_point x V = V ++ [x] /\ x <> at_ V 0 /\ x <> last V o.
Proof.
  destruct V as [|f V]; [now intros H|]. intros _. cbn [append_convex_point]. change (at_ (f :: V) 0) with f.
  destruct (peqb x (last (f :: V) (0, 0))) eqn:E2.
  - apply peqb_iff in E2. left. split; auto. cbn [negb]. now rewrite andb_false_r.
  - apply peqb_false in E2. destruct (peqb x f) eqn:E1; cbn [negb andb].
    + apply peqb_iff in E1. auto.
    + apply peqb_false in E1. auto.
Qed.
Lemma path_snoc V G L lo hi s x : path V G L -> bounded lo hi G -> lo <= hi -> 0 < s -> x = move (last V o) s hi ->
  supp A B hi (last V o) -> extreme A B x ->
  path (V ++ [x]) (G ++ [hi]) (L ++ [s]) /\ bounded lo hi (G ++ [hi]).
Proof.
  intros (E1 & E2 & Ex & H) Bd Lh S0 Ex' Su Xx.
  assert (Nth : forall i, (i <= length G)%nat -> nth i (V ++ [x]) o = nth i V o) by (intros; apply app_nth1; lia).
  split.
  - split; [rewrite !app_length; cbn [length]; lia|]. split; [rewrite !app_length; cbn [length]; lia|]. split.
    { intros w W. apply in_app_iff in W as [W|[<-|[]]]; auto. }
    intros i I. rewrite app_length in I. cbn [length] in I.
    destruct (Nat.eq_dec i (length G)) as [->|Ni].
    + rewrite (app_nth2 L), (app_nth2 G), (app_nth2 V), Nth by lia.
      replace (length G - length L)%nat with 0%nat by lia. replace (S (length G) - length V)%nat with 0%nat by lia.
      rewrite Nat.sub_diag. cbn [nth]. rewrite last_nth in Ex', Su. replace (length V - 1)%nat with (length G) in * by lia.
      split; auto. split; auto. split; auto. rewrite app_length. cbn [length]. lia.
    + assert (I' : (i < length G)%nat) by lia. destruct (H i I') as (H1 & H2 & H3 & H4).
      rewrite (app_nth1 L), (app_nth1 G), !Nth by lia. split; auto. split; auto. split; auto. intros _.
      destruct (Nat.eq_dec (S i) (length G)) as [e|Nj].
      * rewrite (app_nth2 G) by lia. rewrite e, Nat.sub_diag. cbn [nth]. apply (Bd i I').
      * rewrite (app_nth1 G) by lia. apply H4. lia.
  - intros i I. rewrite app_length in I. cbn [length] in I. destruct (Nat.eq_dec i (length G)) as [->|Ni].
    + rewrite app_nth2, Nat.sub_diag by lia. cbn [nth]. lra.
    + rewrite app_nth1 by lia. apply Bd. lia.
Qed.
Lemma bounded_weaken lo hi hi' G : bounded lo hi G -> hi <= hi' -> bounded lo hi' G.
Proof. intros H E i I. pose proof (H i I). lra. Qed.
(** One point more. *)
Lemma push V G L lo hi s x : V <> [] -> path V G L -> bounded lo hi G -> lo <= hi -> 0 <= s -> x = move (last V o) s hi ->
  supp A B hi (last V o) -> extreme A B x ->
  append_convex_point x V = V /\ x = last V o \/
  append_convex_point x V = V /\ x = at_ V 0 /\ x <> last V o /\ 0 < s \/
  append_convex_point x V = V ++ [x] /\ x <> at_ V 0 /\ x <> last V o /\ path (V ++ [x]) (G ++ [hi]) (L ++ [s]) /\ bounded lo hi (G ++ [hi]).
Proof.
  intros NV Pa Bd Lh S0 Ex Su Xx.
  assert (Sp : x <> last V o -> 0 < s).
  { intros N. destruct (Rle_lt_dec s 0) as [Z|]; auto. elim N. rewrite Ex. replace s with 0 by lra. apply move_0. }
  destruct (append_cases x V NV) as [C|[(C1 & C2 & C3)|(C1 & C2 & C3)]]; [tauto | tauto |].
  right. right. split; auto. split; auto. split; auto. apply path_snoc; auto.
Qed.
(** There and back. *)
Lemma back_flat x0 x1 s s' g g' : 0 < s -> 0 < s' -> x1 = move x0 s g -> x0 = move x1 s' g' -> supp A B g x0 -> supp A B g' x1 -> flat A B.
Proof.
  intros S0 S1 E1 E2 Su1 Su2.
  assert (D : s' * cos g' = - (s * cos g) /\ s' * sin g' = - (s * sin g)).
  { rewrite E1 in E2. unfold move in E2. destruct x0 as [a b]. cbn [fst snd] in E2. apply pair_equal_spec in E2. lra. }
  destruct D as [D1 D2].
  assert (H : forall z, s' * hgt g' z = - (s * hgt g z)).
  { intros z. unfold hgt. replace (s' * (cos g' * snd z - sin g' * fst z)) with (s' * cos g' * snd z - s' * sin g' * fst z) by ring.
    rewrite D1, D2. ring. }
  exists g, (hgt g x0). intros z Z. pose proof (Su1 z Z). pose proof (Su2 z Z) as X.
  apply (Rmult_le_compat_l s') in X; [|lra]. rewrite !H in X.
  assert (E : hgt g x1 = hgt g x0) by (rewrite E1, hgt_move; replace (g - g) with 0 by ring; rewrite sin_0; ring).
  rewrite E in X.
  assert (hgt g z <= hgt g x0) by (apply (Rmult_le_reg_l s); lra). lra.
Qed.
End Path.

Section Closing.
Variables (A B : chain) (GA : good A) (GB : good B) (P Q : list pt) (RA : reps A P) (RB : reps B Q).
Notation p := (cv A).
Notation q := (cv B).
Notation al := (ca A).
Notation be := (ca B).
Variable NF : ~ flat A B.
Variables (i0 j0 : nat) (x0 : pt) (O1 : on A i0 x0) (O2 : on B j0 x0) (Sy0 : sync A B i0 j0).
Definition lo : R := Rmax (al i0) (be j0).
Definition hi_of (m : mode) (i j : nat) : R := match m with InP => al i | _ => be j end.

(** The first point is a corner of one of the polygons. *)
Definition contact : Prop := exists k, x0 = p k \/ x0 = q k.
Definition Full (r i j : nat) (m : mode) (c : pt) (V : list pt) : Prop :=
  running A B i j /\ at_mode A B i j m c /\ V <> [] /\ at_ V 0 = x0 /\ ((2 <= length V)%nat -> last V o <> x0) /\
  (i + j + r = i0 + j0 + cn A + cn B + 1)%nat /\ (i0 <= i)%nat /\ (j0 <= j)%nat /\
  (i <= i0 + cn A)%nat /\ ((j <= j0 + cn B)%nat \/ r = 1%nat /\ m = InP /\ contact) /\
  c = last V o /\ lo <= hi_of m i j /\
  exists G L, path A B V G L /\ bounded lo (hi_of m i j) G.
Definition Weak (V : list pt) : Prop :=
  (length V <= 2)%nat \/ exists G L, path A B V G L /\ closes A B V G lo.
Definition Done (V : list pt) : Prop := exists G L, path A B V G L /\ closes A B V G lo.

Lemma O1' : on A (i0 + cn A) x0. Proof. now apply on_n. Qed.
Lemma O2' : on B (j0 + cn B) x0. Proof. now apply on_n. Qed.
Lemma al' : al (i0 + cn A) = al i0 + 2 * PI. Proof. now apply g_a. Qed.
Lemma be' : be (j0 + cn B) = be j0 + 2 * PI. Proof. now apply g_a. Qed.
Lemma meet0 : meet A B x0.
Proof. split; [apply (on_in A GA i0) | apply (on_in B GB j0)]; auto. Qed.
Lemma lo_a : al i0 <= lo. Proof. apply Rmax_l. Qed.
Lemma lo_b : be j0 <= lo. Proof. apply Rmax_r. Qed.

(** The first point is not passed. *)
Lemma stop_p i j : i = (i0 + cn A)%nat -> running A B i j -> adv_p A B i j -> (j < j0 + cn B)%nat ->
  al i < be j /\ (j0 + cn B)%nat = S j /\ x0 = q (S j).
Proof.
  intros -> (Hi & Hj & Sy) Ad J. unfold sync in *. destruct Ad as [[D N]|[D N]].
  - exfalso. apply N. unfold left. pose proof (edge_up A GA _ (be j) x0 O1' ltac:(lra)).
    destruct meet0 as [_ Z]. pose proof (Z j) as L. unfold left in L. lra.
  - split; auto. apply (not_passed A B GB (i0 + cn A) j (j0 + cn B) x0); auto using O1', O2'; [lra|].
    rewrite al', be'. unfold sync in Sy0. lra.
Qed.
Lemma stop_q i j : j = (j0 + cn B)%nat -> running A B i j -> adv_q A B i j -> (i < i0 + cn A)%nat ->
  be j <= al i /\ (i0 + cn A)%nat = S i /\ x0 = p (S i).
Proof.
  intros -> (Hi & Hj & Sy) Ad I. unfold sync in *. destruct Ad as [[D N]|[D N]].
  - split; auto. apply (not_passed B A GA (j0 + cn B) i (i0 + cn A) x0); auto using O1', O2'.
    rewrite al', be'. unfold sync in Sy0. destruct (Rlt_le_dec (al i0) (be j0 + PI)) as [|X]; [lra|]. elim NF.
    apply (opposite_flat A B (be j0) x0); [apply supp_y; auto|].
    replace (be j0 + PI) with (al i0) by lra. apply supp_x; auto.
  - exfalso. apply N. unfold left. pose proof (edge_up B GB _ (al i) x0 O2' ltac:(lra)).
    destruct meet0 as [Z _]. pose proof (Z i) as L. unfold left in L. lra.
Qed.
(** The next point lies ahead. *)
Lemma ahead_p i j c x : running A B i j -> at_mode A B i j InP c -> on A i x -> on B j x ->
  exists s, 0 <= s /\ x = move c s (al i).
Proof.
  intros (Hi & Hj & Sy) (O & I & _ & W) Xa Xb. unfold sync in Sy.
  destruct (same_height (al i) x c) as (s & E); [now rewrite (on_height A i x Xa), (on_height A i c O)|].
  exists s. split; auto. destruct (Rle_lt_dec 0 s) as [|Neg]; auto. exfalso.
  destruct W as [->|(j' & J' & W1 & W2)].
  - destruct Xa as (t & T & E'). rewrite E' in E. apply move_inj in E. lra.
  - pose proof (I j) as L. unfold left in L. rewrite <- (on_height B j x Xb), E, hgt_move in L.
    pose proof (a_lt B GB j' j J') as Lt.
    assert (D : be j <= al i).
    { destruct (Rle_lt_dec (be j) (al i)) as [|X]; auto. exfalso.
      assert (sin (al i - be j) < 0) by (apply sin_lt_0_var; lra).
      assert (0 < (- s) * (- sin (al i - be j))) by (apply Rmult_lt_0_compat; lra). lra. }
    pose proof (supp_y A B j' c W1 x (conj (on_in A GA i x Xa) (on_in B GB j x Xb))) as U. rewrite E, hgt_move in U.
    destruct (Req_dec (al i) (be j' + PI)) as [Eq|Ne].
    + apply NF. apply (opposite_flat A B (be j') c); [now apply supp_y|]. rewrite <- Eq. now apply supp_x.
    + assert (0 < sin (al i - be j')) by (apply sin_gt_0; lra).
      assert (0 < (- s) * sin (al i - be j')) by (apply Rmult_lt_0_compat; lra). lra.
Qed.
Lemma ahead_q i j c x : running A B i j -> at_mode A B i j InQ c -> on A i x -> on B j x ->
  exists s, 0 <= s /\ x = move c s (be j).
Proof.
  intros (Hi & Hj & Sy) (O & I & _ & W) Xa Xb. unfold sync in Sy.
  destruct (same_height (be j) x c) as (s & E); [now rewrite (on_height B j x Xb), (on_height B j c O)|].
  exists s. split; auto. destruct (Rle_lt_dec 0 s) as [|Neg]; auto. exfalso.
  destruct W as [->|(i' & I' & W1 & W2)].
  - destruct Xb as (t & T & E'). rewrite E' in E. apply move_inj in E. lra.
  - pose proof (supp_x A B i' c W1 x (conj (on_in A GA i x Xa) (on_in B GB j x Xb))) as U. rewrite E, hgt_move in U.
    assert (0 < sin (be j - al i')) by (apply sin_gt_0; lra).
    assert (0 < (- s) * sin (be j - al i')) by (apply Rmult_lt_0_compat; lra). lra.
Qed.
Lemma same_at i j c x : at_mode A B i j AtP c -> inter A B i j = Some x -> x = c.
Proof.
  intros [-> O] X. destruct (inter_some A B GA GB i j x X) as (Xa & Xb & D).
  destruct (Req_dec (sin (al i - be j)) 0) as [Z|Z].
  - now apply (D Z).
  - apply (inter_unique A B i j); auto. apply on_start; auto.
Qed.
Lemma ahead i j m c x : running A B i j -> at_mode A B i j m c -> inter A B i j = Some x ->
  exists s, 0 <= s /\ x = move c s (hi_of m i j).
Proof.
  intros R M X. destruct (inter_some A B GA GB i j x X) as (Xa & Xb & _).
  destruct m; [now apply (ahead_p i j) | | now apply (ahead_q i j)].
  rewrite (same_at i j c x M X). exists 0. split; [lra | now rewrite move_0].
Qed.
Lemma supp_mode i j m c : at_mode A B i j m c -> supp A B (hi_of m i j) c.
Proof.
  destruct m; cbn [at_mode hi_of].
  - intros [O _]. now apply supp_x.
  - intros [_ O]. now apply supp_y.
  - intros [O _]. now apply supp_y.
Qed.
Lemma hi_max r i j m c V : Full r i j m c V -> hi_of m i j <= lo + 2 * PI.
Proof.
  intros (_ & _ & _ & _ & _ & _ & _ & _ & Bi & Bj & _). pose proof lo_a. pose proof lo_b.
  destruct m; cbn [hi_of].
  - pose proof (a_le A GA _ _ Bi). rewrite al' in *. lra.
  - destruct Bj as [Bj|[_ [X _]]]; [|discriminate]. pose proof (a_le B GB _ _ Bj). rewrite be' in *. lra.
  - destruct Bj as [Bj|[_ [X _]]]; [|discriminate]. pose proof (a_le B GB _ _ Bj). rewrite be' in *. lra.
Qed.
(** The pass that finds the first point again. *)
Lemma full_done r i j m c V x : Full r i j m c V -> inter A B i j = Some x -> (2 < length V)%nat -> x = at_ V 0 -> Done V.
Proof.
  intros F X Len E. pose proof (hi_max _ _ _ _ _ _ F) as Hm.
  destruct F as (R & M & NV & H0 & Hd & _ & _ & _ & _ & _ & Ec & Lo & Gs & Ls & Pa & Bd).
  exists Gs, Ls. split; auto. destruct (ahead i j m c x R M X) as (s & S0 & Es).
  exists (hi_of m i j), s. rewrite <- E, <- Ec. split.
  - destruct (Rle_lt_dec s 0) as [Z|]; auto. exfalso. apply (Hd ltac:(lia)).
    rewrite <- Ec, <- H0, <- E, Es. replace s with 0 by lra. now rewrite move_0.
  - split; auto. split; auto. split; [lra|]. now apply (supp_mode i j m).
Qed.
(** Coming back to the first point at a corner takes all passes but one. *)
Lemma first_move V G L : path A B V G L -> at_ V 0 = x0 -> (2 <= length V)%nat ->
  exists s, 0 < s /\ meet A B (move x0 s (nth 0 G 0)) /\ (0 < length G)%nat.
Proof.
  intros (E1 & E2 & Ex & H) H0 Len. destruct (H 0%nat ltac:(lia)) as (S0 & E & _). exists (nth 0 L 0). split; auto.
  split; [|lia]. rewrite <- H0. unfold at_. rewrite <- E. apply (Ex (nth 1 V o)). apply nth_In. lia.
Qed.
Lemma beyond (C : chain) i z s : good C -> z = cv C (S i) -> 0 < s -> inC C (move z s (ca C i)) -> False.
Proof.
  clear. intros G -> S0 I. destruct (height_on C G i (move (cv C (S i)) s (ca C i)) I) as (t & T & E).
  - rewrite hgt_move, (end_height C G). replace (ca C i - ca C i) with 0 by ring. rewrite sin_0. ring.
  - rewrite (g_move C G), move_move in E. apply move_inj in E. lra.
Qed.
Lemma skip_p r i j c V : Full (S r) i j InP c V -> apart A B i j -> al i < be j -> left A i (q (S j)) ->
  (S i <= i0 + cn A)%nat -> p (S i) = x0 -> last V o <> x0 -> r = 1%nat \/ r = 0%nat.
Proof.
  intros (R & M & NV & H0 & Hd & Cn & I1 & J1 & Bi & Bj & Ec & Lo & Gs & Ls & Pa & Bd) Ap D L Bs Ex N.
  pose proof (g_n A GA) as N3. cbn [hi_of] in *.
  assert (Len : (2 <= length V)%nat).
  { destruct V as [|a [|b V]]; [easy | | cbn [length]; lia]. elim N. exact H0. }
  destruct (Nat.eq_dec i i0) as [->|Ni].
  { exfalso. destruct (first_move V Gs Ls Pa H0 Len) as (s & S0 & [Mx _] & LG).
    pose proof (Bd 0%nat LG). pose proof lo_a. replace (nth 0 Gs 0) with (al i0) in Mx by lra.
    apply (beyond A i0 x0 s GA); auto. }
  destruct (Nat.eq_dec (S i) (i0 + cn A)) as [Ei|Ni2].
  2:{ exfalso. pose proof (vertex_strict A GA i0 (S i) ltac:(lia)) as U. rewrite Ex in U. rewrite (on_height A i0 x0 O1) in U. lra. }
  destruct (le_lt_dec r 1) as [|R2]; [lia|]. exfalso. apply NF.
  apply (corner_reached A B GA GB i j (j0 + cn B)); auto; [lra | lia | rewrite Ex; apply O2' |].
  rewrite Ei, al', be'. unfold sync in Sy0. lra.
Qed.
Lemma skip_q r i j c V : Full (S r) i j InQ c V -> apart A B i j -> be j <= al i -> left B j (p (S i)) ->
  (S j <= j0 + cn B)%nat -> q (S j) = x0 -> last V o <> x0 -> r = 1%nat \/ r = 0%nat.
Proof.
  intros (R & M & NV & H0 & Hd & Cn & I1 & J1 & Bi & Bj & Ec & Lo & Gs & Ls & Pa & Bd) Ap D L Bs Ex N.
  pose proof (g_n B GB) as N3. cbn [hi_of] in *.
  assert (Len : (2 <= length V)%nat).
  { destruct V as [|a [|b V]]; [easy | | cbn [length]; lia]. elim N. exact H0. }
  destruct (Nat.eq_dec j j0) as [->|Nj].
  { exfalso. destruct (first_move V Gs Ls Pa H0 Len) as (s & S0 & [_ Mx] & LG).
    pose proof (Bd 0%nat LG). pose proof lo_b. replace (nth 0 Gs 0) with (be j0) in Mx by lra.
    apply (beyond B j0 x0 s GB); auto. }
  destruct (Nat.eq_dec (S j) (j0 + cn B)) as [Ej|Nj2].
  2:{ exfalso. pose proof (vertex_strict B GB j0 (S j) ltac:(lia)) as U. rewrite Ex in U. rewrite (on_height B j0 x0 O2) in U. lra. }
  destruct (le_lt_dec r 1) as [|R2]; [lia|]. exfalso. apply NF, flat_sym.
  apply (corner_reached B A GB GA j i (i0 + cn A)); auto; [lia | | rewrite Ex; apply O1' |].
  - intros z Z1 Z2. apply (Ap z Z2 Z1).
  - rewrite Ej, al', be'. unfold sync in Sy0. lra.
Qed.
(** A new last point. *)
Lemma after_push V G L hi s x : V <> [] -> at_ V 0 = x0 -> ((2 <= length V)%nat -> last V o <> x0) ->
  path A B V G L -> bounded lo hi G -> lo <= hi -> 0 <= s -> x = move (last V o) s hi -> supp A B hi (last V o) -> extreme A B x ->
  (let V' := append_convex_point x V in
   V' <> [] /\ at_ V' 0 = x0 /\ ((2 <= length V')%nat -> last V' o <> x0) /\ x = last V' o /\
   exists G' L', path A B V' G' L' /\ bounded lo hi G') \/
  append_convex_point x V = V /\ x = x0 /\ last V o <> x0 /\ 0 < s.
Proof.
  intros NV H0 Hd Pa Bd Lh S0 Ex Su Xx.
  destruct (push A B V G L lo hi s x) as [(C1 & C2)|[(C1 & C2 & C3 & C4)|(C1 & C2 & C3 & C4 & C5)]]; auto.
  - left. cbv zeta. rewrite C1. split; auto. split; auto. split; auto. split; auto. exists G, L. auto.
  - right. rewrite C1, <- H0, <- C2. auto.
  - left. cbv zeta. rewrite C1. split; [now destruct V|]. split; [now destruct V|].
    split; [intros _; rewrite last_last, <- H0; auto|]. split; [now rewrite last_last|].
    exists (G ++ [hi]), (L ++ [s]). auto.
Qed.
Lemma meet_ext_last V G L : V <> [] -> path A B V G L -> extreme A B (last V o).
Proof. intros NV (_ & _ & Ex & _). apply Ex. destruct V as [|a V]; [easy|]. rewrite last_nth. apply nth_In. cbn [length]. lia. Qed.

Lemma full_pass r i j m c V i' j' m' c' V' : (1 <= r)%nat -> Full (S r) i j m c V -> pass A B i j V m c i' j' m' c' V' ->
  running A B i' j' -> at_mode A B i' j' m' c' ->
  Full r i' j' m' c' V' \/ r = 1%nat /\ Weak V' /\ contact.
Proof.
  intros Hr F Ps R' M'. pose proof (hi_max _ _ _ _ _ _ F) as Hm. pose proof F as F0.
  destruct F as (R & M & NV & H0 & Hd & Cn & I1 & J1 & Bi & Bj & Ec & Lo & Gs & Ls & Pa & Bd).
  assert (Bj' : (j <= j0 + cn B)%nat) by (destruct Bj as [|[? _]]; lia). clear Bj.
  pose proof (g_step A GA i) as Sa. pose proof (g_step B GB j) as Sb.
  destruct Ps as [c Ap D L I|c Ap Ad|c Ap Ad|c Ap D L I|m c x i' j' m' X Ncl Ca]; cbn [hi_of] in *.
  - (* along P *)
    assert (Bs : (S i <= i0 + cn A)%nat).
    { destruct (Nat.eq_dec i (i0 + cn A)) as [e|]; [|lia]. exfalso.
      destruct (stop_p i j e R) as (_ & _ & E); [right; auto | lia |].
      apply (Ap x0); [rewrite e; apply O1' | rewrite E; apply on_end; auto]. }
    destruct M as (O & _). destruct O as (s & Sr & Es).
    destruct (after_push V Gs Ls (al i) (cl A i - s) (p (S i))) as [K|(K1 & K2 & K3 & K4)]; auto; try lra.
    + rewrite <- Ec, Es, move_move, (g_move A GA i). f_equal. ring.
    + rewrite <- Ec. apply supp_x. exists s. auto.
    + apply corner_extreme_a; auto.
    + left. destruct K as (K1 & K2 & K3 & K4 & G' & L' & K5 & K6).
      split; auto. split; auto. split; auto. split; auto. split; auto. split; [lia|]. split; [lia|]. split; auto.
      split; auto. split; [left; lia|]. split; auto. split; [cbn [hi_of]; lra|]. exists G', L'. split; auto.
      cbn [hi_of]. eapply bounded_weaken; eauto. lra.
    + right. destruct (skip_p r i j c V F0 Ap D L Bs K2 K3) as [->|]; [|lia]. split; auto. split; [|exists (S i); auto]. right.
      rewrite K1. exists Gs, Ls. split; auto. exists (al i), (cl A i - s). split; auto.
      split; [rewrite H0, <- K2, <- Ec, Es, move_move, (g_move A GA i); f_equal; ring|]. split; auto. split; [lra|].
      rewrite <- Ec. apply supp_x. exists s. auto.
  - left. assert (Bs : (S i <= i0 + cn A)%nat).
    { destruct (Nat.eq_dec i (i0 + cn A)) as [e|]; [|lia]. exfalso.
      destruct (stop_p i j e R Ad) as (_ & _ & E); [lia|].
      apply (Ap x0); [rewrite e; apply O1' | rewrite E; apply on_end; auto]. }
    split; auto. split; auto. split; auto. split; auto. split; auto. split; [lia|]. split; [lia|]. split; auto.
    split; auto. split; [left; lia|]. split; auto. split; auto. exists Gs, Ls. auto.
  - left. assert (Bs : (S j <= j0 + cn B)%nat).
    { destruct (Nat.eq_dec j (j0 + cn B)) as [e|]; [|lia]. exfalso.
      destruct (stop_q i j e R Ad) as (_ & _ & E); [lia|].
      apply (Ap x0); [rewrite E; apply on_end; auto | rewrite e; apply O2']. }
    split; auto. split; auto. split; auto. split; auto. split; auto. split; [lia|]. split; [lia|]. split; [lia|].
    split; auto. split; [left; lia|]. split; auto. split; auto. exists Gs, Ls. auto.
  - assert (Bs : (S j <= j0 + cn B)%nat).
    { destruct (Nat.eq_dec j (j0 + cn B)) as [e|]; [|lia]. exfalso.
      destruct (stop_q i j e R) as (_ & _ & E); [left; auto | lia |].
      apply (Ap x0); [rewrite E; apply on_end; auto | rewrite e; apply O2']. }
    destruct M as (O & _). destruct O as (s & Sr & Es).
    destruct (after_push V Gs Ls (be j) (cl B j - s) (q (S j))) as [K|(K1 & K2 & K3 & K4)]; auto; try lra.
    + rewrite <- Ec, Es, move_move, (g_move B GB j). f_equal. ring.
    + rewrite <- Ec. apply supp_y. exists s. auto.
    + apply corner_extreme_b; auto.
    + left. destruct K as (K1 & K2 & K3 & K4 & G' & L' & K5 & K6).
      split; auto. split; auto. split; auto. split; auto. split; auto. split; [lia|]. split; [lia|]. split; [lia|].
      split; auto. split; [left; lia|]. split; auto. split; [cbn [hi_of]; lra|]. exists G', L'. split; auto.
      cbn [hi_of]. eapply bounded_weaken; eauto. lra.
    + right. destruct (skip_q r i j c V F0 Ap D L Bs K2 K3) as [->|]; [|lia]. split; auto. split; [|exists (S j); auto]. right.
      rewrite K1. exists Gs, Ls. split; auto. exists (be j), (cl B j - s). split; auto.
      split; [rewrite H0, <- K2, <- Ec, Es, move_move, (g_move B GB j); f_equal; ring|]. split; auto. split; [lra|].
      rewrite <- Ec. apply supp_y. exists s. auto.
  - (* a common point of the edges *)
    destruct (inter_some A B GA GB i j x X) as (Xa & Xb & _).
    destruct (ahead i j m c x R M X) as (s & S0 & Es).
    pose proof (inter_extreme A B GA GB i j x R X) as Xe.
    destruct (after_push V Gs Ls (hi_of m i j) s x) as [K|(K1 & K2 & K3 & K4)]; auto.
    { now rewrite <- Ec. } { rewrite <- Ec. now apply (supp_mode i j m). }
    2:{ exfalso. assert (Len : length V = 2%nat).
        { destruct (le_lt_dec (length V) 2) as [Le|Gt]; [|elim Ncl; split; [lia | congruence]].
          destruct V as [|a [|b V]]; [easy | elim K3; exact H0 | cbn [length] in *; lia]. }
        destruct Pa as (E1 & E2 & Ex & H). destruct (H 0%nat ltac:(lia)) as (T1 & T2 & T3 & _).
        assert (LV : nth 1 V o = last V o) by (rewrite last_nth; f_equal; lia).
        apply NF. apply (back_flat A B x0 (last V o) (nth 0 Ls 0) s (nth 0 Gs 0) (hi_of m i j)); auto.
        - rewrite <- LV, T2. now f_equal.
        - rewrite <- K2, Es, <- Ec. reflexivity.
        - rewrite <- H0. exact T3.
        - rewrite <- Ec. now apply (supp_mode i j m). }
    destruct K as (K1 & K2 & K3 & K4 & G' & L' & K5 & K6).
    destruct Ca as [(-> & -> & -> & D & L)|Ca].
    + left. assert (Hh : hi_of m i j <= al i) by (destruct m; cbn [hi_of]; lra).
      split; auto. split; auto. split; auto. split; auto. split; auto. split; [lia|]. split; [lia|]. split; [lia|].
      split; auto. split.
      { destruct (Nat.eq_dec j (j0 + cn B)) as [e|]; [|left; lia]. right.
        destruct (stop_q i j e R) as (_ & E & Eq); [left; auto | lia |]. split; [lia|]. split; auto. exists (S i); auto. }
      split; auto. split; [cbn [hi_of]; lra|]. exists G', L'. split; auto. cbn [hi_of]. eapply bounded_weaken; eauto.
    + assert (Ca' : i' = S i /\ j' = j /\ m' <> InP /\ al i < be j /\ left A i (q (S j))).
      { destruct Ca as [(-> & -> & -> & D & L & _)|(-> & -> & -> & D & L)]; repeat split; auto; discriminate. }
      clear Ca. destruct Ca' as (-> & -> & Nm & D & L).
      assert (Hh : hi_of m i j <= be j) by (destruct m; cbn [hi_of]; lra).
      assert (Hm' : hi_of m' (S i) j = be j) by (destruct m'; auto; now elim Nm).
      destruct (Nat.eq_dec i (i0 + cn A)) as [e|Ne].
      * right. destruct (stop_p i j e R) as (_ & E & Eq); [right; auto | lia |]. split; [lia|]. split; [|exists (S j); auto]. left.
        assert (Ex : x = x0).
        { apply (inter_unique A B i j); auto; [rewrite e; apply O1' | rewrite Eq; apply on_end; auto |].
          destruct R as (_ & _ & Sy). unfold sync in Sy. assert (sin (al i - be j) < 0) by (apply sin_lt_0_var; lra). lra. }
        assert (Le : (length V <= 2)%nat) by (destruct (le_lt_dec (length V) 2); auto; elim Ncl; split; [lia | congruence]).
        destruct (append_cases x V NV) as [(C & _)|[(C & _)|(_ & C & _)]]; [now rewrite C | now rewrite C | congruence].
      * left. split; auto. split; auto. split; auto. split; auto. split; auto. split; [lia|]. split; [lia|]. split; auto.
        split; [lia|]. split; [left; lia|]. split; auto. rewrite Hm'. split; [lra|]. exists G', L'. split; auto.
        eapply bounded_weaken; eauto.
Qed.
Lemma step_inl s l : step P Q s = inl l -> l = convex_points s /\ (2 < length l)%nat.
Proof.
  unfold step. destruct (exact_intersection _ _ _ _ _) as [x|]; [|discriminate].
  destruct (Nat.ltb 2 (length (convex_points s)) && _) eqn:T; [|discriminate]. intros E. inversion E; subst.
  apply andb_true_iff in T as [T _]. apply Nat.ltb_lt in T. auto.
Qed.
Theorem closing_path r : forall i j m c V l, Full r i j m c V ->
  closing r P Q (st P Q i j (flag_p m) (negb (flag_p m)) V) = Closed l -> (2 < length l)%nat /\ Done l.
Proof.
  induction r as [|r IH]; intros i j m c V l F E; [discriminate|]. cbn [closing] in E.
  pose proof F as (R & M & _).
  destruct (pass_ok A B GA GB P Q RA RB i j m c V R M) as [(x & X & Len & Ex & St)|(i' & j' & m' & c' & V' & Ps & R' & M' & St)];
    rewrite St in E.
  - inversion E; subst l. split; auto. eapply full_done; eauto.
  - destruct r as [|r]; [discriminate|].
    destruct (full_pass (S r) i j m c V i' j' m' c' V' ltac:(lia) F Ps R' M') as [F'|[Hr [W _]]].
    + eapply IH; eauto.
    + assert (r = 0%nat) by lia. subst r. cbn [closing] in E.
      destruct (step P Q _) as [l'|s'] eqn:St'; [|discriminate]. inversion E; subst l'.
      apply step_inl in St' as [El Len]. cbn [st convex_points] in El. subst l. split; auto.
      destruct W as [W|W]; [lia | exact W].
Qed.
End Closing.
