(** Convex polygons, given by a periodic sequence of vertices. *)
From Coq Require Import Reals Lra Psatz List Lia.
From Verif Require Import Base GeomModel GeomSpec GeomBase.
Import ListNotations.
Open Scope R_scope.

Lemma parallel (a b : point) : a <> (0, 0) -> cross a b = 0 -> exists t, b = (t * fst a, t * snd a).
Proof.
  intros Ha H. destruct a as [x y], b as [p q]. unfold cross in H. cbn [fst snd] in *.
  destruct (Req_EM_T x 0) as [->|Hx].
  - destruct (Req_EM_T y 0) as [->|Hy]; [congruence|].
    exists (q / y). f_equal; [|field; assumption]. nra.
  - exists (p / x). f_equal; [field; assumption|]. apply Rmult_eq_reg_l with x; [|assumption].
    transitivity (y * p); [lra|]. field. assumption.
Qed.

Section Polygon.
Variable n : nat.
Variable v : nat -> point.
Hypothesis Hn : (0 < n)%nat.
Hypothesis Hper : forall i, v (i + n)%nat = v i.
Notation E i := (psub (v (S i)) (v i)).
Hypothesis Hne : forall i, v (S i) <> v i.
Hypothesis Hleft : forall i j, 0 <= cross (E i) (psub (v j) (v i)).
Hypothesis Hnd : forall i, exists j, 0 < cross (E i) (psub (v j) (v i)).

Definition inside_all (q : point) : Prop := forall i, 0 <= cross (E i) (psub q (v i)).
Definition line_point (x d : point) (t : R) : point := (fst x + t * fst d, snd x + t * snd d).

Lemma edge_nonzero i : E i <> (0, 0).
Proof.
  intros H. apply (Hne i). unfold psub in H. apply pair_equal_spec in H. destruct H as [H1 H2].
  destruct (v (S i)), (v i). cbn [fst snd] in *. f_equal; lra.
Qed.
Lemma period i k : v (i + k * n) = v i.
Proof.
  induction k as [|k IH]; [now rewrite Nat.add_0_r|].
  replace (i + S k * n)%nat with (i + k * n + n)%nat by lia. now rewrite Hper.
Qed.
Lemma later i j : exists k, (i < k)%nat /\ v k = v j.
Proof.
  exists (j + (S i) * n)%nat. split; [nia|]. apply period.
Qed.

(** A point of the region on the line of an edge is on the boundary: after the end of the edge. *)
Lemma forward k : forall i y t,
  (exists j, (i < j <= i + k)%nat /\ 0 < cross (E i) (psub (v j) (v i))) ->
  inside_all y -> 0 <= t -> psub y (v i) = (t * fst (E i), t * snd (E i)) ->
  exists j, on_segment (v j) (v (S j)) y.
Proof.
  induction k as [|k IH]; intros i y t [j [Hj Hpos]] Hy Ht Ey; [lia|].
  destruct (Rle_dec t 1) as [L|L].
  - exists i, t. split; [lra|]. unfold psub, between in *. apply pair_equal_spec in Ey. cbn [fst snd] in Ey.
    destruct Ey as [E1 E2]. destruct y. cbn [fst snd] in *. f_equal; lra.
  - assert (Ey' : psub y (v (S i)) = ((t - 1) * fst (E i), (t - 1) * snd (E i))).
    { unfold psub in *. apply pair_equal_spec in Ey. cbn [fst snd] in *. destruct Ey as [E1 E2].
      f_equal; lra. }
    assert (C0 := Hleft i (S (S i))).
    assert (C : cross (E i) (psub (v (S (S i))) (v i)) = cross (E i) (E (S i))).
    { unfold cross, psub. cbn [fst snd]. ring. }
    rewrite C in C0. clear C.
    assert (Y := Hy (S i)). rewrite Ey' in Y.
    assert (Y2 : cross (E (S i)) ((t - 1) * fst (E i), (t - 1) * snd (E i)) = - (t - 1) * cross (E i) (E (S i))).
    { unfold cross. cbn [fst snd]. ring. }
    rewrite Y2 in Y. clear Y2.
    assert (Z : cross (E i) (E (S i)) = 0) by nra.
    destruct (parallel _ _ (edge_nonzero i) Z) as [r Er].
    assert (Rne : r <> 0).
    { intros ->. apply (edge_nonzero (S i)). rewrite Er. f_equal; ring. }
    assert (X : cross (E (S i)) (psub (v j) (v (S i))) = r * cross (E i) (psub (v j) (v i))).
    { rewrite Er. unfold cross, psub. cbn [fst snd]. ring. }
    assert (Rpos : 0 < r).
    { assert (X2 := Hleft (S i) j). rewrite X in X2. destruct (Rlt_dec 0 r); [assumption|]. nra. }
    assert (j <> S i).
    { intros ->. unfold cross, psub in Hpos. cbn [fst snd] in Hpos. lra. }
    apply (IH (S i) y ((t - 1) / r)).
    + exists j. split; [lia|]. rewrite X. nra.
    + assumption.
    + apply Rmult_le_pos; [lra|]. apply Rlt_le, Rinv_0_lt_compat, Rpos.
    + rewrite Ey', Er. cbn [fst snd]. f_equal; field; assumption.
Qed.
(** And before its start. *)
Lemma backward k : forall i y t,
  (exists j, (i <= j + k)%nat /\ (j < i)%nat /\ 0 < cross (E i) (psub (v j) (v i))) ->
  inside_all y -> 0 <= t -> psub y (v (S i)) = (- t * fst (E i), - t * snd (E i)) ->
  exists j, on_segment (v j) (v (S j)) y.
Proof.
  induction k as [|k IH]; intros i y t [j [Hj [Hji Hpos]]] Hy Ht Ey; [lia|].
  destruct (Rle_dec t 1) as [L|L].
  - exists i, (1 - t). split; [lra|]. unfold psub, between in *. apply pair_equal_spec in Ey. cbn [fst snd] in Ey.
    destruct Ey as [E1 E2]. destruct y. cbn [fst snd] in *. f_equal; lra.
  - destruct i as [|i]; [lia|].
    assert (Ey' : psub y (v (S i)) = (- (t - 1) * fst (E (S i)), - (t - 1) * snd (E (S i)))).
    { unfold psub in *. apply pair_equal_spec in Ey. cbn [fst snd] in *. destruct Ey as [E1 E2].
      f_equal; lra. }
    assert (C0 := Hleft i (S (S i))).
    assert (C : cross (E i) (psub (v (S (S i))) (v i)) = cross (E i) (E (S i))).
    { unfold cross, psub. cbn [fst snd]. ring. }
    rewrite C in C0. clear C.
    assert (Y := Hy i).
    assert (Y2 : cross (E i) (psub y (v i)) = - (t - 1) * cross (E i) (E (S i))).
    { transitivity (cross (E i) (psub y (v (S i)))); [unfold cross, psub; cbn [fst snd]; ring|].
      rewrite Ey'. unfold cross. cbn [fst snd]. ring. }
    rewrite Y2 in Y. clear Y2.
    assert (Z : cross (E (S i)) (E i) = 0).
    { assert (Z0 : cross (E i) (E (S i)) = 0) by nra.
      transitivity (- cross (E i) (E (S i))); [unfold cross; ring|]. rewrite Z0. ring. }
    destruct (parallel _ _ (edge_nonzero (S i)) Z) as [r Er].
    assert (Rne : r <> 0).
    { intros ->. apply (edge_nonzero i). rewrite Er. f_equal; ring. }
    assert (X : cross (E i) (psub (v j) (v i)) = r * cross (E (S i)) (psub (v j) (v (S i)))).
    { transitivity (cross (E i) (psub (v j) (v (S i)))); [unfold cross, psub; cbn [fst snd]; ring|].
      rewrite Er. unfold cross, psub. cbn [fst snd]. ring. }
    assert (Rpos : 0 < r).
    { assert (X2 := Hleft i j). rewrite X in X2. destruct (Rlt_dec 0 r); [assumption|]. nra. }
    assert (j <> i).
    { intros ->. assert (X3 : cross (E i) (psub (v i) (v i)) = 0) by (unfold cross, psub; cbn [fst snd]; ring).
      rewrite X in X3. assert (X4 := Rmult_lt_0_compat _ _ Rpos Hpos). lra. }
    apply (IH i y ((t - 1) / r)).
    + exists j. split; [lia|]. split; [lia|]. rewrite X. nra.
    + assumption.
    + apply Rmult_le_pos; [lra|]. apply Rlt_le, Rinv_0_lt_compat, Rpos.
    + rewrite Ey', Er. cbn [fst snd]. f_equal; field; assumption.
Qed.
Lemma line_boundary i y : inside_all y -> cross (E i) (psub y (v i)) = 0 ->
  exists j, on_segment (v j) (v (S j)) y.
Proof.
  intros Hy H. destruct (parallel _ _ (edge_nonzero i) H) as [t Et].
  destruct (Hnd i) as [j Hj].
  destruct (Rle_dec 0 t) as [L|L].
  - destruct (later i j) as [k [Hk Ek]].
    apply (forward (k - i) i y t); auto. exists k. split; [lia|]. now rewrite Ek.
  - destruct (later (S j) i) as [k [Hk Ek]].
    assert (Ek1 : exists k', (S j < k')%nat /\ v k' = v i /\ v (S k') = v (S i)).
    { exists (i + (S (S j)) * n)%nat. split; [nia|]. split; [apply period|].
      replace (S (i + S (S j) * n))%nat with (S i + S (S j) * n)%nat by lia. apply period. }
    destruct Ek1 as [k' [H1 [H2 H3]]].
    apply (backward k' k' y (1 - t)); auto.
    + exists j. split; [lia|]. split; [lia|]. now rewrite H2, H3.
    + lra.
    + rewrite H3, H2. unfold psub in *. apply pair_equal_spec in Et. cbn [fst snd] in *. destruct Et. f_equal; lra.
Qed.

(** ** Leaving the region along a ray *)
Lemma inside_below q : (forall i, (i < n)%nat -> 0 <= cross (E i) (psub q (v i))) -> inside_all q.
Proof.
  intros H i. assert (D : i = (i mod n + i / n * n)%nat).
  { rewrite (Nat.div_mod i n) at 1 by lia. lia. }
  assert (P0 : v i = v (i mod n)) by (rewrite D at 1; apply period).
  assert (P1 : v (S i) = v (S (i mod n))).
  { rewrite D at 1. replace (S (i mod n + i / n * n))%nat with (S (i mod n) + i / n * n)%nat by lia. apply period. }
  rewrite P0, P1. apply H. apply Nat.mod_upper_bound. lia.
Qed.
Lemma ray_exit x d : inside_all x -> (exists i, cross (E i) d < 0) ->
  exists T, 0 <= T /\ inside_all (line_point x d T) /\
    (exists i, cross (E i) d < 0 /\ cross (E i) (psub (line_point x d T) (v i)) = 0).
Proof.
  intros Hx [i0 Hi0].
  set (neg := fun i => if Rlt_dec (cross (E i) d) 0 then true else false).
  set (f := fun i => cross (E i) (psub x (v i)) / - cross (E i) d).
  assert (Hs : forall i, In i (filter neg (seq 0 n)) -> (i < n)%nat /\ cross (E i) d < 0).
  { intros i Hi. apply filter_In in Hi. destruct Hi as [H1 H2]. apply in_seq in H1. unfold neg in H2.
    destruct (Rlt_dec (cross (E i) d) 0); [split; [lia|assumption]|discriminate]. }
  assert (Hne' : filter neg (seq 0 n) <> []).
  { intros C. assert (Z : In (i0 mod n)%nat (filter neg (seq 0 n))).
    { apply filter_In. split; [apply in_seq; assert (i0 mod n < n)%nat by (apply Nat.mod_upper_bound; lia); lia|].
      unfold neg. assert (D : i0 = (i0 mod n + i0 / n * n)%nat).
      { rewrite (Nat.div_mod i0 n) at 1 by lia. lia. }
      assert (P0 : v i0 = v (i0 mod n)) by (rewrite D at 1; apply period).
      assert (P1 : v (S i0) = v (S (i0 mod n))).
      { rewrite D at 1. replace (S (i0 mod n + i0 / n * n))%nat with (S (i0 mod n) + i0 / n * n)%nat by lia. apply period. }
      rewrite <- P0, <- P1. destruct (Rlt_dec (cross (E i0) d) 0); [reflexivity|contradiction]. }
    rewrite C in Z. destruct Z. }
  destruct (argmin_exists f _ Hne') as [m [Hm Hmin]]. destruct (Hs m Hm) as [Hmn Hmneg].
  assert (Hlin : forall i t, cross (E i) (psub (line_point x d t) (v i))
                 = cross (E i) (psub x (v i)) + t * cross (E i) d).
  { intros i t. unfold cross, psub, line_point. cbn [fst snd]. ring. }
  assert (Fm : cross (E m) (psub x (v m)) = f m * - cross (E m) d) by (unfold f; field; lra).
  assert (F0 : 0 <= f m).
  { assert (H0 := Hx m). unfold f. apply Rmult_le_pos; [assumption|]. apply Rlt_le, Rinv_0_lt_compat. lra. }
  exists (f m). split; [assumption|]. split.
  - apply inside_below. intros i Hi. rewrite Hlin. assert (H0 := Hx i).
    destruct (Rlt_dec (cross (E i) d) 0) as [L|L]; [|nra].
    assert (Hin : In i (filter neg (seq 0 n))).
    { apply filter_In. split; [apply in_seq; lia|]. unfold neg. destruct (Rlt_dec (cross (E i) d) 0); [reflexivity|contradiction]. }
    assert (H1 := Hmin i Hin). assert (Fi : cross (E i) (psub x (v i)) = f i * - cross (E i) d) by (unfold f; field; lra).
    rewrite Fi. nra.
  - exists m. split; [assumption|]. rewrite Hlin, Fm. ring.
Qed.

(** Between a point inside and a point outside there is a point of the boundary. *)
Lemma crossing x q : inside_all x -> ~ inside_all q ->
  exists y T, 0 <= T <= 1 /\ y = between x q T /\ exists j, on_segment (v j) (v (S j)) y.
Proof.
  intros Hx Hq.
  assert (Hlin : forall i t, cross (E i) (psub (line_point x (psub q x) t) (v i))
                 = (1 - t) * cross (E i) (psub x (v i)) + t * cross (E i) (psub q (v i))).
  { intros i t. unfold cross, psub, line_point. cbn [fst snd]. ring. }
  assert (Hout : exists i, cross (E i) (psub q (v i)) < 0).
  { assert (D : forall k, (forall i, (i < k)%nat -> 0 <= cross (E i) (psub q (v i))) \/
                          exists i, cross (E i) (psub q (v i)) < 0).
    { induction k as [|k [IH|IH]]; [left; lia| |now right].
      destruct (Rlt_dec (cross (E k) (psub q (v k))) 0) as [L|L]; [right; now exists k|].
      left. intros i Hi. destruct (Nat.eq_dec i k) as [->|]; [lra|]. apply IH. lia. }
    destruct (D n) as [C|C]; [|assumption]. exfalso. apply Hq. now apply inside_below. }
  destruct Hout as [i0 Hi0].
  destruct (ray_exit x (psub q x) Hx) as [T [HT [Hin [m [Hm1 Hm2]]]]].
  - exists i0. assert (H0 := Hx i0). unfold cross, psub in *. cbn [fst snd] in *. lra.
  - exists (line_point x (psub q x) T), T. split; [|split; [reflexivity|]].
    + split; [assumption|]. destruct (Rle_dec T 1) as [L|L]; [assumption|]. exfalso.
      apply Hq. intros i. assert (H0 := Hx i). assert (H1 := Hin i). rewrite Hlin in H1. nra.
    + now apply (line_boundary m).
Qed.

(** ** The region is the convex hull *)
Lemma inside_vertex j : inside_all (v j).
Proof. intros i. apply Hleft. Qed.
Lemma inside_convex a b x : inside_all a -> inside_all b -> on_segment a b x -> inside_all x.
Proof.
  intros Ha Hb [t [Ht ->]] i. assert (H1 := Ha i). assert (H2 := Hb i).
  replace (cross (E i) (psub (between a b t) (v i)))
    with ((1 - t) * cross (E i) (psub a (v i)) + t * cross (E i) (psub b (v i))); [nra|].
  unfold cross, psub, between. cbn [fst snd]. ring.
Qed.
Fixpoint rsum (f : nat -> R) (k : nat) : R := match k with O => 0 | S k' => rsum f k' + f k' end.
Lemma rsum_nonneg f k : (forall i, (i < k)%nat -> 0 <= f i) -> 0 <= rsum f k.
Proof.
  induction k as [|k IH]; intros H; cbn [rsum]; [lra|].
  assert (0 <= f k) by (apply H; lia). assert (0 <= rsum f k) by (apply IH; intros; apply H; lia). lra.
Qed.
Lemma rsum_zero f k : (forall i, (i < k)%nat -> 0 <= f i) -> rsum f k = 0 -> forall i, (i < k)%nat -> f i = 0.
Proof.
  induction k as [|k IH]; intros H Hs i Hi; [lia|]. cbn [rsum] in Hs.
  assert (0 <= f k) by (apply H; lia).
  assert (0 <= rsum f k) by (apply rsum_nonneg; intros; apply H; lia).
  destruct (Nat.eq_dec i k) as [->|]; [lra|]. apply IH; [intros; apply H; lia|lra|lia].
Qed.
Lemma telescope u k : rsum (fun i => cross u (E i)) k = cross u (psub (v k) (v 0)).
Proof.
  induction k as [|k IH]; cbn [rsum]; [unfold cross, psub; cbn [fst snd]; ring|].
  rewrite IH. unfold cross, psub. cbn [fst snd]. ring.
Qed.
Lemma ray_leaves d : d <> (0, 0) -> exists i, cross (E i) d < 0.
Proof.
  intros Hd.
  assert (D : forall k, (forall i, (i < k)%nat -> 0 <= cross (E i) d) \/ exists i, cross (E i) d < 0).
  { induction k as [|k [IH|IH]]; [left; lia| |now right].
    destruct (Rlt_dec (cross (E k) d) 0) as [L|L]; [right; now exists k|].
    left. intros i Hi. destruct (Nat.eq_dec i k) as [->|]; [lra|]. apply IH. lia. }
  destruct (D n) as [C|C]; [exfalso|assumption].
  assert (Hs : rsum (fun i => cross (E i) d) n = 0).
  { assert (A : forall k, rsum (fun i => cross (E i) d) k = - rsum (fun i => cross d (E i)) k).
    { induction k as [|k IH]; cbn [rsum]; [lra|]. rewrite IH. unfold cross. ring. }
    rewrite A, telescope. replace (v n) with (v 0%nat) by (symmetry; apply (Hper 0)).
    unfold cross, psub. cbn [fst snd]. ring. }
  assert (Hall := rsum_zero _ _ C Hs).
  assert (Hpar : forall i, (i < n)%nat -> exists t, E i = (t * fst d, t * snd d)).
  { intros i Hi. apply parallel; [assumption|]. assert (Z := Hall i Hi). cbv beta in Z.
    transitivity (- cross (E i) d); [unfold cross; ring|]. rewrite Z. ring. }
  destruct (Hnd 0) as [j Hj].
  assert (Hj' : exists j', (j' <= n)%nat /\ v j = v j').
  { exists (j mod n)%nat. split; [assert (j mod n < n)%nat by (apply Nat.mod_upper_bound; lia); lia|].
    rewrite (Nat.div_mod j n) at 1 by lia. replace (n * (j / n) + j mod n)%nat with (j mod n + j / n * n)%nat by lia.
    apply period. }
  destruct Hj' as [j' [Hj' Ej]]. rewrite Ej in Hj.
  rewrite <- (telescope (E 0)) in Hj.
  assert (Z : forall k, (k <= n)%nat -> rsum (fun i => cross (E 0) (E i)) k = 0).
  { induction k as [|k IH]; intros Hk; cbn [rsum]; [reflexivity|]. rewrite IH by lia.
    destruct (Hpar 0%nat Hn) as [t0 E0]. destruct (Hpar k) as [t1 E1]; [lia|]. rewrite E0, E1.
    unfold cross. cbn [fst snd]. ring. }
  rewrite (Z j' Hj') in Hj. lra.
Qed.
Lemma inside_hull x : inside_all x ->
  forall C, convex C -> (forall i, C (v i)) -> C x.
Proof.
  intros Hx C HC HV.
  assert (Dec : x = v 0%nat \/ psub x (v 0%nat) <> (0, 0)).
  { destruct (Req_EM_T (norm (psub x (v 0%nat))) 0) as [E0|E0].
    - left. rewrite <- dist_norm in E0. now apply dist_zero in E0.
    - right. intros H. apply E0, norm_zero, H. }
  destruct Dec as [->|Hd]; [apply HV|].
  destruct (ray_exit x (psub x (v 0%nat)) Hx (ray_leaves _ Hd)) as [T [HT [Hin [m [_ Hm]]]]].
  destruct (line_boundary m _ Hin Hm) as [j Hj].
  apply (HC (v 0%nat) (line_point x (psub x (v 0%nat)) T)); [apply HV|apply (HC (v j) (v (S j))); [apply HV|apply HV|exact Hj]|].
  exists (/ (1 + T)). split.
  - split; [apply Rlt_le, Rinv_0_lt_compat; lra|]. rewrite <- Rinv_1. apply Rinv_le_contravar; lra.
  - unfold between, line_point, psub. destruct x. cbn [fst snd]. f_equal; field; lra.
Qed.
End Polygon.
