From Coq Require Import QArith Qabs Lqa Permutation Lia.
From Verif Require Import Base ResultLib MonadLib ListLib BoxModel BoxSpec.
Local Open Scope Q_scope.
Open Scope list_scope.

Lemma qle_b a b : Qle_bool a b = true <-> a <= b.
Proof. apply Qle_bool_iff. Qed.
Lemma qle_nb a b : Qle_bool a b = false <-> b < a.
Proof.
  split.
  - intros H. apply Qnot_le_lt. intros C. apply Qle_bool_iff in C. congruence.
  - intros H. destruct (Qle_bool a b) eqn:E; [|reflexivity]. apply Qle_bool_iff in E. lra.
Qed.
Lemma nltb_q (a b : QK) : @nltb QK a b = true <-> a < b.
Proof. unfold nltb. cbn [nleb QK]. rewrite Bool.negb_true_iff. apply qle_nb. Qed.
Lemma nltb_qf (a b : QK) : @nltb QK a b = false <-> b <= a.
Proof. unfold nltb. cbn [nleb QK]. rewrite Bool.negb_false_iff. apply qle_b. Qed.

Ltac qcase :=
  repeat match goal with
  | |- context [@nltb QK ?a ?b] =>
      lazymatch b with context [@nltb QK _ _] => fail | _ =>
        let E := fresh "E" in destruct (@nltb QK a b) eqn:E;
        [apply nltb_q in E | apply nltb_qf in E] end
  end.

Ltac dcase :=
  repeat match goal with
  | |- context [Qlt_le_dec ?a ?b] =>
      lazymatch a with context [Qlt_le_dec _ _] => fail | _ => destruct (Qlt_le_dec a b) end
  end.

Lemma abs_le (a b : Q) : Qabs a <= b <-> - b <= a /\ a <= b.
Proof. apply Qabs_Qle_condition. Qed.

Lemma overlap_axis_q (c1 h1 c2 h2 : Q) :
  @overlap_axis QK c1 h1 c2 h2 = true <-> c1 - h1 <= c2 + h2 /\ c2 - h2 <= c1 + h1.
Proof.
  unfold overlap_axis. cbn [nleb nabs nsub nadd QK carrier]. rewrite qle_b, abs_le. split; intros [? ?]; split; lra.
Qed.
Lemma overlap_q (a b : aabox QK) :
  overlap a b = true <->
  (cx a - hx a <= cx b + hx b /\ cx b - hx b <= cx a + hx a) /\
  (cy a - hy a <= cy b + hy b /\ cy b - hy b <= cy a + hy a).
Proof. unfold overlap. rewrite Bool.andb_true_iff, !overlap_axis_q. tauto. Qed.

Lemma overlap_share (a b : aabox QK) : proper a -> proper b -> overlap a b = true <-> share_point a b.
Proof.
  intros [A1 A2] [B1 B2]. rewrite overlap_q. cbn [carrier QK] in *. split.
  - intros [[X1 X2] [Y1 Y2]].
    exists (@nmax QK (cx a - hx a) (cx b - hx b)), (@nmax QK (cy a - hy a) (cy b - hy b)).
    unfold in_box, nmax. qcase; cbn [carrier QK] in *; repeat split; lra.
  - intros (x & y & (P1 & P2 & P3 & P4) & (R1 & R2 & R3 & R4)). cbn [carrier QK] in *. repeat split; lra.
Qed.

Lemma overlap_sym (a b : aabox QK) : overlap a b = overlap b a.
Proof.
  apply Bool.eq_true_iff_eq. rewrite !overlap_q. tauto.
Qed.

Lemma common_length_sym a b c d : common_length a b c d == common_length c d a b.
Proof.
  unfold common_length.
  dcase; lra.
Qed.

Lemma intersection_area_q (a b : aabox QK) : proper a -> proper b ->
  intersection_area a b == common_area a b.
Proof.
  intros [A1 A2] [B1 B2]. unfold intersection_area, common_area.
  destruct (overlap a b) eqn:E; cbn [negb].
  - apply overlap_q in E. destruct E as [[X1 X2] [Y1 Y2]].
    cbn [nmul nsub nadd QK carrier] in *.
    assert (S : forall c1 h1 c2 h2 : Q, 0 <= h1 -> 0 <= h2 -> c1 - h1 <= c2 + h2 -> c2 - h2 <= c1 + h1 ->
      common_length (c1 - h1) (c1 + h1) (c2 - h2) (c2 + h2) ==
      @nmin QK (c1 + h1) (c2 + h2) - @nmax QK (c1 - h1) (c2 - h2)).
    { intros c1 h1 c2 h2 ? ? ? ?. unfold common_length, nmin, nmax.
      qcase; cbn [carrier QK] in *;
      dcase; lra. }
    rewrite (S (cx a) (hx a) (cx b) (hx b)), (S (cy a) (hy a) (cy b) (hy b)) by assumption.
    cbn [QK carrier]. ring.
  - cbn [nzero QK].
    destruct (Qlt_le_dec (cx b + hx b) (cx a - hx a)) as [L1|L1];
    [|destruct (Qlt_le_dec (cx a + hx a) (cx b - hx b)) as [L2|L2];
    [|destruct (Qlt_le_dec (cy b + hy b) (cy a - hy a)) as [L3|L3];
    [|destruct (Qlt_le_dec (cy a + hy a) (cy b - hy b)) as [L4|L4]]]].
    + assert (H : common_length (cx a - hx a) (cx a + hx a) (cx b - hx b) (cx b + hx b) == 0);
      [|rewrite H; ring]. cbn [carrier QK] in *. unfold common_length.
      dcase; lra.
    + assert (H : common_length (cx a - hx a) (cx a + hx a) (cx b - hx b) (cx b + hx b) == 0);
      [|rewrite H; ring]. cbn [carrier QK] in *. unfold common_length.
      dcase; lra.
    + assert (H : common_length (cy a - hy a) (cy a + hy a) (cy b - hy b) (cy b + hy b) == 0);
      [|rewrite H; ring]. cbn [carrier QK] in *. unfold common_length.
      dcase; lra.
    + assert (H : common_length (cy a - hy a) (cy a + hy a) (cy b - hy b) (cy b + hy b) == 0);
      [|rewrite H; ring]. cbn [carrier QK] in *. unfold common_length.
      dcase; lra.
    + exfalso. assert (overlap a b = true); [|congruence]. apply overlap_q. cbn [carrier QK] in *. repeat split; assumption.
Qed.

Lemma inside_q (b : aabox QK) (x y : Q) : inside b x y = true <-> in_box b x y.
Proof.
  unfold inside, in_box. rewrite Bool.andb_true_iff. cbn [nleb nabs nsub QK carrier].
  rewrite !qle_b, !abs_le. split.
  - intros [[? ?] [? ?]]. repeat split; lra.
  - intros (? & ? & ? & ?). repeat split; lra.
Qed.

Lemma sq_mono (a b : Q) : 0 <= a -> a <= b -> a * a <= b * b.
Proof. intros. nra. Qed.

Lemma sq_nonneg (a : Q) : 0 <= a * a.
Proof. destruct (Qlt_le_dec a 0); nra. Qed.
Lemma sq_zero (a b : Q) : 0 == a * a + b * b -> a == 0.
Proof.
  intros H. pose proof (sq_nonneg a). pose proof (sq_nonneg b).
  assert (E : a * a == 0) by lra. destruct (Qmult_integral a a E); assumption.
Qed.

Lemma axis_dist (x lo hi : Q) : lo <= hi ->
  let d := @nmax QK 0 (@nmax QK (x - hi) (lo - x)) in
  (exists z, lo <= z /\ z <= hi /\ d * d == (x - z) * (x - z)) /\
  (forall z, lo <= z -> z <= hi -> d * d <= (x - z) * (x - z)).
Proof.
  intros H. cbv zeta. unfold nmax. split.
  - qcase; cbn [carrier QK] in *;
    first [ exists x; split; [lra|split; [lra|ring]] | exists hi; split; [lra|split; [lra|ring]]
          | exists lo; split; [lra|split; [lra|ring]] ].
  - intros z Hl Hh. 
    assert (N : 0 <= (x - z) * (x - z)) by (destruct (Qlt_le_dec (x - z) 0); nra).
    qcase; cbn [carrier QK] in *;
    first [ ring_simplify; ring_simplify in N; lra
          | apply sq_mono; lra
          | setoid_replace ((x - z) * (x - z)) with ((z - x) * (z - x)) by ring; apply sq_mono; lra ].
Qed.

Theorem distance_min (b : aabox QK) (x y : Q) : proper b ->
  (exists x' y', in_box b x' y' /\ distance_sqr b x y == dist2 x y x' y') /\
  (forall x' y', in_box b x' y' -> distance_sqr b x y <= dist2 x y x' y').
Proof.
  intros [A1 A2]. unfold distance_sqr, get_min, get_max, dist2, in_box. cbn [nmul nsub nadd nzero QK carrier] in *.
  destruct (axis_dist x (cx b - hx b) (cx b + hx b)) as [(zx & Lx & Hx & Ex) Mx]; [cbn [QK carrier] in *; lra|].
  destruct (axis_dist y (cy b - hy b) (cy b + hy b)) as [(zy & Ly & Hy & Ey) My]; [cbn [QK carrier] in *; lra|].
  cbn [QK carrier] in *. split.
  - exists zx, zy. split; [repeat split; assumption|]. rewrite Ex, Ey. reflexivity.
  - intros x' y' (P1 & P2 & P3 & P4). specialize (Mx x' P1 P2). specialize (My y' P3 P4). apply Qplus_le_compat; assumption.
Qed.

Lemma distance_zero (b : aabox QK) (x y : Q) : proper b -> distance_sqr b x y == 0 <-> in_box b x y.
Proof.
  intros P. destruct (distance_min b x y P) as [(x' & y' & I & E) M]. split.
  - intros Z. rewrite Z in E. unfold dist2 in E.
    pose proof (sq_zero (x - x') (y - y') E) as S1.
    assert (S2 : y - y' == 0) by (apply (sq_zero (y - y') (x - x')); rewrite E; ring).
    destruct I as (P1 & P2 & P3 & P4). unfold in_box. cbn [QK carrier] in *. repeat split; lra.
  - intros I'. specialize (M x y I'). unfold dist2 in *.
    assert (0 <= distance_sqr b x y).
    { rewrite E. pose proof (sq_nonneg (x - x')). pose proof (sq_nonneg (y - y')). lra. }
    cbn [QK carrier] in *. assert (distance_sqr b x y <= 0) by (eapply Qle_trans; [exact M|ring_simplify; lra]). lra.
Qed.

(** ** Union *)
Definition contains (u b : aabox QK) : Prop :=
  cx u - hx u <= cx b - hx b /\ cx b + hx b <= cx u + hx u /\ cy u - hy u <= cy b - hy b /\ cy b + hy b <= cy u + hy u.

Lemma union_edges (a b : aabox QK) :
  cx (union a b) - hx (union a b) == (if @nltb QK (cx b - hx b) (cx a - hx a) then cx b - hx b else cx a - hx a) /\
  cx (union a b) + hx (union a b) == (if @nltb QK (cx a + hx a) (cx b + hx b) then cx b + hx b else cx a + hx a) /\
  cy (union a b) - hy (union a b) == (if @nltb QK (cy b - hy b) (cy a - hy a) then cy b - hy b else cy a - hy a) /\
  cy (union a b) + hy (union a b) == (if @nltb QK (cy a + hy a) (cy b + hy b) then cy b + hy b else cy a + hy a).
Proof.
  unfold union, get_min, get_max, init. cbn [cx cy hx hy nmul nsub nadd nhalf nzero QK carrier].
  repeat split; qcase; cbn [cx cy hx hy carrier QK] in *; field.
Qed.

Lemma union_contains_l (a b : aabox QK) : contains (union a b) a.
Proof.
  destruct (union_edges a b) as (E1 & E2 & E3 & E4). unfold contains. rewrite E1, E2, E3, E4.
  repeat split; qcase; cbn [carrier QK] in *; lra.
Qed.
Lemma union_contains_r (a b : aabox QK) : contains (union a b) b.
Proof.
  destruct (union_edges a b) as (E1 & E2 & E3 & E4). unfold contains. rewrite E1, E2, E3, E4.
  repeat split; qcase; cbn [carrier QK] in *; lra.
Qed.
Lemma contains_trans (a b c : aabox QK) : contains a b -> contains b c -> contains a c.
Proof. unfold contains. cbn [carrier QK] in *. intros (? & ? & ? & ?) (? & ? & ? & ?). repeat split; lra. Qed.
Lemma contains_refl (a : aabox QK) : contains a a.
Proof. unfold contains. repeat split; apply Qle_refl. Qed.

Theorem union_smallest (a b : aabox QK) : proper a -> proper b ->
  proper (union a b) /\
  (forall x y, in_box a x y \/ in_box b x y -> in_box (union a b) x y) /\
  (forall c : aabox QK, (forall x y, in_box a x y \/ in_box b x y -> in_box c x y) ->
     forall x y, in_box (union a b) x y -> in_box c x y).
Proof.
  intros [A1 A2] [B1 B2]. destruct (union_edges a b) as (E1 & E2 & E3 & E4).
  pose proof (union_contains_l a b) as (L1 & L2 & L3 & L4). pose proof (union_contains_r a b) as (R1 & R2 & R3 & R4).
  cbn [carrier QK] in *. repeat split.
  - lra.
  - lra.
  - destruct H as [(? & ? & ? & ?)|(? & ? & ? & ?)]; cbn [carrier QK] in *; lra.
  - destruct H as [(? & ? & ? & ?)|(? & ? & ? & ?)]; cbn [carrier QK] in *; lra.
  - destruct H as [(? & ? & ? & ?)|(? & ? & ? & ?)]; cbn [carrier QK] in *; lra.
  - destruct H as [(? & ? & ? & ?)|(? & ? & ? & ?)]; cbn [carrier QK] in *; lra.
  - pose proof (H (cx a - hx a) (cy a - hy a)) as Ha. pose proof (H (cx b - hx b) (cy b - hy b)) as Hb.
    destruct Ha as (? & ? & ? & ?); [left; repeat split; lra|]. destruct Hb as (? & ? & ? & ?); [right; repeat split; lra|].
    destruct H0 as (P1 & P2 & P3 & P4). cbn [carrier QK] in *.
    rewrite E1 in P1. destruct (nltb _ _) in P1; lra.
  - pose proof (H (cx a + hx a) (cy a - hy a)) as Ha. pose proof (H (cx b + hx b) (cy b - hy b)) as Hb.
    destruct Ha as (? & ? & ? & ?); [left; repeat split; lra|]. destruct Hb as (? & ? & ? & ?); [right; repeat split; lra|].
    destruct H0 as (P1 & P2 & P3 & P4). cbn [carrier QK] in *.
    rewrite E2 in P2. destruct (nltb _ _) in P2; lra.
  - pose proof (H (cx a - hx a) (cy a - hy a)) as Ha. pose proof (H (cx b - hx b) (cy b - hy b)) as Hb.
    destruct Ha as (? & ? & ? & ?); [left; repeat split; lra|]. destruct Hb as (? & ? & ? & ?); [right; repeat split; lra|].
    destruct H0 as (P1 & P2 & P3 & P4). cbn [carrier QK] in *.
    rewrite E3 in P3. destruct (nltb _ _) in P3; lra.
  - pose proof (H (cx a + hx a) (cy a + hy a)) as Ha. pose proof (H (cx b + hx b) (cy b + hy b)) as Hb.
    destruct Ha as (? & ? & ? & ?); [left; repeat split; lra|]. destruct Hb as (? & ? & ? & ?); [right; repeat split; lra|].
    destruct H0 as (P1 & P2 & P3 & P4). cbn [carrier QK] in *.
    rewrite E4 in P4. destruct (nltb _ _) in P4; lra.
Qed.

(** ** The tree, for every arithmetic *)
Section Tree.
Context {K : num}.
Lemma insert_perm (x : K * nat) l : Permutation (insert_pair x l) (x :: l).
Proof.
  induction l as [|y l IH]; cbn [insert_pair]; [reflexivity|].
  destruct (pair_leb x y); [reflexivity|]. rewrite IH. apply perm_swap.
Qed.
Lemma sort_perm (l : list (K * nat)) : Permutation (sort_pairs l) l.
Proof. induction l as [|x l IH]; cbn; [reflexivity|]. rewrite insert_perm, IH. reflexivity. Qed.

Lemma box_at_ok (boxes : list (aabox K)) i : (i < length boxes)%nat -> exists b, box_at boxes i = Ok b /\ nth_error boxes i = Some b.
Proof.
  intros H. unfold box_at. destruct (nth_error boxes i) as [b|] eqn:E; [exists b; split; reflexivity|].
  apply nth_error_None in E. lia.
Qed.
Lemma box_at_inv (boxes : list (aabox K)) i b : box_at boxes i = Ok b -> nth_error boxes i = Some b.
Proof. unfold box_at. destruct (nth_error boxes i); [intros H; apply Ok_inj in H; congruence|discriminate]. Qed.

Lemma bounds_fold_ok (boxes : list (aabox K)) rest b : (forall i, In i rest -> (i < length boxes)%nat) ->
  exists r, foldM (fun acc j => do b' <- box_at boxes j; Ok (union acc b')) rest b = Ok r.
Proof.
  revert b. induction rest as [|i rest IH]; intros b H; cbn [foldM]; [exists b; reflexivity|].
  destruct (box_at_ok boxes i (H i (or_introl eq_refl))) as (b' & E & _). rewrite E. cbn [bind].
  apply IH. intros j Hj. apply H. right. exact Hj.
Qed.
Lemma bounds_ok (boxes : list (aabox K)) idx : idx <> [] -> (forall i, In i idx -> (i < length boxes)%nat) ->
  exists b, bounds_of boxes idx = Ok b.
Proof.
  destruct idx as [|i rest]; intros Hn H; [congruence|]. cbn [bounds_of].
  destruct (box_at_ok boxes i (H i (or_introl eq_refl))) as (b' & E & _). rewrite E. cbn [bind].
  apply bounds_fold_ok. intros j Hj. apply H. right. exact Hj.
Qed.

Lemma keyed_spec (boxes : list (aabox K)) f idx keyed :
  mapM (fun i => do b <- box_at boxes i; Ok (f b : carrier K, i)) idx = Ok keyed -> map snd keyed = idx.
Proof.
  revert keyed. induction idx as [|i idx IH]; intros keyed H; cbn [mapM] in H; [apply Ok_inj in H; subst; reflexivity|].
  dbind H p E. dbind H ps E2. apply Ok_inj in H. subst keyed.
  dbind E b E3. apply Ok_inj in E. subst p. cbn [map snd]. f_equal. apply IH. exact E2.
Qed.
Lemma keyed_ok (boxes : list (aabox K)) f idx : (forall i, In i idx -> (i < length boxes)%nat) ->
  exists keyed, mapM (fun i => do b <- box_at boxes i; Ok (f b : carrier K, i)) idx = Ok keyed.
Proof.
  induction idx as [|i idx IH]; intros H; cbn [mapM]; [eexists; reflexivity|].
  destruct (box_at_ok boxes i (H i (or_introl eq_refl))) as (b' & E & _). rewrite E. cbn [bind].
  destruct IH as [ks Ek]; [intros j Hj; apply H; right; exact Hj|]. rewrite Ek. cbn [bind]. eexists; reflexivity.
Qed.

(** The trees that building can produce for a list of boxes. *)
Inductive built (boxes : list (aabox K)) : list nat -> tree K -> Prop :=
| built_leaf idx b : bounds_of boxes idx = Ok b -> built boxes idx (Leaf b idx)
| built_node idx b i1 i2 l r : bounds_of boxes idx = Ok b -> Permutation (i1 ++ i2) idx ->
    built boxes i1 l -> built boxes i2 r -> built boxes idx (Node b l r).

Lemma build_built fuel : forall boxes level idx t, build fuel boxes level idx = Ok t -> built boxes idx t.
Proof.
  induction fuel as [|fuel IH]; intros boxes level idx t H; cbn [build] in H; [discriminate|].
  dbind H bnd Eb. destruct (Nat.ltb (length idx) 5); [apply Ok_inj in H; subst t; constructor; exact Eb|].
  dbind H keyed Ek. dbind H l El. dbind H r Er. apply Ok_inj in H. subst t.
  apply keyed_spec in Ek. econstructor; [exact Eb| |eapply IH; exact El|eapply IH; exact Er].
  rewrite firstn_skipn. rewrite <- Ek. apply Permutation_map. apply sort_perm.
Qed.
Lemma build_ok fuel : forall (boxes : list (aabox K)) level idx, (length idx < fuel)%nat -> idx <> [] ->
  (forall i, In i idx -> (i < length boxes)%nat) -> exists t, build fuel boxes level idx = Ok t.
Proof.
  induction fuel as [|fuel IH]; intros boxes level idx Hf Hn Hi; [lia|]. cbn [build].
  destruct (bounds_ok boxes idx Hn Hi) as [bnd Eb]. rewrite Eb. cbn [bind].
  destruct (Nat.ltb (length idx) 5) eqn:E5; [eexists; reflexivity|]. apply Nat.ltb_ge in E5.
  destruct (keyed_ok boxes (fun b => if Nat.even level then cx b else cy b) idx Hi) as [keyed Ek].
  rewrite Ek. cbn [bind]. pose proof (keyed_spec _ _ _ _ Ek) as Es.
  assert (P : Permutation (map snd (sort_pairs keyed)) idx).
  { rewrite <- Es. apply Permutation_map. apply sort_perm. }
  pose proof (Permutation_length P) as PL.
  assert (M : (1 <= Nat.div (length idx) 2 < length idx)%nat).
  { split; [apply (Nat.div_le_lower_bound (length idx) 2 1); lia|apply Nat.div_lt; lia]. }
  assert (Hs : forall l', (forall x, In x l' -> In x (map snd (sort_pairs keyed))) -> forall i, In i l' -> (i < length boxes)%nat).
  { intros l' Hl i H. apply Hi. apply (Permutation_in _ P). apply Hl. exact H. }
  destruct (IH boxes (S level) (firstn (Nat.div (length idx) 2) (map snd (sort_pairs keyed)))) as [l El].
  { rewrite firstn_length. lia. }
  { intros C. apply (f_equal (@length nat)) in C. rewrite firstn_length in C. cbn [length] in C. lia. }
  { apply Hs. intros x H. rewrite <- (firstn_skipn (Nat.div (length idx) 2)). apply in_or_app. left. exact H. }
  destruct (IH boxes (S level) (skipn (Nat.div (length idx) 2) (map snd (sort_pairs keyed)))) as [r Er].
  { rewrite skipn_length. lia. }
  { intros C. apply (f_equal (@length nat)) in C. rewrite skipn_length in C. cbn [length] in C. lia. }
  { apply Hs. intros x H. rewrite <- (firstn_skipn (Nat.div (length idx) 2)). apply in_or_app. right. exact H. }
  rewrite El. cbn [bind]. rewrite Er. cbn [bind]. eexists; reflexivity.
Qed.

(** The boxes that should be reported. *)
Definition hit (boxes : list (aabox K)) (box : aabox K) (index : nat) (i : nat) : bool :=
  negb (Nat.eqb i index) && match nth_error boxes i with Some b => overlap box b | None => false end.

Lemma leaf_hits boxes box index children : (forall i, In i children -> (i < length boxes)%nat) ->
  exists ls, mapM (fun i => if Nat.eqb i index then Ok [] else
        do b <- box_at boxes i; Ok (if overlap box b then [i] else [])) children = Ok ls /\
    concat ls = filter (hit boxes box index) children.
Proof.
  induction children as [|i rest IH]; intros H; cbn [mapM]; [exists []; split; reflexivity|].
  destruct (box_at_ok boxes i (H i (or_introl eq_refl))) as (b & E & N).
  destruct IH as (ls & El & Ec); [intros j Hj; apply H; right; exact Hj|].
  cbn [filter]. unfold hit at 1. rewrite N.
  destruct (Nat.eqb i index) eqn:Ei.
  - cbn [bind negb andb]. rewrite El. cbn [bind]. exists ([] :: ls). split; [reflexivity|exact Ec].
  - rewrite E. cbn [bind negb andb]. rewrite El. cbn [bind]. eexists. split; [reflexivity|]. cbn [concat]. rewrite Ec.
    destruct (overlap box b); reflexivity.
Qed.

Lemma Permutation_filter' {A} (f : A -> bool) l l' : Permutation l l' -> Permutation (filter f l) (filter f l').
Proof.
  induction 1 as [|x l l' P IH|x y l|l l' l'' P1 IH1 P2 IH2]; cbn [filter].
  - constructor.
  - destruct (f x); [constructor|]; assumption.
  - destruct (f x), (f y); try reflexivity. apply perm_swap.
  - etransitivity; eassumption.
Qed.

(** Pruning is right when a box overlapping a member overlaps the bounds. *)
Lemma collect_perm boxes box index :
  (forall idx b, bounds_of boxes idx = Ok b -> overlap box b = false ->
     forall i, In i idx -> hit boxes box index i = false) ->
  forall idx t, built boxes idx t -> (forall i, In i idx -> (i < length boxes)%nat) ->
  exists l, collect boxes box index t = Ok l /\ Permutation l (filter (hit boxes box index) idx).
Proof.
  intros Prune idx t B. induction B as [idx b Eb|idx b i1 i2 l r Eb P Bl IHl Br IHr]; intros Hi; cbn [collect bounds].
  - destruct (overlap box b) eqn:Eo; cbn [negb].
    + destruct (leaf_hits boxes box index idx Hi) as (ls & E & C). rewrite E. cbn [bind]. exists (concat ls). rewrite C. split; reflexivity.
    + exists []. split; [reflexivity|].
      replace (filter (hit boxes box index) idx) with (@nil nat); [reflexivity|].
      specialize (Prune idx b Eb Eo). clear -Prune. induction idx as [|i idx IH]; [reflexivity|]. cbn [filter].
      rewrite (Prune i (or_introl eq_refl)). apply IH. intros j Hj. apply Prune. right. exact Hj.
  - destruct (overlap box b) eqn:Eo; cbn [negb].
    + destruct IHl as (la & Ea & Pa).
      { intros i H. apply Hi. apply (Permutation_in _ P). apply in_or_app. left. exact H. }
      destruct IHr as (lb & Eb' & Pb).
      { intros i H. apply Hi. apply (Permutation_in _ P). apply in_or_app. right. exact H. }
      rewrite Ea. cbn [bind]. rewrite Eb'. cbn [bind]. exists (la ++ lb). split; [reflexivity|].
      rewrite Pa, Pb. rewrite <- (Permutation_filter' _ _ _ P). rewrite filter_app. reflexivity.
    + exists []. split; [reflexivity|].
      replace (filter (hit boxes box index) idx) with (@nil nat); [reflexivity|].
      specialize (Prune idx b Eb Eo). clear -Prune. induction idx as [|i idx IH]; [reflexivity|]. cbn [filter].
      rewrite (Prune i (or_introl eq_refl)). apply IH. intros j Hj. apply Prune. right. exact Hj.
Qed.

(** Soundness needs no assumption on pruning. *)
Lemma collect_sound boxes box index :
  forall idx t, built boxes idx t -> (forall i, In i idx -> (i < length boxes)%nat) -> NoDup idx ->
  exists l, collect boxes box index t = Ok l /\ NoDup l /\ forall i, In i l -> In i idx /\ hit boxes box index i = true.
Proof.
  intros idx t B. induction B as [idx b Eb|idx b i1 i2 l r Eb P Bl IHl Br IHr]; intros Hi ND; cbn [collect bounds].
  - destruct (overlap box b) eqn:Eo; cbn [negb].
    + destruct (leaf_hits boxes box index idx Hi) as (ls & E & C). rewrite E. cbn [bind]. exists (concat ls). rewrite C.
      split; [reflexivity|]. split; [apply NoDup_filter; exact ND|]. intros i H. apply filter_In in H. exact H.
    + exists []. split; [reflexivity|]. split; [constructor|intros i []].
  - destruct (overlap box b) eqn:Eo; cbn [negb].
    + assert (ND' : NoDup (i1 ++ i2)) by (eapply Permutation_NoDup; [symmetry; exact P|exact ND]).
      apply nodup_app_inv in ND'. destruct ND' as (N1 & N2 & N3).
      destruct IHl as (la & Ea & Na & Pa); [|exact N1|].
      { intros i H. apply Hi. apply (Permutation_in _ P). apply in_or_app. left. exact H. }
      destruct IHr as (lb & Eb' & Nb & Pb); [|exact N2|].
      { intros i H. apply Hi. apply (Permutation_in _ P). apply in_or_app. right. exact H. }
      rewrite Ea. cbn [bind]. rewrite Eb'. cbn [bind]. exists (la ++ lb). split; [reflexivity|]. split.
      * apply nodup_app; [exact Na|exact Nb|]. intros i Hl Hr. apply (N3 i); [apply Pa|apply Pb]; assumption.
      * intros i H. apply in_app_or in H. destruct H as [H|H].
        -- destruct (Pa i H) as [A B']. split; [|exact B']. apply (Permutation_in _ P). apply in_or_app. left. exact A.
        -- destruct (Pb i H) as [A B']. split; [|exact B']. apply (Permutation_in _ P). apply in_or_app. right. exact A.
    + exists []. split; [reflexivity|]. split; [constructor|intros i []].
Qed.
End Tree.

(** Bounds contain the members, for exact arithmetic. *)
Lemma bounds_contain (boxes : list (aabox QK)) idx u : bounds_of boxes idx = Ok u ->
  forall i b, In i idx -> nth_error boxes i = Some b -> contains u b.
Proof.
  destruct idx as [|i0 rest]; cbn [bounds_of]; [discriminate|]. intros H. dbind H b0 E0.
  apply box_at_inv in E0.
  assert (S : forall rest acc u, foldM (fun acc j => do b' <- box_at boxes j; Ok (union acc b')) rest acc = Ok u ->
    contains u acc /\ forall i b, In i rest -> nth_error boxes i = Some b -> contains u b).
  { clear. induction rest as [|j rest IH]; intros acc u H; cbn [foldM] in H.
    - apply Ok_inj in H. subst u. split; [apply contains_refl|intros i b []].
    - dbind H a E. dbind E b' E'. apply Ok_inj in E. subst a. apply box_at_inv in E'.
      apply IH in H. destruct H as [H1 H2]. split.
      + eapply contains_trans; [exact H1|apply union_contains_l].
      + intros i b [->|Hi] N; [|eapply H2; eassumption].
        rewrite E' in N. injection N as <-. eapply contains_trans; [exact H1|apply union_contains_r]. }
  destruct (S rest b0 u H) as [S1 S2]. intros i b [->|Hi] N.
  - rewrite E0 in N. injection N as <-. exact S1.
  - eapply S2; eassumption.
Qed.

Lemma overlap_contains (box u b : aabox QK) : contains u b -> overlap box b = true -> overlap box u = true.
Proof.
  intros (? & ? & ? & ?). rewrite !overlap_q. cbn [carrier QK] in *. intros [[? ?] [? ?]]. repeat split; lra.
Qed.

Theorem tree_query (boxes : list (aabox QK)) : boxes <> [] ->
  exists t, build_tree boxes = Ok t /\
  forall index box, nth_error boxes index = Some box ->
  exists hits, collect_overlaps boxes t index = Ok hits /\
    NoDup hits /\
    forall k, In k hits <-> k <> index /\ exists b, nth_error boxes k = Some b /\ overlap box b = true.
Proof.
  intros Hn. unfold build_tree.
  destruct (build_ok (length boxes + 1) boxes 0 (seq 0 (length boxes))) as [t Et].
  { rewrite seq_length. lia. }
  { destruct boxes; [congruence|discriminate]. }
  { intros i H. apply in_seq in H. lia. }
  exists t. split; [exact Et|]. intros index box Nb.
  apply build_built in Et. unfold collect_overlaps, box_at. rewrite Nb. cbn [bind].
  destruct (collect_perm boxes box index) with (idx := seq 0 (length boxes)) (t := t) as (l & El & Pl).
  - intros idx b Eb Eo i Hi. unfold hit. destruct (nth_error boxes i) as [bi|] eqn:Ei; [|apply Bool.andb_false_r].
    destruct (overlap box bi) eqn:Eoi; [|apply Bool.andb_false_r].
    pose proof (bounds_contain _ _ _ Eb i bi Hi Ei) as C. apply (overlap_contains box) in C; congruence.
  - exact Et.
  - intros i H. apply in_seq in H. lia.
  - exists l. split; [exact El|]. split.
    + eapply Permutation_NoDup; [symmetry; exact Pl|]. apply NoDup_filter. apply seq_NoDup.
    + intros k. split.
      * intros H. apply (Permutation_in _ Pl) in H. apply filter_In in H. destruct H as [_ H]. unfold hit in H.
        apply Bool.andb_true_iff in H. destruct H as [H1 H2]. split.
        -- intros ->. rewrite Nat.eqb_refl in H1. discriminate.
        -- destruct (nth_error boxes k) as [b|]; [|discriminate]. exists b. split; [reflexivity|exact H2].
      * intros [H1 (b & Nk & Ov)]. apply (Permutation_in _ (Permutation_sym Pl)). apply filter_In. split.
        -- apply in_seq. (assert (k < length boxes)%nat by (apply nth_error_Some; congruence); lia).
        -- unfold hit. rewrite Nk, Ov. apply Nat.eqb_neq in H1. rewrite H1. reflexivity.
Qed.

Theorem tree_query_geometric (boxes : list (aabox QK)) : boxes <> [] -> (forall b, In b boxes -> proper b) ->
  exists t, build_tree boxes = Ok t /\
  forall index box, nth_error boxes index = Some box ->
  exists hits, collect_overlaps boxes t index = Ok hits /\
    NoDup hits /\
    forall k, In k hits <-> k <> index /\ exists b, nth_error boxes k = Some b /\ share_point box b.
Proof.
  intros Hn Hp. destruct (tree_query boxes Hn) as (t & Et & Q). exists t. split; [exact Et|].
  intros index box N. destruct (Q index box N) as (hits & E & ND & S). exists hits. split; [exact E|]. split; [exact ND|].
  intros k. rewrite S. split; intros [H1 (b & H2 & H3)]; split; try exact H1; exists b; split; try exact H2;
  apply (overlap_share box b); try exact H3; apply Hp; eapply nth_error_In; eassumption.
Qed.

Theorem tree_mutual (boxes : list (aabox QK)) t i j hi hj :
  build_tree boxes = Ok t -> collect_overlaps boxes t i = Ok hi -> collect_overlaps boxes t j = Ok hj ->
  In j hi <-> In i hj.
Proof.
  intros Et Ei Ej.
  assert (Hn : boxes <> []) by (intros ->; discriminate Et).
  destruct (tree_query boxes Hn) as (t' & Et' & Q). rewrite Et in Et'. apply Ok_inj in Et'. subst t'.
  assert (Bi : exists bi, nth_error boxes i = Some bi).
  { unfold collect_overlaps in Ei. dbind Ei bi Eb. apply box_at_inv in Eb. exists bi. exact Eb. }
  assert (Bj : exists bj, nth_error boxes j = Some bj).
  { unfold collect_overlaps in Ej. dbind Ej bj Eb. apply box_at_inv in Eb. exists bj. exact Eb. }
  destruct Bi as [bi Ni], Bj as [bj Nj].
  destruct (Q i bi Ni) as (h1 & E1 & _ & S1). destruct (Q j bj Nj) as (h2 & E2 & _ & S2).
  rewrite Ei in E1. apply Ok_inj in E1. rewrite Ej in E2. apply Ok_inj in E2. subst h1 h2.
  rewrite S1, S2. split; intros [H1 (b & H2 & H3)]; (split; [congruence|]).
  - rewrite Nj in H2. injection H2 as <-. exists bi. split; [exact Ni|]. rewrite overlap_sym. exact H3.
  - rewrite Ni in H2. injection H2 as <-. exists bj. split; [exact Nj|]. rewrite overlap_sym. exact H3.
Qed.

Theorem tree_errors {K : num} :
  build_tree (@nil (aabox K)) = Err IndexError /\
  forall (boxes : list (aabox K)) t index, (length boxes <= index)%nat -> collect_overlaps boxes t index = Err IndexError.
Proof.
  split; [reflexivity|]. intros boxes t index H. unfold collect_overlaps, box_at.
  apply nth_error_None in H. rewrite H. reflexivity.
Qed.

Lemma zoverlap (a b : aabox ZK) : (0 <= hx a -> 0 <= hy a -> 0 <= hx b -> 0 <= hy b ->
  overlap a b = true <-> exists x y, zin_box a x y /\ zin_box b x y)%Z.
Proof.
  intros A1 A2 B1 B2. unfold overlap, overlap_axis, zin_box. rewrite Bool.andb_true_iff.
  cbn [nleb nabs nsub nadd ZK carrier] in *. rewrite !Z.leb_le. split.
  - intros [X Y]. exists (Z.max (cx a - hx a) (cx b - hx b))%Z, (Z.max (cy a - hy a) (cy b - hy b))%Z. lia.
  - intros (x & y & (? & ? & ? & ?) & (? & ? & ? & ?)). lia.
Qed.

Theorem ztree_sound (boxes : list (aabox ZK)) : boxes <> [] ->
  (forall b, In b boxes -> (0 <= hx b)%Z /\ (0 <= hy b)%Z) ->
  exists t, build_tree boxes = Ok t /\
  forall index box, nth_error boxes index = Some box ->
  exists hits, collect_overlaps boxes t index = Ok hits /\
    NoDup hits /\
    forall k, In k hits -> k <> index /\ exists b, nth_error boxes k = Some b /\
      exists x y, zin_box box x y /\ zin_box b x y.
Proof.
  intros Hn Hp. unfold build_tree.
  destruct (build_ok (length boxes + 1) boxes 0 (seq 0 (length boxes))) as [t Et].
  { rewrite seq_length. lia. }
  { destruct boxes; [congruence|discriminate]. }
  { intros i H. apply in_seq in H. lia. }
  exists t. split; [exact Et|]. intros index box Nb.
  apply build_built in Et. unfold collect_overlaps, box_at. rewrite Nb. cbn [bind].
  destruct (collect_sound boxes box index (seq 0 (length boxes)) t Et) as (l & El & ND & S).
  - intros i H. apply in_seq in H. lia.
  - apply seq_NoDup.
  - exists l. split; [exact El|]. split; [exact ND|]. intros k Hk. destruct (S k Hk) as [_ H]. unfold hit in H.
    apply Bool.andb_true_iff in H. destruct H as [H1 H2]. split.
    + intros ->. rewrite Nat.eqb_refl in H1. discriminate.
    + destruct (nth_error boxes k) as [b|] eqn:Ek; [|discriminate]. exists b. split; [reflexivity|].
      apply nth_error_In in Nb, Ek. destruct (Hp _ Nb), (Hp _ Ek). apply zoverlap; assumption.
Qed.

Definition pt (x : Z) : aabox ZK := {| cx := x : ZK; cy := 0%Z : ZK; hx := 0%Z : ZK; hy := 0%Z : ZK |}.
Theorem ztree_incomplete :
  exists (boxes : list (aabox ZK)) t index box k b, build_tree boxes = Ok t /\
    (forall b, In b boxes -> (0 <= hx b)%Z /\ (0 <= hy b)%Z) /\
    nth_error boxes index = Some box /\ nth_error boxes k = Some b /\ k <> index /\
    (exists x y, zin_box box x y /\ zin_box b x y) /\
    collect_overlaps boxes t index = Ok [].
Proof.
  exists [pt 0; pt 1; pt 1]. eexists. exists 1%nat, (pt 1), 2%nat, (pt 1).
  split; [vm_compute; reflexivity|].
  split; [intros b [<-|[<-|[<-|[]]]]; cbn; lia|].
  split; [reflexivity|]. split; [reflexivity|]. split; [lia|]. split.
  - exists 1%Z, 0%Z. unfold zin_box; cbn; lia.
  - vm_compute. reflexivity.
Qed.

Lemma init_edges (minx miny maxx maxy : Q) :
  let b := @init QK minx miny maxx maxy in
  fst (get_min b) == minx /\ snd (get_min b) == miny /\ fst (get_max b) == maxx /\ snd (get_max b) == maxy.
Proof.
  cbv zeta. unfold init, get_min, get_max. cbn [cx cy hx hy nmul nsub nadd nhalf nzero QK carrier fst snd].
  repeat split; field.
Qed.

Lemma xywh_box (b : aabox QK) : let '(x, y, w, h) := get_xywh b in
  (x : Q) == fst (get_min b) /\ (y : Q) == snd (get_min b) /\ (x : Q) + w == fst (get_max b) /\ (y : Q) + h == snd (get_max b).
Proof.
  unfold get_xywh, get_min, get_max. cbn [cx cy hx hy nmul nsub nadd nhalf nzero QK carrier fst snd].
  split; [reflexivity|]. split; [reflexivity|]. split; ring.
Qed.

Lemma translate_box (b : aabox QK) (dx dy x y : Q) : in_box (translate b dx dy) (x + dx) (y + dy) <-> in_box b x y.
Proof.
  unfold in_box, translate. cbn [cx cy hx hy nadd QK carrier]. split; intros (? & ? & ? & ?); repeat split; lra.
Qed.
