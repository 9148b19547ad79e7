(** The pose estimation error over frames. *)
From Coq Require Import Reals Lra Psatz List Arith Lia Bool ZArith Permutation.
From Verif Require Import Base ResultLib GeomModel GeomBase PoseModel PoseSpec PoseReorder PoseBox PoseMatch PoseStages.
Import ListNotations.
Open Scope R_scope.

(** ** Bounds *)
Lemma pair_le penalty g p : 0 <= penalty -> pair_error penalty g p <= penalty * pair_points g p.
Proof.
  intros H. unfold pair_error, pair_points. rewrite <- sum_scale. apply sum_le. intros [a b] _. cbn [fst snd].
  pose proof (error_bounds penalty a b H). unfold error in *. destruct (visible a), (visible b); cbn [orb]; lra.
Qed.
Lemma pair_nonneg penalty g p : 0 <= penalty -> 0 <= pair_error penalty g p.
Proof. intros H. apply sum_nonneg. intros. now apply error_bounds. Qed.
Lemma points_nonneg g p : 0 <= pair_points g p.
Proof. apply sum_nonneg. intros kk _. destruct (_ || _); lra. Qed.
Lemma visible_nonneg o : 0 <= visible_points o.
Proof. apply sum_nonneg. intros k _. destruct (visible k); lra. Qed.
Lemma frame_bounds penalty gt pr M : 0 <= penalty ->
  0 <= frame_error penalty gt pr M <= penalty * frame_points gt pr M /\ 0 <= frame_points gt pr M.
Proof.
  intros H. unfold frame_error, frame_points.
  set (u := fun i => visible_points (person_at gt i)). set (v := fun j => visible_points (person_at pr j)).
  assert (A : 0 <= sum_of u (unmatched (map fst M) (length gt))) by (apply sum_nonneg; intros; apply visible_nonneg).
  assert (B : 0 <= sum_of v (unmatched (map snd M) (length pr))) by (apply sum_nonneg; intros; apply visible_nonneg).
  set (e := fun m : nat * nat => if shows (person_at gt (fst m)) then pair_error penalty (person_at gt (fst m)) (person_at pr (snd m)) else 0).
  set (c := fun m : nat * nat => if shows (person_at gt (fst m)) then pair_points (person_at gt (fst m)) (person_at pr (snd m)) else 0).
  assert (E0 : 0 <= sum_of e M) by (apply sum_nonneg; intros m _; unfold e; destruct (shows _); [now apply pair_nonneg | lra]).
  assert (C0 : 0 <= sum_of c M) by (apply sum_nonneg; intros m _; unfold c; destruct (shows _); [now apply points_nonneg | lra]).
  assert (EC : sum_of e M <= penalty * sum_of c M).
  { rewrite <- sum_scale. apply sum_le. intros m _. unfold e, c. destruct (shows _); [now apply pair_le | lra]. }
  assert (PA : 0 <= penalty * sum_of u (unmatched (map fst M) (length gt))) by (now apply Rmult_le_pos).
  assert (PB : 0 <= penalty * sum_of v (unmatched (map snd M) (length pr))) by (now apply Rmult_le_pos).
  repeat split; try lra.
Qed.

(** ** The value *)
Section Pem.
  Variables (assign : solver) (n : nat) (d penalty : R).
  Hypotheses (HS : solves assign) (D0 : 0 < d) (D1 : d <= 10000000000) (HN : (0 < n)%nat) (HP : 0 <= penalty).
  Definition ids (f : frame) : list (nat * nat) := matching_ids assign d (f_boxes f) (f_gt f) (f_pr f) n.
  Definition err (f : frame) : R := frame_error penalty (f_gt f) (f_pr f) (ids f).
  Definition pts (f : frame) : R := frame_points (f_gt f) (f_pr f) (ids f).
  Lemma ids_matching f : sane_frame n f -> matching (ids f) (length (f_gt f)) (length (f_pr f)).
  Proof. intros (A & B & C). now apply match_one_to_one. Qed.
  Lemma pem_fold fs : forall s, Forall (sane_frame n) fs ->
    foldM (pem_frame assign n d penalty) fs s = Ok (fst s + sum_of err fs, snd s + sum_of pts fs).
  Proof.
    induction fs as [|f fs IH]; intros [a b] F; cbn [foldM].
    - cbn. now rewrite !Rplus_0_r.
    - inversion_clear F as [|x y F1 F2]. unfold pem_frame at 1. pose proof (ids_matching f F1) as HM. destruct F1 as (A & B & C).
      destruct (frame_value n penalty (a, b) (f_gt f) (f_pr f) (ids f) HP B C HM) as (g & p & E & U). unfold ids in E.
      rewrite E. cbn [bind]. rewrite U. cbn [bind]. rewrite IH by auto. rewrite !sum_cons. cbn [fst snd]. unfold err, pts.
      f_equal. apply pair_equal_spec. split; lra.
  Qed.
  Lemma pem_value_sum fs : Forall (sane_frame n) fs -> pem assign n d penalty fs = Ok (mean_of (sum_of err fs) (sum_of pts fs)).
  Proof.
    intros F. unfold pem. rewrite pem_fold by auto. cbn [bind fst snd]. rewrite !Rplus_0_l. reflexivity.
  Qed.
  Lemma sums fs : 0 <= sum_of err fs <= penalty * sum_of pts fs /\ 0 <= sum_of pts fs.
  Proof.
    pose proof (fun f => frame_bounds penalty (f_gt f) (f_pr f) (ids f) HP) as B.
    split; [split|].
    - apply sum_nonneg. intros f _. apply B.
    - rewrite <- sum_scale. apply sum_le. intros f _. apply B.
    - apply sum_nonneg. intros f _. apply B.
  Qed.
  Lemma pem_bounds fs v : Forall (sane_frame n) fs -> pem assign n d penalty fs = Ok v -> 0 <= v <= penalty.
  Proof.
    intros F. rewrite pem_value_sum by auto. intros E. injection E as <-. destruct (sums fs) as ((A & B) & C). unfold mean_of.
    destruct (Req_EM_T _ _) as [Z|Z]; [lra|]. assert (P : 0 < sum_of pts fs) by lra. unfold Rdiv. split.
    - apply Rmult_le_pos; [lra | apply Rlt_le, Rinv_0_lt_compat; auto].
    - apply (Rmult_le_reg_r (sum_of pts fs)); auto. rewrite Rmult_assoc, Rinv_l by lra. lra.
  Qed.
  Lemma sum_perm {A} (f : A -> R) l m : Permutation l m -> sum_of f l = sum_of f m.
  Proof. induction 1; rewrite ?sum_cons; auto; try lra. Qed.
  Lemma pem_permutation fs gs : Forall (sane_frame n) fs -> Permutation fs gs -> pem assign n d penalty fs = pem assign n d penalty gs.
  Proof.
    intros F P. assert (G : Forall (sane_frame n) gs) by (eapply Permutation_Forall; eauto).
    rewrite !pem_value_sum by auto. now rewrite (sum_perm err _ _ P), (sum_perm pts _ _ P).
  Qed.
End Pem.

(** ** Zero *)
Lemma sum_zero_inv {A} (f : A -> R) l : (forall a, In a l -> 0 <= f a) -> sum_of f l = 0 -> forall a, In a l -> f a = 0.
Proof.
  induction l as [|b l IH]; intros N E a I; [destruct I|]. rewrite sum_cons in E. pose proof (N b (or_introl eq_refl)) as Nb.
  assert (Nl : 0 <= sum_of f l) by (apply sum_nonneg; intros; apply N; now right).
  destruct I as [<-|I]; [lra|]. apply IH; auto; [intros; apply N; now right | lra].
Qed.
Lemma squares_zero a b c : a * a + b * b + c * c = 0 -> a = 0 /\ b = 0 /\ c = 0.
Proof.
  intros E. pose proof (Rle_0_sqr a) as A. pose proof (Rle_0_sqr b) as B. pose proof (Rle_0_sqr c) as C. unfold Rsqr in *.
  repeat split; apply Rsqr_0_uniq; unfold Rsqr; lra.
Qed.
Lemma dist3_zero a b : dist3 a b = 0 <-> a = b.
Proof.
  destruct a as [[x y] z], b as [[x' y'] z']. unfold dist3. cbn [fst snd]. split.
  - intros E. apply sqrt_eq_0 in E.
    + apply squares_zero in E. destruct E as (A & B & C). f_equal; [f_equal|]; lra.
    + pose proof (Rle_0_sqr (x - x')). pose proof (Rle_0_sqr (y - y')). pose proof (Rle_0_sqr (z - z')). unfold Rsqr in *. lra.
  - intros E. injection E as -> -> ->. replace ((x' - x') * (x' - x') + (y' - y') * (y' - y') + (z' - z') * (z' - z')) with 0 by ring. apply sqrt_0.
Qed.
Lemma error_zero penalty g p : 0 < penalty -> error penalty g p = 0 <-> visible g = visible p /\ (visible g = true -> place g = place p).
Proof.
  intros H. unfold error. destruct (visible g), (visible p).
  - rewrite <- dist3_zero. pose proof (dist3_nonneg (place g) (place p)) as N. split.
    + intros E. split; auto. intros _. unfold Rmin in E. destruct (Rle_dec _ _); lra.
    + intros [_ E]. rewrite E by auto. apply Rmin_left. lra.
  - split; [lra | intros [E _]; discriminate].
  - split; [lra | intros [E _]; discriminate].
  - split; auto. intros _. split; auto. discriminate.
Qed.
Lemma pair_zero penalty g p : 0 < penalty -> pair_error penalty g p = 0 <-> same_pose g p.
Proof.
  intros H. unfold pair_error, same_pose. split.
  - intros E kk I. apply (error_zero penalty); auto. apply (sum_zero_inv (fun kk => error penalty (fst kk) (snd kk)) (combine g p)); auto.
    intros. apply error_bounds. lra.
  - intros S. apply sum_zero. intros kk I. apply error_zero; auto.
Qed.
Lemma visible_zero o : visible_points o = 0 <-> shows o = false.
Proof.
  split; [|apply hidden_points]. intros E. destruct (shows o) eqn:S; auto. apply existsb_exists in S. destruct S as (k & I & V).
  assert (Z : (if visible k then 1 else 0) = 0) by (apply (sum_zero_inv (fun k => if visible k then 1 else 0) o); auto; intros b _; destruct (visible b); lra).
  rewrite V in Z. lra.
Qed.
Lemma frame_zero penalty gt pr M : 0 < penalty -> frame_error penalty gt pr M = 0 <-> matched_to M gt pr.
Proof.
  intros H. unfold frame_error, matched_to.
  set (u := fun i => visible_points (person_at gt i)). set (v := fun j => visible_points (person_at pr j)).
  assert (A : 0 <= sum_of u (unmatched (map fst M) (length gt))) by (apply sum_nonneg; intros; apply visible_nonneg).
  assert (B : 0 <= sum_of v (unmatched (map snd M) (length pr))) by (apply sum_nonneg; intros; apply visible_nonneg).
  set (e := fun m : nat * nat => if shows (person_at gt (fst m)) then pair_error penalty (person_at gt (fst m)) (person_at pr (snd m)) else 0).
  assert (e0 : forall m, In m M -> 0 <= e m) by (intros m _; unfold e; destruct (shows _); [apply pair_nonneg; lra | lra]).
  assert (E0 : 0 <= sum_of e M) by now apply sum_nonneg.
  split.
  - intros E. assert (PA : 0 <= penalty * sum_of u (unmatched (map fst M) (length gt))) by (apply Rmult_le_pos; lra).
    assert (PB : 0 <= penalty * sum_of v (unmatched (map snd M) (length pr))) by (apply Rmult_le_pos; lra).
    assert (E1 : sum_of e M = 0) by lra.
    assert (EA : sum_of u (unmatched (map fst M) (length gt)) = 0) by (apply (Rmult_eq_reg_l penalty); lra).
    assert (EB : sum_of v (unmatched (map snd M) (length pr)) = 0) by (apply (Rmult_eq_reg_l penalty); lra).
    split; [|split].
    + intros m I S. pose proof (sum_zero_inv e M e0 E1 m I) as Z. unfold e in Z. rewrite S in Z. now apply pair_zero in Z.
    + intros i L S. destruct (in_dec Nat.eq_dec i (map fst M)) as [I|I]; auto. exfalso.
      assert (Z : u i = 0) by (apply (sum_zero_inv u (unmatched (map fst M) (length gt))); auto; [intros; apply visible_nonneg | apply unmatched_In; auto]).
      apply visible_zero in Z. congruence.
    + intros i L S. destruct (in_dec Nat.eq_dec i (map snd M)) as [I|I]; auto. exfalso.
      assert (Z : v i = 0) by (apply (sum_zero_inv v (unmatched (map snd M) (length pr))); auto; [intros; apply visible_nonneg | apply unmatched_In; auto]).
      apply visible_zero in Z. congruence.
  - intros (F & G & P).
    rewrite (sum_zero e), (sum_zero u), (sum_zero v); try lra.
    + intros j J. apply unmatched_In in J. destruct J as [L J]. apply visible_zero. destruct (shows _) eqn:S; auto. now specialize (P j L S).
    + intros i I. apply unmatched_In in I. destruct I as [L I]. apply visible_zero. destruct (shows _) eqn:S; auto. now specialize (G i L S).
    + intros m I. unfold e. destruct (shows _) eqn:S; auto. apply pair_zero; auto.
Qed.
Theorem pem_zero assign n d penalty fs : solves assign -> 0 < d -> d <= 10000000000 -> (0 < n)%nat -> 0 < penalty -> Forall (sane_frame n) fs ->
  pem assign n d penalty fs = Ok 0 <->
  forall f, In f fs -> matched_to (matching_ids assign d (f_boxes f) (f_gt f) (f_pr f) n) (f_gt f) (f_pr f).
Proof.
  intros HS D0 D1 HN HP F. assert (HP' : 0 <= penalty) by lra. rewrite pem_value_sum by auto.
  destruct (sums assign n d penalty HP' fs) as ((A & B) & C).
  assert (Z : sum_of (err assign n d penalty) fs = 0 <-> forall f, In f fs -> err assign n d penalty f = 0).
  { split; [|intros H; now apply sum_zero]. intros E. apply sum_zero_inv; auto. intros f _. now apply frame_bounds. }
  transitivity (sum_of (err assign n d penalty) fs = 0).
  - unfold mean_of. destruct (Req_EM_T _ _) as [E|E].
    + rewrite E in B. split; auto. intros _. lra.
    + split.
      * intros V. injection V as V. unfold Rdiv in V. apply Rmult_integral in V. destruct V as [V|V]; auto. exfalso. apply (Rinv_neq_0_compat _ E V).
      * intros ->. f_equal. unfold Rdiv. ring.
  - rewrite Z. split; intros H f I; [apply (frame_zero penalty) | apply frame_zero]; auto; now apply H.
Qed.

(** ** Perfect predictions *)
Lemma same_shows n g p : length g = n -> length p = n -> same_pose g p -> shows g = shows p.
Proof.
  revert g p. induction n as [|n IH]; intros [|a g] [|b p]; try discriminate; auto. intros L1 L2 H. cbn [shows existsb].
  destruct (H (a, b) (or_introl eq_refl)) as [E _]. cbn [fst snd] in E. unfold shows in *. rewrite E. f_equal. apply IH; try (cbn in *; lia).
  intros kk I. apply H. now right.
Qed.
Lemma same_close d n g p : 0 < d -> length g = n -> length p = n -> same_pose g p -> shows p = true -> close_people d g p.
Proof.
  intros D. revert g p. induction n as [|n IH]; intros [|a g] [|b p]; try discriminate. intros L1 L2 H S.
  destruct (H (a, b) (or_introl eq_refl)) as [E P]. cbn [fst snd] in E, P. destruct (visible b) eqn:V.
  - exists (a, b). cbn [fst snd]. repeat split; auto; [now left|]. rewrite P by auto. rewrite (proj2 (dist3_zero _ _)); auto.
  - destruct (IH g p) as (kk & I & X); try (cbn in *; lia).
    + intros kk I. apply H. now right.
    + cbn [shows existsb] in S. rewrite V in S. exact S.
    + exists kk. split; [now right | auto].
Qed.
Theorem perfect_matched assign d boxes gt pr n M0 : solves assign -> 0 < d -> d <= 10000000000 -> (0 < n)%nat -> Forall sane_box boxes ->
  rectangular n gt -> rectangular n pr -> perfect d boxes gt pr M0 -> matched_to (matching_ids assign d boxes gt pr n) gt pr.
Proof.
  intros HS D0 D1 HN HB RG RP (MM & MP & MG & MR).
  pose proof (match_one_to_one assign d boxes gt pr n HS D0 D1 HN HB RG RP) as OO.
  pose proof (fun m => match_shows assign d boxes gt pr n m HS D0 D1 HN HB RG RP) as SH.
  destruct (match_stages assign d boxes gt pr n HS D0 D1 HN HB RG RP) as (fi & se & E & F & _ & _ & G & O). rewrite E in *.
  assert (P : 0 < d * INR n) by (apply Rmult_lt_0_compat; auto; apply lt_0_INR; lia).
  (* the first pass matches nothing *)
  assert (NF : fi = []).
  { destruct fi as [|m fi]; auto. exfalso. destruct (F m (or_introl eq_refl)) as ((_ & FA) & IN).
    assert (I : In m (se ++ m :: fi)) by (apply in_app_iff; right; now left). pose proof (SH m I) as S. destruct OO as (_ & _ & OB). destruct (OB m I) as [_ L].
    pose proof (MR (snd m) L S) as J. apply in_map_iff in J. destruct J as (k & E1 & J). destruct (MP k J) as (_ & SP & _). destruct MM as (_ & _ & MB). destruct (MB k J) as [L1 L2].
    rewrite E1 in *. apply (FA (person_at gt (fst k))); [now apply nth_In|].
    apply (same_close d n); auto; now apply rect_at. }
  subst fi. rewrite app_nil_r in *.
  destruct OO as (O1 & O2 & OB). destruct MM as (M1 & M2 & MB).
  assert (OK := O M0 (conj M1 (conj M2 MB))). clear O.
  assert (OK' : sum_of (fun m => d * INR n - pair_error d (person_at gt (fst m)) (person_at pr (snd m))) M0 <=
                sum_of (fun m => d * INR n - pair_error d (person_at gt (fst m)) (person_at pr (snd m))) se).
  { apply OK; [intros a b _ [] | intros m I; now apply MP]. }
  clear OK.
  rewrite (sum_ext _ (fun _ : nat * nat => d * INR n) M0) in OK'.
  2:{ intros m I. destruct (MP m I) as (_ & SP & _). apply (pair_zero d) in SP; auto. rewrite SP. lra. }
  rewrite sum_const in OK'.
  rewrite (sum_minus (d * INR n) (fun m : nat * nat => pair_error d (person_at gt (fst m)) (person_at pr (snd m))) se) in OK'.
  (* every prediction of the second pass is matched in M0 *)
  assert (IN : incl (map snd se) (map snd M0)).
  { intros j J. apply in_map_iff in J. destruct J as (m & <- & J). apply MR; [now apply OB | now apply SH]. }
  assert (LE : (length se <= length M0)%nat).
  { apply NoDup_incl_length in IN; auto. now rewrite !map_length in IN. }
  assert (N0 : forall m, In m se -> 0 <= pair_error d (person_at gt (fst m)) (person_at pr (snd m))) by (intros; apply pair_nonneg; lra).
  pose proof (sum_nonneg _ se N0) as S0.
  assert (LI : INR (length se) <= INR (length M0)) by now apply le_INR.
  assert (EQ : length se = length M0 /\ sum_of (fun m : nat * nat => pair_error d (person_at gt (fst m)) (person_at pr (snd m))) se = 0).
  { split.
    - destruct (Nat.eq_dec (length se) (length M0)) as [X|X]; auto. exfalso.
      assert (Y : (length se + 1 <= length M0)%nat) by lia. apply le_INR in Y. rewrite plus_INR in Y. cbn in Y.
      assert (d * INR n * INR (length se) + d * INR n <= d * INR n * INR (length M0)) by (rewrite <- (Rmult_1_r (d * INR n)) at 2; rewrite <- Rmult_plus_distr_l; apply Rmult_le_compat_l; lra).
      lra.
    - assert (d * INR n * INR (length se) <= d * INR n * INR (length M0)) by (apply Rmult_le_compat_l; lra). lra. }
  destruct EQ as [EL ES]. pose proof (sum_zero_inv _ se N0 ES) as Z.
  assert (SP : forall m, In m se -> same_pose (person_at gt (fst m)) (person_at pr (snd m))) by (intros m I; apply (pair_zero d); auto).
  split; [|split].
  - intros m I _. now apply SP.
  - intros i L S. pose proof (MG i L S) as J.
    assert (IG : incl (map fst se) (map fst M0)).
    { intros k K. apply in_map_iff in K. destruct K as (m & <- & K). destruct (OB m K) as [L1 L2]. apply MG; auto.
      rewrite (same_shows n _ _ (rect_at _ _ _ RG L1) (rect_at _ _ _ RP L2) (SP m K)). now apply SH. }
    apply (NoDup_length_incl O1 (l' := map fst M0)); auto. rewrite !map_length. lia.
  - intros j L S. pose proof (MR j L S) as J. apply (NoDup_length_incl O2 (l' := map snd M0)); auto. rewrite !map_length. lia.
Qed.
Theorem pem_perfect assign n d penalty fs : solves assign -> 0 < d -> d <= 10000000000 -> (0 < n)%nat -> 0 < penalty -> Forall (sane_frame n) fs ->
  (forall f, In f fs -> exists M, perfect d (f_boxes f) (f_gt f) (f_pr f) M) -> pem assign n d penalty fs = Ok 0.
Proof.
  intros HS D0 D1 HN HP F H. apply pem_zero; auto. intros f I. destruct (H f I) as (M & HM). pose proof (proj1 (Forall_forall _ _) F f I) as (A & B & C).
  now apply (perfect_matched assign d (f_boxes f) (f_gt f) (f_pr f) n M).
Qed.

(** ** Ids out of range *)
Lemma gather_err {A} (t : list A) ids : (exists i, In i ids /\ (length t <= i)%nat) -> gather t ids = Err IndexError.
Proof.
  intros (i & I & L). unfold gather. induction ids as [|j ids IH]; [destruct I|]. cbn [mapM]. destruct (nth_error t j) eqn:E; [|reflexivity].
  destruct I as [<-|I]; [apply nth_error_None in L; congruence|]. cbn [bind]. rewrite IH by auto. reflexivity.
Qed.
Theorem reorder_out_of_range n gt pr ids : (exists m, In m ids /\ ((length gt <= fst m)%nat \/ (length pr <= snd m)%nat)) ->
  reorder n gt pr ids = Err IndexError.
Proof.
  intros (m & I & [L|L]).
  - unfold reorder, select_ids. rewrite gather_err; auto. exists (fst m). rewrite map_length. split; auto. now apply in_map.
  - unfold reorder. destruct (select_ids ids (map has_visible gt)) as [v|e] eqn:S.
    + cbn [bind]. unfold missing_ids at 1. destruct (existsb _ _); cbn [bind]; [reflexivity|]. unfold missing_ids at 1.
      rewrite (proj2 (existsb_exists _ _)); [reflexivity|]. exists (snd m). split; [apply in_app_iff; left; now apply in_map | now apply Nat.leb_le].
    + cbn [bind]. unfold select_ids in S. destruct (gather (map has_visible gt) (map fst ids)) as [ms|e'] eqn:G; [discriminate|]. cbn [bind] in S. injection S as <-.
      clear -G. unfold gather in G. revert G. generalize (map fst ids). intros l. induction l as [|i l IH]; [discriminate|]. cbn [mapM].
      destruct (nth_error _ i); cbn [bind]; [|now intros [= ->]]. destruct (mapM _ l) eqn:M; [discriminate|]. cbn [bind]. intros [= ->]. now apply IH.
Qed.
