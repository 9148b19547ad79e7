(** Proofs about the likelihood estimators. *)
From Coq Require Import QArith Qfield Lqa Permutation Setoid.
From Verif Require Import Base NdArray NdArrayProofs MonadLib ListLib EstimatorModel EstimatorSpec.
Open Scope Q_scope.

(** * Lists indexed by a grid *)

Section Grid.
  Context {A : Type}.
  Local Open Scope nat_scope.

  Definition grid (b n : nat) (g : nat -> nat -> A) : list A :=
    flat_map (fun i => map (g i) (seq 0 n)) (seq 0 b).

  Lemma grid_from_length s b n g :
    length (flat_map (fun i => map (g i : nat -> A) (seq 0 n)) (seq s b)) = b * n.
  Proof.
    revert s. induction b as [|b IH]; intros s; [reflexivity|]. cbn [seq flat_map].
    rewrite app_length, map_length, seq_length, IH. lia.
  Qed.

  Lemma grid_length b n g : length (grid b n g) = b * n.
  Proof. apply grid_from_length. Qed.

  Lemma nth_map_seq0 (f : nat -> A) n k d : k < n -> nth k (map f (seq 0 n)) d = f k.
  Proof.
    intros H. rewrite (nth_indep _ d (f 0)) by (rewrite map_length, seq_length; exact H).
    rewrite map_nth, seq_nth by exact H. reflexivity.
  Qed.

  Lemma grid_from_nth s b n g d : forall i k, i < b -> k < n ->
    nth (i * n + k) (flat_map (fun i => map (g i : nat -> A) (seq 0 n)) (seq s b)) d = g (s + i) k.
  Proof.
    revert s. induction b as [|b IH]; intros s i k Hi Hk; [lia|]. cbn [seq flat_map].
    destruct i as [|i].
    - cbn [Nat.mul Nat.add]. rewrite app_nth1 by (rewrite map_length, seq_length; exact Hk).
      rewrite nth_map_seq0 by exact Hk. f_equal; lia.
    - rewrite app_nth2; rewrite map_length, seq_length; [|nia].
      replace (S i * n + k - n) with (i * n + k) by nia. rewrite IH by lia. f_equal; lia.
  Qed.

  Lemma grid_nth b n g d i k : i < b -> k < n -> nth (i * n + k) (grid b n g) d = g i k.
  Proof. intros Hi Hk. unfold grid. rewrite grid_from_nth by assumption. reflexivity. Qed.

  (** Every index of a grid is the index of a pair. *)
  Lemma grid_index b n j : j < b * n -> exists i k, i < b /\ k < n /\ j = i * n + k.
  Proof.
    intros H. assert (n <> 0) by nia. exists (j / n), (j mod n). repeat split.
    - apply Nat.div_lt_upper_bound; nia.
    - now apply Nat.mod_upper_bound.
    - rewrite (Nat.div_mod j n) at 1 by assumption. lia.
  Qed.

  Lemma tabulate_grid (f : nat -> A) b n :
    map f (seq 0 (b * n)) = grid b n (fun i k => f (i * n + k)).
  Proof.
    destruct (Nat.eq_dec (b * n) 0) as [E|E].
    - rewrite E. cbn. assert (length (grid b n (fun i k => f (i * n + k))) = 0) as L by (rewrite grid_length; exact E).
      destruct (grid b n _); [reflexivity|discriminate].
    - apply (nth_ext _ _ (f 0) (f 0)).
      + rewrite grid_length, map_length, seq_length. reflexivity.
      + rewrite map_length, seq_length. intros j Hj.
        destruct (grid_index b n j Hj) as (i & k & Hi & Hk & ->).
        rewrite nth_map_seq0 by exact Hj. rewrite grid_nth by assumption. reflexivity.
  Qed.
End Grid.

Lemma map_grid {A B} (f : A -> B) b n g : map f (grid b n g) = grid b n (fun i k => f (g i k)).
Proof.
  unfold grid. generalize (seq 0 b). induction l as [|i l IH]; [reflexivity|].
  cbn [flat_map]. rewrite map_app, IH, map_map. reflexivity.
Qed.

Lemma flat_map_app_perm {A B} (f g : A -> list B) l :
  Permutation (flat_map (fun a => f a ++ g a) l) (flat_map f l ++ flat_map g l).
Proof.
  induction l as [|a l IH]; [constructor|]. cbn [flat_map]. rewrite IH.
  rewrite <- !app_assoc. apply Permutation_app_head.
  rewrite !app_assoc. apply Permutation_app_tail. apply Permutation_app_comm.
Qed.

Lemma flat_map_nil {A B} (l : list A) : flat_map (fun _ => @nil B) l = [].
Proof. induction l as [|a l IH]; [reflexivity|exact IH]. Qed.

Lemma flat_map_swap {A B C} (f : A -> B -> list C) la lb :
  Permutation (flat_map (fun a => flat_map (f a) lb) la) (flat_map (fun b => flat_map (fun a => f a b) la) lb).
Proof.
  induction la as [|a la IH].
  - cbn. rewrite flat_map_nil. constructor.
  - cbn [flat_map]. rewrite IH. symmetry. apply (flat_map_app_perm (f a)).
Qed.

Lemma flat_map_ext_in' {A B} (f g : A -> list B) l : (forall a, In a l -> f a = g a) -> flat_map f l = flat_map g l.
Proof.
  induction l as [|a l IH]; intros H; [reflexivity|]. cbn [flat_map].
  rewrite (H a) by (cbn; auto). rewrite IH; [reflexivity|]. intros b Hb. apply H. cbn. auto.
Qed.

Lemma flat_map_single {A B} (f : A -> B) l : flat_map (fun a => [f a]) l = map f l.
Proof. induction l as [|a l IH]; [reflexivity|]. cbn. now rewrite IH. Qed.

(** * Rows *)

Lemma nth_skipn_q n : forall (l : list Q) j d, nth j (skipn n l) d = nth (n + j) l d.
Proof.
  induction n as [|n IH]; intros l j d; [reflexivity|]. destruct l as [|a l].
  - rewrite skipn_nil. destruct j; reflexivity.
  - cbn [skipn Nat.add nth]. apply IH.
Qed.

Lemma nth_firstn_q n : forall (l : list Q) j d, (j < n)%nat -> nth j (firstn n l) d = nth j l d.
Proof.
  induction n as [|n IH]; intros l j d H; [lia|]. destruct l as [|a l]; [reflexivity|].
  rewrite firstn_cons. destruct j as [|j]; [reflexivity|]. cbn [nth]. apply IH. lia.
Qed.

Lemma row_of_eq b k data i : length data = (b * k)%nat -> (i < b)%nat ->
  row_of k data i = map (fun j => nth (i * k + j) data 0) (seq 0 k).
Proof.
  intros L H. assert (length (row_of k data i) = k) as Lr.
  { unfold row_of. rewrite firstn_length, skipn_length, L. nia. }
  apply (nth_ext _ _ 0 0).
  - rewrite Lr, map_length, seq_length. reflexivity.
  - rewrite Lr. intros j Hj. unfold row_of.
    rewrite nth_firstn_q, nth_skipn_q, nth_map_seq0 by exact Hj. reflexivity.
Qed.

Lemma row_of_length b k data i : length data = (b * k)%nat -> (i < b)%nat -> length (row_of k data i) = k.
Proof. intros L H. rewrite (row_of_eq b) by assumption. rewrite map_length, seq_length. reflexivity. Qed.

Lemma row_of_map f b k data i : length data = (b * k)%nat -> (i < b)%nat ->
  row_of k (map f data) i = map f (row_of k data i).
Proof. intros _ _. unfold row_of. rewrite skipn_map, firstn_map. reflexivity. Qed.

(** * Transposed tensors *)

Lemma perm_102 : is_perm_pair 3 [1; 0; 2]%nat [1; 0; 2]%nat.
Proof. split; [reflexivity|]. split; [reflexivity|]. split; intros i Hi; destruct i as [|[|[|i]]]; cbn; lia. Qed.
Lemma perm_120 : is_perm_pair 3 [1; 2; 0]%nat [2; 0; 1]%nat.
Proof. split; [reflexivity|]. split; [reflexivity|]. split; intros i Hi; destruct i as [|[|[|i]]]; cbn; lia. Qed.
Lemma perm_210 : is_perm_pair 3 [2; 1; 0]%nat [2; 1; 0]%nat.
Proof. split; [reflexivity|]. split; [reflexivity|]. split; intros i Hi; destruct i as [|[|[|i]]]; cbn; lia. Qed.
Lemma perm_10 : is_perm_pair 2 [1; 0]%nat [1; 0]%nat.
Proof. split; [reflexivity|]. split; [reflexivity|]. split; intros i Hi; destruct i as [|[|i]]; cbn; lia. Qed.

Lemma valid3 R O T r o t : (r < R)%nat -> (o < O)%nat -> (t < T)%nat -> valid_index [R; O; T] [r; o; t].
Proof. intros. repeat constructor; assumption. Qed.

Section Transposed.
  Variables (R O T : nat) (data : list Q).
  Local Open Scope nat_scope.

  Lemma nth_102 r o t : r < R -> o < O -> t < T ->
    nth (o * (R * T) + (r * T + t)) (transpose 0%Q [R; O; T] [1; 0; 2] data) 0%Q =
    nth ((r * O + o) * T + t) data 0%Q.
  Proof.
    intros Hr Ho Ht. pose proof (nth_transpose 0%Q 3 [R; O; T] [1;0;2] [1;0;2] data [r; o; t] perm_102 eq_refl eq_refl
      (valid3 _ _ _ _ _ _ Hr Ho Ht)) as E.
    cbn [permute map nth ravel prodl fold_right] in E.
    replace (o * (R * T) + (r * T + t)) with (o * (R * (T * 1)) + (r * (T * 1) + (t * 1 + 0))) by ring.
    rewrite E. f_equal. ring.
  Qed.

  Lemma nth_120 r o t : r < R -> o < O -> t < T ->
    nth ((o * T + t) * R + r) (transpose 0%Q [R; O; T] [1; 2; 0] data) 0%Q =
    nth ((r * O + o) * T + t) data 0%Q.
  Proof.
    intros Hr Ho Ht. pose proof (nth_transpose 0%Q 3 [R; O; T] [1;2;0] [2;0;1] data [r; o; t] perm_120 eq_refl eq_refl
      (valid3 _ _ _ _ _ _ Hr Ho Ht)) as E.
    cbn [permute map nth ravel prodl fold_right] in E.
    replace ((o * T + t) * R + r) with (o * (T * (R * 1)) + (t * (R * 1) + (r * 1 + 0))) by ring.
    rewrite E. f_equal. ring.
  Qed.

  Lemma nth_210 r o t : r < R -> o < O -> t < T ->
    nth (t * (O * R) + (o * R + r)) (transpose 0%Q [R; O; T] [2; 1; 0] data) 0%Q =
    nth ((r * O + o) * T + t) data 0%Q.
  Proof.
    intros Hr Ho Ht. pose proof (nth_transpose 0%Q 3 [R; O; T] [2;1;0] [2;1;0] data [r; o; t] perm_210 eq_refl eq_refl
      (valid3 _ _ _ _ _ _ Hr Ho Ht)) as E.
    cbn [permute map nth ravel prodl fold_right] in E.
    replace (t * (O * R) + (o * R + r)) with (t * (O * (R * 1)) + (o * (R * 1) + (r * 1 + 0))) by ring.
    rewrite E. f_equal. ring.
  Qed.
End Transposed.

Lemma nth_10 {A} (d : A) n m (data : list A) i j : (i < n)%nat -> (j < m)%nat ->
  nth (j * n + i) (transpose d [n; m] [1; 0]%nat data) d = nth (i * m + j) data d.
Proof.
  intros Hi Hj. assert (valid_index [n; m] [i; j]) as V by (repeat constructor; assumption).
  pose proof (nth_transpose d 2 [n; m] [1;0]%nat [1;0]%nat data [i; j] perm_10 eq_refl eq_refl V) as E.
  cbn [permute map nth ravel prodl fold_right] in E.
  replace (j * n + i)%nat with (j * (n * 1) + (i * 1 + 0))%nat by ring.
  rewrite E. f_equal. ring.
Qed.

(** * One value at a time *)

Definition hist_one (c : histogram_config) (samples : list Q) (v : Q) : option Q :=
  categorical_prob (map (fun n => n + smoothing c) (histogram c (map (clip c) samples)))
    (argmax (histogram c [clip c v])).

Definition bernoulli_config (a : Q) : histogram_config :=
  {| min_val := -1 # 2; max_val := 3 # 2; num_bins := 2; smoothing := a |}.

Definition est_one (gauss : Q -> Q) (e : estimator) (samples : list Q) (v : Q) : option Q :=
  match e with
  | Histogram c => hist_one c samples v
  | KernelDensity h => Some (kernel_score gauss h samples v)
  | Bernoulli a => hist_one (bernoulli_config a) samples v
  | NoEstimator => None
  end.

Lemma histogram_estimate_ok c lt st b n m ld sd :
  lt = {| t_dtype := DFloat; t_shape := [b; n]; t_data := ld |} ->
  st = {| t_dtype := DFloat; t_shape := [b; m]; t_data := sd |} ->
  num_bins c <> O -> b <> O -> length ld = (b * n)%nat -> length sd = (b * m)%nat ->
  histogram_estimate c lt st = Ok (grid b n (fun i k => hist_one c (row_of m sd i) (nth (i * n + k) ld 0))).
Proof.
  intros -> -> Hc Hb Ll Ls. unfold histogram_estimate, batch_size_of. cbn [t_shape t_dtype t_data is_bool].
  rewrite Nat.eqb_refl. cbn [bind orb is_bool t_dtype].
  rewrite (proj2 (Nat.eqb_neq _ _) Hc), (proj2 (Nat.eqb_neq _ _) Hb).
  f_equal. unfold sample_size, grid. cbn [t_shape nth].
  apply flat_map_ext_in'. intros i Hi. apply in_seq in Hi. apply map_ext_in. intros k Hk. apply in_seq in Hk.
  unfold hist_one. rewrite nth_map_seq0 by lia. rewrite (row_of_map _ b) by (try assumption; lia).
  f_equal. rewrite map_map.
  rewrite (nth_indep _ O (argmax (histogram c [clip c 0]))) by (rewrite map_length, Ll; nia).
  exact (map_nth (fun v => argmax (histogram c [clip c v])) ld 0 (i * n + k)).
Qed.

Lemma kernel_estimate_ok gauss h lt st b n m :
  t_shape lt = [b; n] -> t_shape st = [b; m] -> 0 < h -> m <> O -> n <> O -> length (t_data lt) = (b * n)%nat ->
  kernel_density_estimate gauss h lt st =
    Ok (grid b n (fun i k => Some (kernel_score gauss h (row_of m (t_data st) i) (nth (i * n + k) (t_data lt) 0)))).
Proof.
  intros El Es Hh Hm Hn Ll. unfold kernel_density_estimate, batch_size_of.
  destruct (Qle_bool h 0) eqn:E; [apply Qle_bool_iff in E; lra|]. rewrite El, Es, Nat.eqb_refl. cbn [bind].
  unfold sample_size. rewrite El, Es. cbn [nth].
  rewrite (proj2 (Nat.eqb_neq _ _) Hm), (proj2 (Nat.eqb_neq _ _) Hn). cbn [orb]. rewrite Bool.andb_false_r.
  f_equal. unfold grid. apply flat_map_ext_in'. intros i Hi. apply in_seq in Hi.
  rewrite (row_of_eq b n) by (try assumption; lia). rewrite map_map. reflexivity.
Qed.

Lemma estimate_ok gauss e lt st b n m :
  usable e lt st ->
  t_shape lt = [b; n] -> t_shape st = [b; m] -> b <> O -> n <> O -> m <> O ->
  length (t_data lt) = (b * n)%nat -> length (t_data st) = (b * m)%nat ->
  estimate gauss e lt st =
    Ok (grid b n (fun i k => est_one gauss e (row_of m (t_data st) i) (nth (i * n + k) (t_data lt) 0))).
Proof.
  intros U El Es Hb Hn Hm Ll Ls. destruct lt as [dl shl ld], st as [ds shs sd]. cbn [t_shape t_data t_dtype] in *.
  subst shl shs. destruct e as [c|h|a|]; cbn [usable estimate est_one] in *; cbn [t_dtype] in *.
  - destruct U as (-> & -> & Hc). erewrite histogram_estimate_ok; eauto.
  - erewrite kernel_estimate_ok; eauto.
  - destruct U as (-> & ->). unfold bernoulli_estimate. cbn [is_bool t_dtype negb t_shape t_data].
    refine (histogram_estimate_ok (bernoulli_config a) _ _ b n m ld sd eq_refl eq_refl _ Hb Ll Ls). discriminate.
  - contradiction.
Qed.

Lemma estimate_usable gauss e lt st r : estimate gauss e lt st = Ok r -> usable e lt st.
Proof.
  destruct e as [c|h|a|]; cbn [estimate usable]; [| | |discriminate].
  - unfold histogram_estimate. intros H. dbind H b Eb.
    unfold is_bool in H. destruct (t_dtype lt), (t_dtype st); cbn in H; try discriminate.
    destruct (num_bins c); [discriminate|]. auto.
  - unfold kernel_density_estimate. intros H. destruct (Qle_bool h 0) eqn:E; [discriminate|].
    destruct (Qlt_le_dec 0 h) as [L|L]; [exact L|]. apply Qle_bool_iff in L. congruence.
  - unfold bernoulli_estimate, is_bool. intros H. destruct (t_dtype lt), (t_dtype st); cbn in H; try discriminate. auto.
Qed.

(** * Bins *)

Lemma qnat_S n : qnat (S n) == qnat n + 1.
Proof. unfold qnat. rewrite Nat2Z.inj_succ, <- Z.add_1_r, inject_Z_plus. reflexivity. Qed.

Lemma qnat_pos n : n <> O -> 0 < qnat n.
Proof.
  intros H. unfold qnat. change 0 with (inject_Z 0). rewrite <- Zlt_Qlt. lia.
Qed.

Lemma qnat_nonneg n : 0 <= qnat n.
Proof. unfold qnat. change 0 with (inject_Z 0). rewrite <- Zle_Qle. lia. Qed.

Lemma qnat_le n m : (n <= m)%nat -> qnat n <= qnat m.
Proof. intros H. unfold qnat. rewrite <- Zle_Qle. lia. Qed.

Lemma qnat_add n m : qnat (n + m) == qnat n + qnat m.
Proof. unfold qnat. rewrite Nat2Z.inj_add, inject_Z_plus. reflexivity. Qed.

Lemma count_total {A} (P : A -> Prop) (f : A -> bool) l :
  (forall a, In a l -> (f a = true <-> P a)) -> count P l (length (filter f l)).
Proof.
  induction l as [|a l IH]; intros H; cbn [filter]; [constructor|].
  assert (count P l (length (filter f l))) as C by (apply IH; intros b Hb; apply H; cbn; auto).
  destruct (f a) eqn:E.
  - cbn [length]. constructor; [|exact C]. apply H; cbn; auto.
  - constructor; [|exact C]. intros HP. apply (H a) in HP; [congruence|cbn; auto].
Qed.

Lemma count_fun {A} (P : A -> Prop) l n : count P l n -> forall m, count P l m -> n = m.
Proof.
  induction 1 as [|a l n Ha Hc IH|a l n Ha Hc IH]; intros m Hm; inversion Hm; subst; auto; contradiction.
Qed.

Lemma count_perm {A} (P : A -> Prop) l l' : Permutation l l' -> forall n, count P l n -> count P l' n.
Proof.
  induction 1 as [|a l l' HP IH|a b l|l1 l2 l3 H1 IH1 H2 IH2]; intros n H; auto.
  - inversion H; subst; [apply count_yes|apply count_no]; auto.
  - inversion H as [|? ? ? Ha Hc|? ? ? Ha Hc]; subst; inversion Hc; subst;
      repeat first [apply count_yes; [assumption|] | apply count_no; [assumption|]]; assumption.
Qed.

Lemma count_ext {A} (P P' : A -> Prop) l n : (forall a, In a l -> (P a <-> P' a)) -> count P l n -> count P' l n.
Proof.
  intros H HC. induction HC as [|a l n Ha Hc IH|a l n Ha Hc IH]; constructor; try (apply IH; intros b Hb; apply H; cbn; auto).
  - apply (H a); cbn; auto.
  - intros HP. apply Ha. apply (H a); cbn; auto.
Qed.

Lemma count_le {A} (P : A -> Prop) l n : count P l n -> (n <= length l)%nat.
Proof. induction 1; cbn [length]; lia. Qed.

Section Bins.
  Variable c : histogram_config.
  Hypothesis Hle : min_val c <= max_val c.
  Hypothesis Hn : num_bins c <> O.
  Notation lo := (min_val c).
  Notation hi := (max_val c).
  Notation n := (num_bins c).

  Lemma edge_scaled i : edge c i * qnat n == lo * qnat n + (hi - lo) * qnat i.
  Proof using Hn.
    unfold edge. fold (qnat i). fold (qnat n). pose proof (qnat_pos n Hn). field. lra.
  Qed.

  Lemma edge_le_iff i x : edge c i <= x <-> lo * qnat n + (hi - lo) * qnat i <= x * qnat n.
  Proof using Hn.
    rewrite <- edge_scaled. pose proof (qnat_pos n Hn) as P. symmetry. apply Qmult_le_r. exact P.
  Qed.

  Lemma edge_0 : edge c 0 == lo.
  Proof using Hn. unfold edge. cbn [Z.of_nat]. pose proof (qnat_pos n Hn). unfold qnat in *. field. lra. Qed.

  Lemma edge_n : edge c n == hi.
  Proof using Hn. unfold edge. pose proof (qnat_pos n Hn). unfold qnat in *. field. lra. Qed.

  Lemma edge_mono i j : (i <= j)%nat -> edge c i <= edge c j.
  Proof using Hle Hn.
    intros H. apply edge_le_iff. rewrite edge_scaled. pose proof (qnat_le _ _ H). 
    assert (0 <= (hi - lo) * (qnat j - qnat i)) by (apply Qmult_le_0_compat; lra). lra.
  Qed.

  Lemma clip_nearest x : nearest lo hi x (clip c x).
  Proof using Hle Hn.
    unfold clip, nearest. destruct (Qle_bool x hi) eqn:E1.
    - apply Qle_bool_iff in E1. destruct (Qle_bool lo x) eqn:E2.
      + apply Qle_bool_iff in E2. right. left. split; [lra|reflexivity].
      + left. split; [|reflexivity]. destruct (Qlt_le_dec x lo) as [L|L]; [exact L|].
        apply Qle_bool_iff in L. congruence.
    - assert (hi < x) as L. { destruct (Qlt_le_dec hi x) as [L|L]; [exact L|]. apply Qle_bool_iff in L. congruence. }
      destruct (Qle_bool lo hi) eqn:E2; [right; right; split; [exact L|reflexivity]|].
      apply Qle_bool_iff in Hle. congruence.
  Qed.

  Lemma nearest_unique x y z : nearest lo hi x y -> nearest lo hi x z -> y == z.
  Proof using Hle Hn.
    unfold nearest. intros [(A & B)|[(A & B)|(A & B)]] [(A' & B')|[(A' & B')|(A' & B')]]; lra.
  Qed.

  Lemma clip_range x : lo <= clip c x <= hi.
  Proof using Hle Hn. destruct (clip_nearest x) as [(A & B)|[(A & B)|(A & B)]]; lra. Qed.

  Lemma in_bin_compat k x y : x == y -> in_bin lo hi n k x -> in_bin lo hi n k y.
  Proof using. clear Hle Hn. unfold in_bin. intros E (A & B & C). rewrite <- E. auto. Qed.

  Lemma in_bin_unique k k' x : in_bin lo hi n k x -> in_bin lo hi n k' x -> k = k'.
  Proof using Hle Hn.
    assert (forall k k', (k < k')%nat -> in_bin lo hi n k x -> in_bin lo hi n k' x -> False) as W.
    { intros a b Hab (A1 & A2 & A3) (B1 & B2 & B3). destruct A3 as [A3|(A3 & _)]; [|lia].
      assert (qnat (S a) <= qnat b) as Q by (apply qnat_le; lia).
      assert (0 <= (hi - lo) * (qnat b - qnat (S a))) by (apply Qmult_le_0_compat; lra). lra. }
    intros A B. destruct (Nat.lt_trichotomy k k') as [L|[L|L]]; [exfalso; eauto|exact L|exfalso; eauto].
  Qed.

  (** Counting a predicate that holds on a prefix. *)
  Lemma filter_prefix (p : nat -> bool) s m :
    (forall i, p (S i) = true -> p i = true) ->
    let k := length (filter p (seq s m)) in
    (k <= m)%nat /\ (forall i, (s <= i < s + m)%nat -> (p i = true <-> (i < s + k)%nat)).
  Proof using. clear Hle Hn.
    intros M. revert s. induction m as [|m IH]; intros s; cbn [seq filter]; [cbn; split; [lia|intros; lia]|].
    specialize (IH (S s)). cbn zeta in IH. destruct IH as (IH1 & IH2). destruct (p s) eqn:E.
    - cbn [length]. split; [lia|]. intros i Hi. destruct (Nat.eq_dec i s) as [->|D]; [split; [lia|auto]|].
      rewrite IH2 by lia. lia.
    - assert (forall i, (s <= i)%nat -> p i = false) as Z.
      { intros i Hi. induction Hi as [|i Hi IHi]; [exact E|]. destruct (p (S i)) eqn:F; [|reflexivity].
        apply M in F. congruence. }
      assert (filter p (seq (S s) m) = []) as Em.
      { destruct (filter p (seq (S s) m)) as [|a f] eqn:F; [reflexivity|].
        assert (In a (filter p (seq (S s) m))) as I by (rewrite F; cbn; auto).
        apply filter_In in I. destruct I as (I & J). apply in_seq in I. rewrite Z in J by lia. discriminate. }
      rewrite Em. cbn. split; [lia|]. intros i Hi. rewrite Z by lia. split; [discriminate|lia].
  Qed.

  Lemma find_bin_spec x : lo <= x <= hi -> exists k, find_bin c x = Some k /\ in_bin lo hi n k x.
  Proof using Hle Hn.
    intros Hx. unfold find_bin. pose proof edge_0 as E0. pose proof edge_n as En.
    assert (Qle_bool (edge c 0) x = true) as -> by (apply Qle_bool_iff; lra).
    assert (Qle_bool x (edge c n) = true) as -> by (apply Qle_bool_iff; lra). cbn [negb orb].
    destruct (filter_prefix (fun i => Qle_bool (edge c i) x) 1 (n - 1)) as (K1 & K2).
    { intros i H. apply Qle_bool_iff in H. apply Qle_bool_iff. pose proof (edge_mono i (S i)). 
      assert (edge c i <= edge c (S i)) by (apply edge_mono; lia). lra. }
    set (k := length (filter _ _)) in *. exists k. split; [reflexivity|]. unfold in_bin. split; [lia|]. split.
    - destruct (Nat.eq_dec k 0) as [Z|Z].
      + apply edge_le_iff. rewrite Z. lra.
      + apply edge_le_iff. apply Qle_bool_iff. apply K2; lia.
    - destruct (Nat.eq_dec (S k) n) as [Z|Z]; [right; split; [exact Z|lra]|]. left.
      destruct (Qlt_le_dec (x * qnat n) (lo * qnat n + (hi - lo) * qnat (S k))) as [L|L]; [exact L|].
      apply edge_le_iff in L. apply Qle_bool_iff in L. apply K2 in L; lia.
  Qed.

  Lemma find_bin_iff x k : find_bin c (clip c x) = Some k <->
    exists z, nearest lo hi x z /\ in_bin lo hi n k z.
  Proof using Hle Hn.
    destruct (find_bin_spec (clip c x) (clip_range x)) as (k' & E & B). rewrite E. split.
    - intros H. injection H as <-. exists (clip c x). split; [apply clip_nearest|exact B].
    - intros (z & N & I). f_equal. apply (in_bin_unique k' k (clip c x) B).
      eapply in_bin_compat; [|exact I]. apply (nearest_unique x); [exact N|apply clip_nearest].
  Qed.

  (** ** The value's own bin *)

  Lemma argmax_stay l : forall i best v, (forall x, In x l -> x <= v) -> argmax_from i best v l = best.
  Proof using. clear Hle Hn.
    induction l as [|x l IH]; intros i best v H; cbn [argmax_from]; [reflexivity|].
    assert (Qle_bool x v = true) as -> by (apply Qle_bool_iff; apply H; cbn; auto).
    apply IH. intros y Hy. apply H. cbn. auto.
  Qed.

  Lemma argmax_find l1 : forall i best v x l2, v < x -> (forall y, In y l1 -> y < x) ->
    (forall y, In y l2 -> y <= x) -> argmax_from i best v (l1 ++ x :: l2) = (i + length l1)%nat.
  Proof using. clear Hle Hn.
    induction l1 as [|y l1 IH]; intros i best v x l2 Hv H1 H2; cbn [app argmax_from length].
    - destruct (Qle_bool x v) eqn:E; [apply Qle_bool_iff in E; lra|]. rewrite argmax_stay by exact H2. lia.
    - assert (forall z, In z l1 -> z < x) as H1' by (intros z Hz; apply H1; cbn; auto).
      destruct (Qle_bool y v); rewrite IH; auto; try lia. apply H1. cbn. auto.
  Qed.

  Lemma argmax_unique l1 x l2 : (forall y, In y l1 -> y < x) -> (forall y, In y l2 -> y <= x) ->
    argmax (l1 ++ x :: l2) = length l1.
  Proof using. clear Hle Hn.
    intros H1 H2. destruct l1 as [|y l1]; cbn [app argmax].
    - apply argmax_stay. exact H2.
    - rewrite argmax_find; [cbn [length]; lia|apply H1; cbn; auto|intros z Hz; apply H1; cbn; auto|exact H2].
  Qed.

  Lemma argmax_histogram v k : find_bin c v = Some k -> (k < n)%nat -> argmax (histogram c [v]) = k.
  Proof using. clear Hle Hn.
    intros E Hk. unfold histogram.
    set (f := fun j => inject_Z (Z.of_nat (length (filter _ [v])))).
    assert (forall j, f j = if Nat.eqb k j then 1 else 0) as F.
    { intros j. unfold f. cbn [filter]. rewrite E. destruct (Nat.eqb k j); reflexivity. }
    replace n with (k + S (n - k - 1))%nat by lia. rewrite seq_app, map_app. cbn [Nat.add seq map].
    rewrite argmax_unique.
    - rewrite map_length, seq_length. reflexivity.
    - intros y Hy. apply in_map_iff in Hy. destruct Hy as (j & <- & Hj). apply in_seq in Hj. rewrite !F.
      rewrite Nat.eqb_refl. destruct (Nat.eqb_spec k j); [lia|]. lra.
    - intros y Hy. apply in_map_iff in Hy. destruct Hy as (j & <- & Hj). apply in_seq in Hj. rewrite !F.
      rewrite Nat.eqb_refl. destruct (Nat.eqb_spec k j); [lia|]. lra.
  Qed.

  (** ** Totals *)

  Lemma qsum_zero {A} (f : A -> Q) l : (forall a, In a l -> f a == 0) -> qsum (map f l) == 0.
  Proof using. clear Hle Hn.
    induction l as [|a l IH]; intros H; [reflexivity|]. cbn [map]. unfold qsum in *. cbn [fold_right].
    rewrite (H a), IH; [ring| |cbn; auto]. intros b Hb. apply H. cbn. auto.
  Qed.

  Lemma qsum_plus {A} (f g : A -> Q) l : qsum (map (fun a => f a + g a) l) == qsum (map f l) + qsum (map g l).
  Proof using. clear Hle Hn.
    induction l as [|a l IH]; [reflexivity|]. cbn [map]. unfold qsum in *. cbn [fold_right]. rewrite IH. ring.
  Qed.

  Lemma qsum_ext {A} (f g : A -> Q) l : (forall a, In a l -> f a == g a) -> qsum (map f l) == qsum (map g l).
  Proof using. clear Hle Hn.
    induction l as [|a l IH]; intros H; [reflexivity|]. cbn [map]. unfold qsum in *. cbn [fold_right].
    rewrite (H a), IH; [reflexivity| |cbn; auto]. intros b Hb. apply H. cbn. auto.
  Qed.

  Lemma qsum_const {A} (a : Q) (l : list A) : qsum (map (fun _ => a) l) == qnat (length l) * a.
  Proof using. clear Hle Hn.
    induction l as [|b l IH]; [cbn; reflexivity|]. cbn [map length]. unfold qsum in *. cbn [fold_right].
    rewrite IH, qnat_S. ring.
  Qed.

  Lemma qsum_indicator k s m : (s <= k < s + m)%nat ->
    qsum (map (fun j => if Nat.eqb k j then 1 else 0) (seq s m)) == 1.
  Proof using. clear Hle Hn.
    revert s. induction m as [|m IH]; intros s H; [lia|]. cbn [seq map]. unfold qsum in *. cbn [fold_right].
    destruct (Nat.eqb_spec k s) as [->|D].
    - fold (qsum (map (fun j => if Nat.eqb s j then 1 else 0) (seq (S s) m))). rewrite qsum_zero; [ring|].
      intros j Hj. apply in_seq in Hj. destruct (Nat.eqb_spec s j); [lia|reflexivity].
    - rewrite IH by lia. ring.
  Qed.

  Definition bin_count (samples : list Q) (k : nat) : nat :=
    length (filter (fun x => match find_bin c x with Some j => Nat.eqb j k | None => false end) samples).

  Lemma histogram_total samples : (forall x, In x samples -> lo <= x <= hi) ->
    qsum (map (fun k => qnat (bin_count samples k)) (seq 0 n)) == qnat (length samples).
  Proof using Hle Hn.
    induction samples as [|x l IH]; intros H.
    - apply qsum_zero. intros k _. reflexivity.
    - destruct (find_bin_spec x) as (k & E & (B & _)); [apply H; cbn; auto|].
      rewrite (qsum_ext _ (fun j => (if Nat.eqb k j then 1 else 0) + qnat (bin_count l j))).
      + rewrite qsum_plus, qsum_indicator, IH by (try lia; intros y Hy; apply H; cbn; auto).
        cbn [length]. rewrite qnat_S. ring.
      + intros j _. unfold bin_count. cbn [filter]. rewrite E. destruct (Nat.eqb k j); cbn [length].
        * rewrite qnat_S. ring.
        * ring.
  Qed.

  Lemma hist_one_spec samples v : histogram_likelihood c samples v (hist_one c samples v).
  Proof using Hle Hn.
    destruct (find_bin_spec (clip c v) (clip_range v)) as (k & E & B).
    pose proof B as (Hk & _).
    exists k, (bin_count (map (clip c) samples) k), (clip c v).
    split; [apply clip_nearest|]. split; [exact B|]. split.
    - unfold bin_count.
      assert (forall l, length (filter (fun x => match find_bin c x with Some j => Nat.eqb j k | None => false end)
                                 (map (clip c) l)) =
                length (filter (fun x => match find_bin c (clip c x) with Some j => Nat.eqb j k | None => false end) l)) as L.
      { induction l as [|a l IH]; [reflexivity|]. cbn [map filter].
        destruct (match find_bin c (clip c a) with Some j => Nat.eqb j k | None => false end); cbn [length]; lia. }
      rewrite L. apply count_total. intros a _. rewrite <- find_bin_iff.
      destruct (find_bin c (clip c a)) as [j|]; [|split; discriminate].
      rewrite Nat.eqb_eq. split; [now intros ->|congruence].
    - unfold hist_one. rewrite (argmax_histogram _ k) by assumption.
      assert (map (fun n0 => n0 + smoothing c) (histogram c (map (clip c) samples)) =
              map (fun j => qnat (bin_count (map (clip c) samples) j) + smoothing c) (seq 0 n)) as Em.
      { unfold histogram. rewrite map_map. reflexivity. }
      rewrite Em.
      assert (qsum (map (fun j => qnat (bin_count (map (clip c) samples) j) + smoothing c) (seq 0 n)) ==
              qnat (length samples) + qnat n * smoothing c) as T.
      { rewrite qsum_plus, qsum_const, histogram_total, map_length, seq_length; [reflexivity|].
        intros x Hx. apply in_map_iff in Hx. destruct Hx as (y & <- & _). apply clip_range. }
      unfold categorical_prob. destruct (Qeq_bool _ 0) eqn:Z.
      + apply Qeq_bool_iff in Z. cbn [ratio]. rewrite <- T. exact Z.
      + cbn [ratio]. rewrite <- T. apply Qeq_bool_neq in Z. split; [exact Z|].
        rewrite nth_map_seq0 by exact Hk. field. exact Z.
  Qed.
End Bins.

(** * Likelihood of one value *)

Definition bit (v : Q) : Prop := v = 0 \/ v = 1.

Lemma bernoulli_bin v k z : bit v -> nearest (-1 # 2) (3 # 2) v z ->
  (in_bin (-1 # 2) (3 # 2) 2 k z <-> (v = 0 /\ k = O) \/ (v = 1 /\ k = 1%nat)).
Proof.
  intros B N. assert (z == v) as E.
  { destruct B as [-> | ->]; destruct N as [(A & C)|[(A & C)|(A & C)]]; lra. }
  assert (qnat 2 == 2) as Q2 by reflexivity. unfold in_bin. rewrite E, Q2.
  destruct k as [|[|k]].
  - assert (qnat 0 == 0) as -> by reflexivity. assert (qnat 1 == 1) as -> by reflexivity. split.
    + intros (_ & _ & [H|(H & _)]); [|lia]. left. split; [|reflexivity]. destruct B as [-> | ->]; [reflexivity|lra].
    + intros [(-> & _)|(_ & H)]; [|discriminate]. split; [lia|]. split; [lra|]. left. lra.
  - assert (qnat 1 == 1) as -> by reflexivity. assert (qnat 2 == 2) as -> by reflexivity. split.
    + intros (_ & H & _). right. split; [|reflexivity]. destruct B as [-> | ->]; [lra|reflexivity].
    + intros [(_ & H)|(-> & _)]; [discriminate|]. split; [lia|]. split; [lra|]. right. split; [reflexivity|lra].
  - split; [intros (H & _); lia|]. intros [(_ & H)|(_ & H)]; discriminate.
Qed.

Lemma bernoulli_one_spec a samples v : bit v -> (forall s, In s samples -> bit s) ->
  bernoulli_likelihood a samples v (hist_one (bernoulli_config a) samples v).
Proof.
  intros Hv Hs. assert (min_val (bernoulli_config a) <= max_val (bernoulli_config a)) as Hle by (cbn; lra).
  destruct (hist_one_spec (bernoulli_config a) Hle ltac:(discriminate) samples v)
    as (k & n & y & N & B & C & R). cbn [bernoulli_config min_val max_val num_bins smoothing] in *.
  exists n. split.
  - refine (count_ext _ _ _ _ _ C). intros s Is. pose proof (Hs s Is) as Bs.
    rewrite (bernoulli_bin v k y Hv N) in B. split.
    + intros (z & Nz & Bz). rewrite (bernoulli_bin s k z Bs Nz) in Bz.
      destruct B as [(-> & ->)|(-> & ->)], Bz as [(-> & E)|(-> & E)]; try reflexivity; discriminate.
    + intros ->. exists y. split; [exact N|]. apply (bernoulli_bin v k y Hv N). exact B.
  - assert (qnat 2 == 2) as Q2 by reflexivity.
    destruct (hist_one (bernoulli_config a) samples v) as [q|]; cbn [ratio] in *; rewrite Q2 in R; exact R.
Qed.

Lemma kernel_one_spec gauss h samples v : samples <> [] ->
  kernel_likelihood gauss h samples v (Some (kernel_score gauss h samples v)).
Proof.
  intros H. exists (kernel_score gauss h samples v). split; [reflexivity|]. split; [exact H|].
  unfold kernel_score. fold (qnat (length samples)). unfold qsum. field.
  pose proof (qnat_pos (length samples)). destruct samples; [contradiction|]. cbn [length] in *.
  specialize (H0 ltac:(discriminate)). lra.
Qed.

Lemma fold_plus_perm l l' : Permutation l l' -> fold_right Qplus 0 l == fold_right Qplus 0 l'.
Proof.
  induction 1 as [|a l l' H IH|a b l|l1 l2 l3 H1 IH1 H2 IH2]; cbn [fold_right].
  - reflexivity.
  - rewrite IH. reflexivity.
  - ring.
  - rewrite IH1. exact IH2.
Qed.

(** The order of the samples is irrelevant. *)
Lemma likelihood_perm gauss e samples samples' v r : Permutation samples samples' ->
  likelihood gauss e samples v r -> likelihood gauss e samples' v r.
Proof.
  intros P. pose proof (Permutation_length P) as L. destruct e as [c|h|a|]; cbn [likelihood].
  - intros (k & n & y & N & B & C & R). exists k, n, y. rewrite <- L. repeat split; try assumption; try apply B.
    eapply count_perm; eauto.
  - intros (q & -> & Hn & E). exists q. split; [reflexivity|]. split.
    + intros ->. apply Hn. apply Permutation_nil. symmetry. exact P.
    + rewrite <- L, E. apply fold_plus_perm. apply Permutation_map. exact P.
  - intros (n & C & R). exists n. rewrite <- L. split; [eapply count_perm; eauto|exact R].
  - auto.
Qed.

(** * The population of a value *)

Section Populations.
  Variables (f : feature_config) (R O T : nat) (s : tensor).
  Hypothesis Hs : t_shape s = [R; O; T].
  Notation at_ := (sim_at O T s).

  Lemma transpose_size p q : is_perm_pair 3 p q -> length (t_data (transpose_tensor p s)) = (R * O * T)%nat.
  Proof using Hs.
    intros H. unfold transpose_tensor. cbn [t_data]. rewrite transpose_length, (prodl_permute 3 p q) by (try exact H; rewrite Hs; reflexivity).
    rewrite Hs. unfold prodl. cbn [fold_right]. ring.
  Qed.

  Lemma row_102 o : (o < O)%nat ->
    row_of (R * T) (t_data (transpose_tensor [1;0;2]%nat s)) o = grid R T (fun r t => at_ r o t).
  Proof using Hs.
    intros Ho. rewrite (row_of_eq O) by (try exact Ho; rewrite (transpose_size _ _ perm_102); ring).
    rewrite tabulate_grid. unfold grid. apply flat_map_ext_in'. intros r Hr. apply in_seq in Hr.
    apply map_ext_in. intros t Ht. apply in_seq in Ht. cbn [transpose_tensor t_data]. rewrite Hs.
    apply nth_102; lia.
  Qed.

  Lemma row_120 o t : (o < O)%nat -> (t < T)%nat ->
    row_of R (t_data (transpose_tensor [1;2;0]%nat s)) (o * T + t) = map (fun r => at_ r o t) (seq 0 R).
  Proof using Hs.
    intros Ho Ht. rewrite (row_of_eq (O * T)) by (try nia; rewrite (transpose_size _ _ perm_120); ring).
    apply map_ext_in. intros r Hr. apply in_seq in Hr. cbn [transpose_tensor t_data]. rewrite Hs.
    apply nth_120; lia.
  Qed.

  Lemma row_210 t : (t < T)%nat ->
    row_of (O * R) (t_data (transpose_tensor [2;1;0]%nat s)) t = grid O R (fun o r => at_ r o t).
  Proof using Hs.
    intros Ht. rewrite (row_of_eq T) by (try exact Ht; rewrite (transpose_size _ _ perm_210); ring).
    rewrite tabulate_grid. unfold grid. apply flat_map_ext_in'. intros o Ho. apply in_seq in Ho.
    apply map_ext_in. intros r Hr. apply in_seq in Hr. cbn [transpose_tensor t_data]. rewrite Hs.
    apply nth_210; lia.
  Qed.

  Lemma row_all : row_of (O * R * T) (t_data (transpose_tensor [1;0;2]%nat s)) 0 =
    flat_map (fun o => grid R T (fun r t => at_ r o t)) (seq 0 O).
  Proof using Hs.
    rewrite (row_of_eq 1) by (try lia; rewrite (transpose_size _ _ perm_102); ring).
    replace (O * R * T)%nat with (O * (R * T))%nat by ring. rewrite tabulate_grid. unfold grid at 1.
    apply flat_map_ext_in'. intros o Ho. apply in_seq in Ho. rewrite tabulate_grid.
    unfold grid. apply flat_map_ext_in'. intros r Hr. apply in_seq in Hr.
    apply map_ext_in. intros t Ht. apply in_seq in Ht. cbn [transpose_tensor t_data]. rewrite Hs.
    cbn [Nat.mul Nat.add]. apply nth_102; lia.
  Qed.

  Lemma flat_map_one {A B} (g : A -> list B) a : flat_map g [a] = g a.
  Proof using. cbn. apply app_nil_r. Qed.

  (** The four populations, in the order of the code. *)
  Lemma pop_agent_independent o t : independent_timesteps f = true -> aggregate_objects f = false ->
    population f R O T s o t = grid R T (fun r t => at_ r o t).
  Proof using.
    intros E1 E2. unfold population, grid. rewrite E1, E2. apply flat_map_ext_in'. intros r _.
    exact (flat_map_one (fun o' => map (fun t' => at_ r o' t') (seq 0 T)) o).
  Qed.

  Lemma pop_agent_dependent o t : independent_timesteps f = false -> aggregate_objects f = false ->
    population f R O T s o t = map (fun r => at_ r o t) (seq 0 R).
  Proof using.
    intros E1 E2. unfold population. rewrite E1, E2. rewrite <- flat_map_single. apply flat_map_ext_in'. intros r _.
    exact (flat_map_one (fun o' => map (fun t' => at_ r o' t') [t]) o).
  Qed.

  Lemma pop_scene_independent o t : independent_timesteps f = true -> aggregate_objects f = true ->
    Permutation (flat_map (fun o => grid R T (fun r t => at_ r o t)) (seq 0 O)) (population f R O T s o t).
  Proof using.
    intros E1 E2. unfold population. rewrite E1, E2. unfold grid.
    apply (flat_map_swap (fun o' r => map (fun t' => at_ r o' t') (seq 0 T))).
  Qed.

  Lemma pop_scene_dependent o t : independent_timesteps f = false -> aggregate_objects f = true ->
    Permutation (grid O R (fun o r => at_ r o t)) (population f R O T s o t).
  Proof using.
    intros E1 E2. unfold population, grid. rewrite E1, E2.
    rewrite (flat_map_ext_in' (fun i => map (fun r => at_ r i t) (seq 0 R))
               (fun o' => flat_map (fun r => [at_ r o' t]) (seq 0 R))) by (intros; now rewrite flat_map_single).
    apply (flat_map_swap (fun o' r => [at_ r o' t])).
  Qed.
End Populations.

(** * The estimators on whole tensors *)

Lemma shape_eqb_spec a b : shape_eqb a b = true <-> a = b.
Proof. unfold shape_eqb. destruct (list_eq_dec _ _ _); split; congruence. Qed.

Lemma usable_dtype e l s l' s' : t_dtype l = t_dtype l' -> t_dtype s = t_dtype s' -> usable e l s -> usable e l' s'.
Proof. intros E1 E2. destruct e; cbn [usable]; rewrite <- ?E1, <- ?E2; auto. Qed.

Lemma reshape_ok sh t : prodl sh = length (t_data t) ->
  reshape sh t = Ok {| t_dtype := t_dtype t; t_shape := sh; t_data := t_data t |}.
Proof. intros H. unfold reshape. rewrite H, Nat.eqb_refl. reflexivity. Qed.

Lemma reshape_result_ok sh l : prodl sh = length l -> reshape_result sh l = Ok l.
Proof. intros H. unfold reshape_result. rewrite H, Nat.eqb_refl. reflexivity. Qed.

Lemma prodl1 a b : prodl [a; b] = (a * b)%nat.
Proof. unfold prodl. cbn [fold_right]. ring. Qed.

(** The value computed by the code for each object and step. *)
Definition row_for (f : feature_config) (R O T : nat) (s : tensor) (o t : nat) : list Q :=
  if aggregate_objects f
  then if independent_timesteps f
       then row_of (O * R * T) (t_data (transpose_tensor [1;0;2]%nat s)) 0
       else row_of (O * R) (t_data (transpose_tensor [2;1;0]%nat s)) t
  else if independent_timesteps f
       then row_of (R * T) (t_data (transpose_tensor [1;0;2]%nat s)) o
       else row_of R (t_data (transpose_tensor [1;2;0]%nat s)) (o * T + t).

Lemma row_for_population f R O T s o t : t_shape s = [R; O; T] -> (o < O)%nat -> (t < T)%nat ->
  Permutation (row_for f R O T s o t) (population f R O T s o t).
Proof.
  intros Hs Ho Ht. unfold row_for.
  destruct (aggregate_objects f) eqn:E2, (independent_timesteps f) eqn:E1.
  - rewrite (row_all R O T) by exact Hs. apply pop_scene_independent; assumption.
  - rewrite (row_210 R O T) by assumption. apply pop_scene_dependent; assumption.
  - rewrite (row_102 R O T) by assumption. rewrite pop_agent_independent by assumption. constructor || apply Permutation_refl.
  - rewrite (row_120 R O T) by assumption. rewrite pop_agent_dependent by assumption. apply Permutation_refl.
Qed.

Lemma timeseries_value gauss f l s R O T :
  t_shape l = [O; T] -> t_shape s = [R; O; T] ->
  length (t_data l) = volume (t_shape l) -> length (t_data s) = volume (t_shape s) ->
  R <> 0%nat -> O <> 0%nat -> T <> 0%nat -> usable (estimator_of f) l s ->
  exists res, estimate_timeseries gauss f l s = Ok res /\ length res = (O * T)%nat /\
    forall o t, (o < O)%nat -> (t < T)%nat ->
      nth (o * T + t) res None = est_one gauss (estimator_of f) (row_for f R O T s o t) (log_at T l o t).
Proof.
  intros El Es Ll Ls HR HO HT U. rewrite El in Ll. unfold volume in Ll. cbn [fold_right] in Ll.
  assert (length (t_data l) = (O * T)%nat) as Ll' by (rewrite Ll; ring). clear Ll.
  unfold estimate_timeseries, row_for. destruct (aggregate_objects f).
  - unfold scene_level. rewrite El, Es, (proj2 (shape_eqb_spec _ _) eq_refl). cbn [negb].
    assert (length (t_data (transpose_tensor [1; 0]%nat l)) = (O * T)%nat) as Lt.
    { unfold transpose_tensor. cbn [t_data]. rewrite transpose_length, El. unfold permute, prodl. cbn [map nth fold_right]. ring. }
    destruct (independent_timesteps f).
    + rewrite reshape_ok by (rewrite prodl1, (transpose_size R O T s Es _ _ perm_102); ring). cbn [bind].
      rewrite reshape_ok by (rewrite prodl1, Lt; ring). cbn [bind fst snd].
      erewrite estimate_ok with (b := 1%nat); [|eapply usable_dtype; [..|exact U]; reflexivity|reflexivity|reflexivity
        |discriminate|nia|nia|cbn [t_data]; rewrite Lt; ring|cbn [t_data]; rewrite (transpose_size R O T s Es _ _ perm_102); ring].
      cbn [bind t_data]. rewrite reshape_result_ok by (rewrite prodl1, grid_length; ring). cbn [bind].
      eexists. split; [reflexivity|]. split.
      { rewrite transpose_length. unfold permute, prodl. cbn [map nth fold_right]. ring. }
      intros o t Ho Ht. rewrite nth_10 by assumption.
      replace (t * O + o)%nat with (0 * (O * T) + (t * O + o))%nat by ring.
      rewrite grid_nth by nia. f_equal. cbn [Nat.mul Nat.add].
      cbn [transpose_tensor t_data]. rewrite El. apply (nth_10 0 O T (t_data l) o t Ho Ht).
    + rewrite reshape_ok by (rewrite prodl1, (transpose_size R O T s Es _ _ perm_210); ring). cbn [bind fst snd].
      erewrite estimate_ok with (b := T) (n := O) (m := (O * R)%nat); [|eapply usable_dtype; [..|exact U]; reflexivity
        |cbn [transpose_tensor t_shape]; rewrite El; reflexivity|reflexivity
        |assumption|assumption|nia|rewrite Lt; ring|cbn [t_data]; rewrite (transpose_size R O T s Es _ _ perm_210); ring].
      cbn [bind t_data]. rewrite reshape_result_ok by (rewrite prodl1, grid_length; ring). cbn [bind].
      eexists. split; [reflexivity|]. split.
      { rewrite transpose_length. unfold permute, prodl. cbn [map nth fold_right]. ring. }
      intros o t Ho Ht. rewrite nth_10 by assumption. rewrite grid_nth by assumption. f_equal.
      cbn [transpose_tensor t_data]. rewrite ?El. apply (nth_10 0 O T (t_data l) o t Ho Ht).
  - unfold agent_level. rewrite El, Es, (proj2 (shape_eqb_spec _ _) eq_refl). cbn [negb].
    destruct (independent_timesteps f).
    + rewrite reshape_ok by (rewrite prodl1, (transpose_size R O T s Es _ _ perm_102); ring). cbn [bind fst snd].
      erewrite estimate_ok with (b := O); [|eapply usable_dtype; [..|exact U]; reflexivity|exact El|reflexivity
        |assumption|assumption|nia|exact Ll'|cbn [t_data]; rewrite (transpose_size R O T s Es _ _ perm_102); ring].
      cbn [bind t_data]. rewrite reshape_result_ok by (rewrite prodl1, grid_length; ring).
      eexists. split; [reflexivity|]. split; [apply grid_length|].
      intros o t Ho Ht. rewrite grid_nth by assumption. reflexivity.
    + rewrite reshape_ok by (rewrite prodl1, (transpose_size R O T s Es _ _ perm_120); ring). cbn [bind].
      rewrite reshape_ok by (rewrite prodl1, Ll'; ring). cbn [bind fst snd].
      erewrite estimate_ok with (b := (O * T)%nat); [|eapply usable_dtype; [..|exact U]; reflexivity|reflexivity|reflexivity
        |nia|discriminate|assumption|cbn [t_data]; rewrite Ll'; ring|cbn [t_data]; rewrite (transpose_size R O T s Es _ _ perm_120); ring].
      cbn [bind t_data]. rewrite reshape_result_ok by (rewrite prodl1, grid_length; ring).
      eexists. split; [reflexivity|]. split; [rewrite grid_length; ring|].
      intros o t Ho Ht. replace (o * T + t)%nat with ((o * T + t) * 1 + 0)%nat at 1 by ring.
      rewrite grid_nth by nia. unfold log_at. f_equal. f_equal. ring.
Qed.

(** * Main statements *)

Lemma est_one_likelihood gauss e l s samples v :
  usable e l s -> bounds_ok e -> samples <> [] ->
  (t_dtype l = DBool -> bit v) -> (t_dtype s = DBool -> forall x, In x samples -> bit x) ->
  likelihood gauss e samples v (est_one gauss e samples v).
Proof.
  intros U B Hn Hv Hx. destruct e as [c|h|a|]; cbn [usable bounds_ok likelihood est_one] in *.
  - destruct U as (_ & _ & Hc). apply hist_one_spec; [lra|exact Hc].
  - apply kernel_one_spec. exact Hn.
  - destruct U as (E1 & E2). apply bernoulli_one_spec; auto.
  - contradiction.
Qed.

Lemma population_bit f R O T s o t x : (t_dtype s = DBool -> forall v, In v (t_data s) -> v = 0 \/ v = 1) ->
  t_dtype s = DBool -> In x (population f R O T s o t) -> bit x.
Proof.
  intros H E I. unfold population in I. apply in_flat_map in I. destruct I as (r & _ & I).
  apply in_flat_map in I. destruct I as (o' & _ & I). apply in_map_iff in I. destruct I as (t' & <- & _).
  unfold sim_at. destruct (nth_in_or_default ((r * O + o') * T + t') (t_data s) 0) as [I|D].
  - exact (H E _ I).
  - rewrite D. left. reflexivity.
Qed.

Lemma population_nonempty f R O T s o t : R <> 0%nat -> O <> 0%nat -> T <> 0%nat ->
  population f R O T s o t <> [].
Proof.
  intros HR HO HT. unfold population. destruct R as [|R]; [contradiction|]. cbn [seq flat_map].
  destruct (aggregate_objects f), (independent_timesteps f), O as [|O], T as [|T]; try contradiction; cbn; discriminate.
Qed.

Lemma timeseries_spec gauss f l s R O T :
  tensor_ok l -> tensor_ok s -> t_shape l = [O; T] -> t_shape s = [R; O; T] ->
  R <> 0%nat -> O <> 0%nat -> T <> 0%nat ->
  usable (estimator_of f) l s -> bounds_ok (estimator_of f) ->
  exists res, estimate_timeseries gauss f l s = Ok res /\ length res = (O * T)%nat /\
    forall o t, (o < O)%nat -> (t < T)%nat ->
      exists r, nth_error res (o * T + t) = Some r /\
        likelihood gauss (estimator_of f) (population f R O T s o t) (log_at T l o t) r.
Proof.
  intros (Ll & Bl) (Ls & Bs) El Es HR HO HT U B.
  destruct (timeseries_value gauss f l s R O T El Es Ll Ls HR HO HT U) as (res & E & L & V).
  exists res. split; [exact E|]. split; [exact L|]. intros o t Ho Ht.
  exists (nth (o * T + t) res None). split; [apply nth_error_nth'; nia|]. rewrite V by assumption.
  pose proof (row_for_population f R O T s o t Es Ho Ht) as P.
  eapply likelihood_perm; [exact P|].
  apply (est_one_likelihood gauss _ l s); try assumption.
  - intros E0. rewrite E0 in P. apply Permutation_nil in P.
    exact (population_nonempty f R O T s o t HR HO HT P).
  - intros D. unfold log_at. destruct (nth_in_or_default (o * T + t) (t_data l) 0) as [I|Dv].
    + exact (Bl D _ I).
    + rewrite Dv. left. reflexivity.
  - intros D x Ix. apply (population_bit f R O T s o t x Bs D). eapply Permutation_in; eauto.
Qed.

Lemma scenario_level_spec gauss f l s R O :
  tensor_ok l -> tensor_ok s -> t_shape l = [O] -> t_shape s = [R; O] ->
  R <> 0%nat -> O <> 0%nat ->
  usable (estimator_of f) l s -> bounds_ok (estimator_of f) ->
  exists res, estimate_scenario_level gauss f l s = Ok res /\ length res = O /\
    forall o, (o < O)%nat ->
      exists r, nth_error res o = Some r /\
        likelihood gauss (estimator_of f) (population f R O 1 s o 0) (nth o (t_data l) 0) r.
Proof.
  intros (Ll & Bl) (Ls & Bs) El Es HR HO U B. unfold estimate_scenario_level. rewrite El, Es. cbn [app].
  set (l' := {| t_dtype := t_dtype l; t_shape := [O; 1%nat]; t_data := t_data l |}).
  set (s' := {| t_dtype := t_dtype s; t_shape := [R; O; 1%nat]; t_data := t_data s |}).
  rewrite El in Ll. rewrite Es in Ls. unfold volume in Ll, Ls. cbn [fold_right] in Ll, Ls.
  destruct (timeseries_spec gauss f l' s' R O 1) as (res & E & L & V); try assumption; try reflexivity; try discriminate.
  - split; [cbn; lia|exact Bl].
  - split; [cbn; lia|exact Bs].
  - exists res. split; [exact E|]. split; [lia|]. intros o Ho. destruct (V o 0%nat Ho ltac:(lia)) as (r & Er & Lr).
    exists r. replace (o * 1 + 0)%nat with o in Er by lia. split; [exact Er|].
    unfold log_at in Lr. replace (o * 1 + 0)%nat with o in Lr by lia. exact Lr.
Qed.

(** ** Errors *)

Lemma timeseries_needs gauss f l s res : estimate_timeseries gauss f l s = Ok res ->
  usable (estimator_of f) l s /\ exists R O T, t_shape l = [O; T] /\ t_shape s = [R; O; T].
Proof.
  unfold estimate_timeseries. destruct (aggregate_objects f).
  - unfold scene_level. intros H.
    destruct (t_shape l) as [|a [|b [|? ?]]] eqn:El; try discriminate.
    destruct (t_shape s) as [|R [|O [|T [|? ?]]]] eqn:Es; try discriminate.
    destruct (negb (shape_eqb [a; b] [O; T])) eqn:E; [discriminate|].
    apply Bool.negb_false_iff in E. apply shape_eqb_spec in E. injection E as -> ->.
    dbind H p Ep. dbind H r Er. apply estimate_usable in Er.
    split; [|exists R, O, T; auto]. destruct (independent_timesteps f).
    + dbind Ep st0 Est. dbind Ep lt0 Elt. injection Ep as <-. cbn [fst snd] in Er.
      unfold reshape in Est, Elt.
      destruct (Nat.eqb _ _) in Est; [|discriminate]. destruct (Nat.eqb _ _) in Elt; [|discriminate].
      injection Est as <-. injection Elt as <-. eapply usable_dtype; [..|exact Er]; reflexivity.
    + dbind Ep st0 Est. injection Ep as <-. cbn [fst snd] in Er. unfold reshape in Est.
      destruct (Nat.eqb _ _) in Est; [|discriminate].
      injection Est as <-. eapply usable_dtype; [..|exact Er]; reflexivity.
  - unfold agent_level. intros H.
    destruct (t_shape l) as [|a [|b [|? ?]]] eqn:El; try discriminate.
    destruct (t_shape s) as [|R [|O [|T [|? ?]]]] eqn:Es; try discriminate.
    destruct (negb (shape_eqb [a; b] [O; T])) eqn:E; [discriminate|].
    apply Bool.negb_false_iff in E. apply shape_eqb_spec in E. injection E as -> ->.
    dbind H p Ep. dbind H r Er. apply estimate_usable in Er.
    split; [|exists R, O, T; auto]. destruct (independent_timesteps f).
    + dbind Ep st0 Est. injection Ep as <-. cbn [fst snd] in Er. unfold reshape in Est.
      destruct (Nat.eqb _ _) in Est; [|discriminate].
      injection Est as <-. eapply usable_dtype; [..|exact Er]; reflexivity.
    + dbind Ep st0 Est. dbind Ep lt0 Elt. injection Ep as <-. cbn [fst snd] in Er.
      unfold reshape in Est, Elt.
      destruct (Nat.eqb _ _) in Est; [|discriminate]. destruct (Nat.eqb _ _) in Elt; [|discriminate].
      injection Est as <-. injection Elt as <-. eapply usable_dtype; [..|exact Er]; reflexivity.
Qed.

Lemma shape_mismatch gauss f l s R O T O' T' :
  t_shape l = [O'; T'] -> t_shape s = [R; O; T] -> [O'; T'] <> [O; T] ->
  estimate_timeseries gauss f l s = Err ValueError.
Proof.
  intros El Es D. unfold estimate_timeseries, scene_level, agent_level. rewrite El, Es.
  destruct (shape_eqb [O'; T'] [O; T]) eqn:E; [apply shape_eqb_spec in E; contradiction|].
  destruct (aggregate_objects f); reflexivity.
Qed.

(** ** Probabilities *)

Lemma ratio_unique num den r r' : ratio num den r -> ratio num den r' -> same_value r r'.
Proof.
  destruct r as [x|], r' as [y|]; cbn; auto.
  - intros (D & E) (_ & E'). apply (Qmult_inj_r x y den D). lra.
  - intros (D & _) E. contradiction.
  - intros E (D & _). contradiction.
Qed.

Lemma ratio_compat num den num' den' r : num == num' -> den == den' -> ratio num den r -> ratio num' den' r.
Proof. intros E1 E2. destruct r; cbn; rewrite <- E2; [rewrite <- E1|]; auto. Qed.

Lemma likelihood_unique gauss e samples v r r' : bounds_ok e ->
  likelihood gauss e samples v r -> likelihood gauss e samples v r' -> same_value r r'.
Proof.
  intros B. destruct e as [c|h|a|]; cbn [likelihood bounds_ok] in *; [| | |contradiction].
  - intros (k & n & y & N & I & C & Hr) (k' & n' & y' & N' & I' & C' & Hr').
    assert (min_val c <= max_val c) as Hle by lra.
    assert (num_bins c <> O) as Hn by (destruct I; lia).
    assert (y == y') as E by (apply (nearest_unique c Hle Hn v); assumption).
    assert (k' = k) as ->.
    { apply (in_bin_unique c Hle Hn k' k y'); [exact I'|]. eapply in_bin_compat; eauto. }
    rewrite (count_fun _ _ _ C' _ C) in Hr'. eapply ratio_unique; eauto.
  - intros (q & -> & Hn & E) (q' & -> & _ & E'). cbn.
    assert (0 < qnat (length samples)) as P by (apply qnat_pos; destruct samples; [contradiction|discriminate]).
    apply (Qmult_inj_r q q' (qnat (length samples))); lra.
  - intros (n & C & Hr) (n' & C' & Hr'). rewrite (count_fun _ _ _ C' _ C) in Hr'. eapply ratio_unique; eauto.
Qed.

Lemma share_bounds n m (a den : Q) q : (n <= m)%nat -> 0 <= a -> qnat m + a <= den ->
  ratio (qnat n + a) den (Some q) -> 0 <= q <= 1 /\ (0 < a -> 0 < q).
Proof.
  intros Hnm Ha Hd (D & E). pose proof (qnat_nonneg n) as Hn. pose proof (qnat_le _ _ Hnm) as Hq.
  assert (0 < den) as P.
  { destruct (Qlt_le_dec 0 den) as [L|L]; [exact L|]. exfalso. apply D. lra. }
  assert (forall u, u * den < 0 -> u < 0) as N0.
  { intros u Hu. destruct (Qlt_le_dec u 0) as [L|L]; [exact L|].
    assert (0 <= u * den) by (apply Qmult_le_0_compat; lra). lra. }
  repeat split.
  - destruct (Qlt_le_dec q 0) as [L|L]; [|exact L].
    assert (0 <= (- q) * den) by (apply Qmult_le_0_compat; lra).
    assert (0 < (- q) * den) by (apply Qmult_lt_0_compat; lra). lra.
  - destruct (Qlt_le_dec 1 q) as [L|L]; [|exact L].
    assert (0 < (q - 1) * den) by (apply Qmult_lt_0_compat; lra). lra.
  - intros Ha'. destruct (Qlt_le_dec 0 q) as [L|L]; [exact L|].
    assert (0 <= (- q) * den) by (apply Qmult_le_0_compat; lra). lra.
Qed.

Lemma mean_bounds l : (forall x, In x l -> 0 <= x <= 1) -> 0 <= fold_right Qplus 0 l <= qnat (length l).
Proof.
  induction l as [|x l IH]; intros H; cbn [fold_right length]; [change (qnat 0) with 0; lra|].
  rewrite qnat_S. assert (0 <= x <= 1) by (apply H; cbn; auto).
  assert (0 <= fold_right Qplus 0 l <= qnat (length l)) by (apply IH; intros y Hy; apply H; cbn; auto). lra.
Qed.

(** A likelihood is a number between 0 and 1, positive with smoothing. *)
Lemma likelihood_bounds gauss e samples v r :
  (forall u, 0 <= gauss u <= 1) -> bounds_ok e -> samples <> [] -> 0 <= smoothing_of e ->
  likelihood gauss e samples v r ->
  exists q, r = Some q /\ 0 <= q <= 1 /\ (0 < smoothing_of e -> 0 < q).
Proof.
  intros G B Hs Ha H. assert (0 < qnat (length samples)) as P.
  { apply qnat_pos. destruct samples; [contradiction|discriminate]. }
  destruct e as [c|h|a|]; cbn [likelihood bounds_ok smoothing_of] in *; [| | |contradiction].
  - destruct H as (k & n & y & N & I & C & Hr). apply count_le in C.
    assert (1 <= qnat (num_bins c)) as Hb. { change 1 with (qnat 1). apply qnat_le. destruct I. lia. }
    assert (0 <= (qnat (num_bins c) - 1) * smoothing c) as Hm by (apply Qmult_le_0_compat; lra).
    destruct r as [q|]; [|cbn in Hr; lra].
    exists q. split; [reflexivity|]. eapply share_bounds; [exact C|exact Ha| |exact Hr]. lra.
  - destruct H as (q & -> & _ & E). exists q. split; [reflexivity|].
    pose proof (mean_bounds (map (fun s => gauss ((v - s) / h)) samples)) as M.
    rewrite map_length in M. rewrite <- E in M. destruct M as (M1 & M2).
    { intros x Hx. apply in_map_iff in Hx. destruct Hx as (s & <- & _). apply G. }
    repeat split; [| |lra].
    + destruct (Qlt_le_dec q 0) as [L|L]; [|exact L].
      assert (0 < (- q) * qnat (length samples)) by (apply Qmult_lt_0_compat; lra). lra.
    + destruct (Qlt_le_dec 1 q) as [L|L]; [|exact L].
      assert (0 < (q - 1) * qnat (length samples)) by (apply Qmult_lt_0_compat; lra). lra.
  - destruct H as (n & C & Hr). apply count_le in C. destruct r as [q|]; [|cbn in Hr; lra].
    exists q. split; [reflexivity|]. eapply share_bounds; [exact C|exact Ha| |exact Hr]. lra.
Qed.

(** The likelihoods of one value per bin add up to one. *)
Lemma hist_one_bin c samples k v q : min_val c <= max_val c -> num_bins c <> O ->
  in_bin (min_val c) (max_val c) (num_bins c) k v ->
  histogram_likelihood c samples v (Some q) ->
  ratio (qnat (bin_count c (map (clip c) samples) k) + smoothing c)
        (qnat (length samples) + qnat (num_bins c) * smoothing c) (Some q).
Proof.
  intros Hle Hn I (k' & n & y & N & I' & C & Hr).
  assert (in_bin (min_val c) (max_val c) (num_bins c) k y) as Iy.
  { eapply in_bin_compat; [|exact I]. destruct I as (K & I1 & I2).
    pose proof (qnat_pos _ Hn) as P. pose proof (qnat_nonneg k) as Pk.
    assert (0 <= (max_val c - min_val c) * qnat k) by (apply Qmult_le_0_compat; lra).
    assert (min_val c <= v) as L1. { apply (Qmult_le_r _ _ (qnat (num_bins c)) P). lra. }
    assert (v <= max_val c) as L2.
    { destruct I2 as [I2|(_ & I2)]; [|exact I2]. apply (Qmult_le_r _ _ (qnat (num_bins c)) P).
      assert (qnat (S k) <= qnat (num_bins c)) by (apply qnat_le; lia).
      assert (0 <= (max_val c - min_val c) * (qnat (num_bins c) - qnat (S k))) by (apply Qmult_le_0_compat; lra). lra. }
    destruct N as [(A & D)|[(A & D)|(A & D)]]; lra. }
  assert (k' = k) as -> by (eapply (in_bin_unique c Hle Hn); eauto).
  assert (count (fun s => exists z, nearest (min_val c) (max_val c) s z /\
                   in_bin (min_val c) (max_val c) (num_bins c) k z) samples (bin_count c (map (clip c) samples) k)) as C'.
  { unfold bin_count.
    assert (forall l, length (filter (fun x => match find_bin c x with Some j => Nat.eqb j k | None => false end)
                               (map (clip c) l)) =
              length (filter (fun x => match find_bin c (clip c x) with Some j => Nat.eqb j k | None => false end) l)) as L.
    { induction l as [|a l IH]; [reflexivity|]. cbn [map filter].
      destruct (match find_bin c (clip c a) with Some j => Nat.eqb j k | None => false end); cbn [length]; lia. }
    rewrite L. apply count_total. intros a _. rewrite <- (find_bin_iff c Hle Hn).
    destruct (find_bin c (clip c a)) as [j|]; [|split; discriminate].
    rewrite Nat.eqb_eq. split; [now intros ->|congruence]. }
  rewrite (count_fun _ _ _ C _ C') in Hr. exact Hr.
Qed.

Lemma qsum_scaled (F : nat -> Q) (den : Q) qs : forall s, ~ den == 0 ->
  (forall k q, nth_error qs k = Some q -> q * den == F (s + k)%nat) ->
  qsum qs * den == qsum (map F (seq s (length qs))).
Proof.
  induction qs as [|q qs IH]; intros s D H; [cbn; ring|]. cbn [length seq map]. unfold qsum in *. cbn [fold_right].
  rewrite <- (IH (S s) D).
  - pose proof (H O q eq_refl) as E. rewrite Nat.add_0_r in E. rewrite <- E. ring.
  - intros k x Hk. rewrite (H (S k) x Hk). replace (S s + k)%nat with (s + S k)%nat by lia. reflexivity.
Qed.

Lemma histogram_simplex c samples vs qs :
  min_val c < max_val c -> num_bins c <> O -> samples <> [] -> 0 <= smoothing c ->
  length vs = num_bins c ->
  (forall k v, nth_error vs k = Some v -> in_bin (min_val c) (max_val c) (num_bins c) k v) ->
  Forall2 (fun v q => histogram_likelihood c samples v (Some q)) vs qs ->
  fold_right Qplus 0 qs == 1.
Proof.
  intros Hlt Hn Hs Ha Lv Hv HF. assert (min_val c <= max_val c) as Hle by lra.
  assert (0 < qnat (length samples)) as P by (apply qnat_pos; destruct samples; [contradiction|discriminate]).
  pose proof (qnat_pos _ Hn) as Pn.
  assert (0 <= qnat (num_bins c) * smoothing c) as Pm by (apply Qmult_le_0_compat; lra).
  set (den := qnat (length samples) + qnat (num_bins c) * smoothing c) in *.
  assert (~ den == 0) as D by (unfold den; lra).
  assert (length qs = num_bins c) as Lq by (rewrite <- Lv; symmetry; eapply ListLib.forall2_length; exact HF).
  pose proof (qsum_scaled (fun k => qnat (bin_count c (map (clip c) samples) k) + smoothing c) den qs 0 D) as E.
  rewrite Lq, qsum_plus, qsum_const, histogram_total, map_length, seq_length in E; try assumption.
  - apply (Qmult_inj_r _ _ den D). unfold qsum in E. rewrite E; [unfold den; ring|].
    intros k q Hk. destruct (Forall2_nth_r _ _ _ HF k q Hk) as (v & Ev & Hq).
    destruct (hist_one_bin c samples k v q Hle Hn (Hv k v Ev) Hq) as (_ & Er). exact Er.
  - intros x Hx. apply in_map_iff in Hx. destruct Hx as (y & <- & _). apply clip_range; assumption.
Qed.

(** ** Order of the rollouts *)

Lemma flat_map_perm {A B} (g : A -> list B) l l' : Permutation l l' -> Permutation (flat_map g l) (flat_map g l').
Proof.
  induction 1 as [|a l l' H IH|a b l|l1 l2 l3 H1 IH1 H2 IH2]; cbn [flat_map].
  - constructor.
  - apply Permutation_app_head. exact IH.
  - rewrite !app_assoc. apply Permutation_app_tail. apply Permutation_app_comm.
  - eapply Permutation_trans; eauto.
Qed.

Lemma flat_map_map {A B C} (g : B -> list C) (p : A -> B) l : flat_map (fun a => g (p a)) l = flat_map g (map p l).
Proof. induction l as [|a l IH]; [reflexivity|]. cbn. now rewrite IH. Qed.

Lemma population_perm f R O T s s' (p : nat -> nat) o t : (o < O)%nat -> (t < T)%nat ->
  Permutation (map p (seq 0 R)) (seq 0 R) ->
  (forall r o t, (r < R)%nat -> (o < O)%nat -> (t < T)%nat -> sim_at O T s' r o t = sim_at O T s (p r) o t) ->
  Permutation (population f R O T s' o t) (population f R O T s o t).
Proof.
  intros Ho Ht HP H. unfold population.
  rewrite (flat_map_ext_in' _ (fun r => flat_map (fun o' => map (fun t' => sim_at O T s (p r) o' t')
             (if independent_timesteps f then seq 0 T else [t])) (if aggregate_objects f then seq 0 O else [o]))).
  - rewrite (flat_map_map (fun r => flat_map (fun o' => map (fun t' => sim_at O T s r o' t')
             (if independent_timesteps f then seq 0 T else [t])) (if aggregate_objects f then seq 0 O else [o])) p).
    apply flat_map_perm. exact HP.
  - intros r Hr. apply in_seq in Hr. apply flat_map_ext_in'. intros o' Ho'. apply map_ext_in. intros t' Ht'.
    apply H; [lia| |].
    + destruct (aggregate_objects f); [apply in_seq in Ho'; lia|]. destruct Ho' as [<-|[]]. exact Ho.
    + destruct (independent_timesteps f); [apply in_seq in Ht'; lia|]. destruct Ht' as [<-|[]]. exact Ht.
Qed.

Lemma rollout_order gauss f l s s' R O T p res res' :
  tensor_ok l -> tensor_ok s -> tensor_ok s' ->
  t_shape l = [O; T] -> t_shape s = [R; O; T] -> t_shape s' = [R; O; T] -> t_dtype s' = t_dtype s ->
  R <> 0%nat -> O <> 0%nat -> T <> 0%nat -> bounds_ok (estimator_of f) ->
  Permutation (map p (seq 0 R)) (seq 0 R) ->
  (forall r o t, (r < R)%nat -> (o < O)%nat -> (t < T)%nat -> sim_at O T s' r o t = sim_at O T s (p r) o t) ->
  estimate_timeseries gauss f l s = Ok res -> estimate_timeseries gauss f l s' = Ok res' ->
  Forall2 same_value res res'.
Proof.
  intros Tl Ts Ts' El Es Es' Ed HR HO HT B HP H Hok Hok'.
  destruct (timeseries_needs _ _ _ _ _ Hok) as (U & _). destruct (timeseries_needs _ _ _ _ _ Hok') as (U' & _).
  destruct (timeseries_spec gauss f l s R O T Tl Ts El Es HR HO HT U B) as (x & Ex & Lx & Vx).
  destruct (timeseries_spec gauss f l s' R O T Tl Ts' El Es' HR HO HT U' B) as (y & Ey & Ly & Vy).
  rewrite Hok in Ex. rewrite Hok' in Ey. apply Ok_inj in Ex, Ey. subst x y.
  assert (forall j a b, nth_error res j = Some a -> nth_error res' j = Some b -> same_value a b) as K.
  { intros j a b Ha Hb. assert (j < O * T)%nat as Hj by (rewrite <- Lx; apply nth_error_Some; congruence).
    destruct (grid_index O T j Hj) as (o & t & Ho & Ht & ->).
    destruct (Vx o t Ho Ht) as (r & Er & Lr). destruct (Vy o t Ho Ht) as (r' & Er' & Lr').
    rewrite Er in Ha. rewrite Er' in Hb. injection Ha as <-. injection Hb as <-.
    eapply likelihood_unique; [exact B|exact Lr|]. eapply likelihood_perm; [|exact Lr'].
    apply (population_perm f R O T s s' p o t); assumption. }
  assert (length res = length res') as L by lia. clear -K L. revert res' K L.
  induction res as [|a res IH]; intros [|b res'] K L; try discriminate; constructor.
  - apply (K O); reflexivity.
  - apply IH; [|cbn in L; lia]. intros j. exact (K (S j)).
Qed.
