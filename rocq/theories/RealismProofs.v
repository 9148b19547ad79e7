(** Proofs about the realism scores. *)
From Coq Require Import QArith Reals Qreals Lia Lra Psatz Arith.
From Verif Require Import Base ResultLib EstimatorModel EstimatorSpec EstimatorProofs MetametricModel KinematicModel KinematicProofs RealismModel RealismSpec.
Open Scope list_scope.

(** * Sums of logarithms *)
Definition inside (q : Q) : Prop := (0 < q < 1)%Q.
Fixpoint total_ln (l : list Q) : R := match l with [] => 0%R | q :: l => (ln (Q2R q) + total_ln l)%R end.
Definition selected {A} (l : list A) (v : list bool) : list A := map fst (filter (fun p : A * bool => snd p) (combine l v)).

Lemma Q2R_inside q : inside q -> (0 < Q2R q < 1)%R.
Proof. intros [A B]. apply Qlt_Rlt in A, B. replace (Q2R 0) with 0%R in A by (unfold Q2R; cbn; lra). replace (Q2R 1) with 1%R in B by (unfold Q2R; cbn; lra). lra. Qed.

Lemma log_inside q : inside q -> log_of (Some q) = Finite (ln (Q2R q)).
Proof. intros [A B]. cbn. destruct (Qeq_bool q 0) eqn:E; [|reflexivity]. apply Qeq_bool_iff in E. rewrite E in A. discriminate. Qed.

Lemma sum_finite : forall l a, Forall inside l -> fold_left add (map log_of (map Some l)) (Finite a) = Finite (a + total_ln l).
Proof.
  induction l as [|q l IH]; intros a F; cbn [map fold_left total_ln]; [f_equal; lra|].
  inversion F; subst. rewrite log_inside by assumption. cbn [add]. rewrite IH by assumption. f_equal. lra.
Qed.

Lemma sum_masked : forall l v a, length l = length v -> Forall inside l ->
  fold_left add (map (fun p : log_value * bool => if snd p then fst p else Finite 0) (combine (map log_of (map Some l)) v)) (Finite a)
  = Finite (a + total_ln (selected l v)).
Proof.
  induction l as [|q l IH]; intros [|b v] a L F; cbn [length] in L; try discriminate.
  - cbn. f_equal; lra.
  - inversion F; subst. cbn [map combine fold_left fst snd]. unfold selected. cbn [combine filter snd].
    destruct b; cbn [map fst total_ln].
    + rewrite log_inside by assumption. cbn [add]. rewrite IH by (auto; lia). unfold selected. f_equal; lra.
    + cbn [add]. rewrite IH by (auto; lia). unfold selected. f_equal; lra.
Qed.

Lemma selected_length {A} : forall (l : list A) v, length l = length v -> length (selected l v) = length (filter (fun b : bool => b) v).
Proof.
  unfold selected. induction l as [|a l IH]; intros [|[] v] L; cbn [length] in L; try discriminate; [reflexivity| |];
    cbn [combine filter snd map fst length]; rewrite IH by lia; reflexivity.
Qed.

Lemma selected_forall {A} (P : A -> Prop) : forall l v, Forall P l -> Forall P (selected l v).
Proof.
  unfold selected. induction l as [|a l IH]; intros [|[] v] F; cbn; auto; inversion F; subst; [constructor|]; auto.
Qed.

Lemma exp_power n x : (exp x ^ n)%R = exp (INR n * x).
Proof. induction n as [|n IH]; [cbn; rewrite Rmult_0_l, exp_0; reflexivity|]. rewrite S_INR. cbn [pow]. rewrite IH, <- exp_plus. f_equal. lra. Qed.

Lemma exp_total : forall l, Forall inside l -> exp (total_ln l) = product (map Q2R l).
Proof.
  induction l as [|q l IH]; intros F; cbn [total_ln map product fold_right]; [exact exp_0|]. inversion F; subst.
  rewrite exp_plus, exp_ln by (apply Q2R_inside; assumption). unfold product in IH. rewrite IH by assumption. reflexivity.
Qed.

Lemma total_negative : forall l, l <> [] -> Forall inside l -> (total_ln l < 0)%R.
Proof.
  assert (forall q, inside q -> (ln (Q2R q) < 0)%R) as N.
  { intros q H. apply Q2R_inside in H. rewrite <- ln_1. apply ln_increasing; lra. }
  induction l as [|q [|p l] IH]; intros E F; [contradiction| |]; inversion F; subst.
  - cbn. pose proof (N q H1). lra.
  - change (ln (Q2R q) + total_ln (p :: l) < 0)%R. pose proof (N q H1). assert (total_ln (p :: l) < 0)%R by (apply IH; [discriminate|assumption]). lra.
Qed.

Lemma mean_value l : l <> [] -> Forall inside l ->
  exists g, exp_of (over (Finite (total_ln l)) (length l)) = Some g /\ geometric_mean (map Q2R l) g /\ (g < 1)%R.
Proof.
  intros E F. exists (exp (total_ln l / INR (length l))).
  assert (length l <> 0)%nat as Z by (destruct l; [contradiction|discriminate]).
  assert (0 < INR (length l))%R as P by (apply lt_0_INR; lia).
  unfold over. rewrite (proj2 (Nat.eqb_neq _ _) Z). split; [reflexivity|]. split; [split; [apply exp_pos|]|].
  - rewrite map_length, exp_power, <- exp_total by assumption. f_equal. field. lra.
  - rewrite <- exp_0. apply exp_increasing. pose proof (total_negative l E F) as N. unfold Rdiv.
    pose proof (Rinv_0_lt_compat _ P) as Ip. apply Ropp_lt_cancel. rewrite Ropp_0, <- Ropp_mult_distr_l_reverse. apply Rmult_lt_0_compat; lra.
Qed.

(** * Strict bounds of smoothed likelihoods *)
Lemma ratio_inside num den r : (0 < num)%Q -> (num < den)%Q -> ratio num den r -> exists q, r = Some q /\ inside q.
Proof.
  intros A B H. destruct r as [q|]; cbn in H; [|exfalso; rewrite H in B; apply (Qlt_irrefl 0); exact (Qlt_trans _ _ _ A B)].
  destruct H as [_ H]. exists q. split; [reflexivity|]. assert (0 < den)%Q as D by exact (Qlt_trans _ _ _ A B). split.
  - apply (Qmult_lt_r 0 q den); [exact D|]. rewrite Qmult_0_l, H. exact A.
  - apply (Qmult_lt_r q 1 den); [exact D|]. rewrite Qmult_1_l, H. exact B.
Qed.

Lemma qnat_le a b : (a <= b)%nat -> (qnat a <= qnat b)%Q.
Proof. intros H. unfold qnat. rewrite <- Zle_Qle. lia. Qed.

Lemma smooth_inside gauss config m samples v r : smooth_config config ->
  likelihood gauss (estimator_of (config m)) samples v r -> exists q, r = Some q /\ inside q.
Proof.
  intros Sc H. specialize (Sc m). destruct (estimator_of (config m)) as [c|h|a|]; cbn [likelihood] in H; try contradiction.
  - destruct Sc as (_ & B & M & P). destruct H as (k & n & y & _ & _ & C & Rt). apply count_le in C. pose proof (qnat_le _ _ C) as Q1.
    pose proof (qnat_le 0 n ltac:(lia)) as Q0. pose proof (qnat_le 2 _ B) as Q2. change (qnat 0) with 0%Q in Q0. change (qnat 2) with 2%Q in Q2.
    refine (ratio_inside _ _ _ _ _ Rt); nra.
  - destruct Sc as (_ & P). destruct H as (n & C & Rt). apply count_le in C. pose proof (qnat_le _ _ C) as Q1.
    pose proof (qnat_le 0 n ltac:(lia)) as Q0. change (qnat 0) with 0%Q in Q0. refine (ratio_inside _ _ _ _ _ Rt); nra.
Qed.

(** * Grids *)
Definition grid (no nt : nat) : list (nat * nat) := flat_map (fun o => map (fun t => (o, t)) (seq 0 nt)) (seq 0 no).

Lemma grid_in no nt o t : In (o, t) (grid no nt) <-> (o < no)%nat /\ (t < nt)%nat.
Proof.
  unfold grid. rewrite in_flat_map. split.
  - intros (x & X & H). apply in_map_iff in H. destruct H as (y & E & Y). injection E as -> ->. apply in_seq in X, Y. lia.
  - intros [A B]. exists o. split; [apply in_seq; lia|]. apply in_map_iff. exists t. split; [reflexivity|apply in_seq; lia].
Qed.

Lemma grid_nodup_from nt : forall n k, NoDup (flat_map (fun o => map (fun t => (o, t)) (seq 0 nt)) (seq k n)).
Proof.
  induction n as [|n IH]; intros k; cbn [seq flat_map]; [constructor|].
  assert (forall (l r : list (nat * nat)), NoDup l -> NoDup r -> (forall x, In x l -> ~ In x r) -> NoDup (l ++ r)) as NA.
  { intros l r Hl Hr D. induction Hl as [|x l Nx Hl IHl]; [exact Hr|]. cbn. constructor.
    - rewrite in_app_iff. intros [C|C]; [contradiction|]. exact (D x (or_introl eq_refl) C).
    - apply IHl. intros y Y. apply D. right; exact Y. }
  apply NA; [|apply IH|].
  - apply FinFun.Injective_map_NoDup; [|apply seq_NoDup]. intros a b E. injection E as E. exact E.
  - intros [o t] A B. apply in_map_iff in A. destruct A as (y & E & Y). injection E as <- <-.
    apply in_flat_map in B. destruct B as (x & X & H). apply in_map_iff in H. destruct H as (z & E & Z). injection E as -> ->.
    apply in_seq in X. lia.
Qed.
Lemma grid_nodup no nt : NoDup (grid no nt).
Proof. apply grid_nodup_from. Qed.

Lemma map_nth_seq {A B} (d : A) (f : A -> B) : forall l, map f l = map (fun t => f (nth t l d)) (seq 0 (length l)).
Proof.
  induction l as [|a l IH]; [reflexivity|]. cbn [map length seq nth]. f_equal. rewrite <- seq_shift, map_map. exact IH.
Qed.

Lemma concat_grid {A} (d : A) no nt : forall rows, sized no nt rows ->
  concat rows = map (fun ot => nth (snd ot) (nth (fst ot) rows []) d) (grid no nt).
Proof.
  intros rows [L F]. subst no. unfold grid. rewrite flat_map_concat_map, concat_map, map_map.
  rewrite <- (map_id rows) at 1. rewrite (map_nth_seq [] (fun x => x) rows). f_equal. apply map_ext_in. intros o H. apply in_seq in H.
  rewrite map_map. cbn [fst snd]. rewrite <- (map_id (nth o rows [])) at 1. rewrite (map_nth_seq d (fun x => x) (nth o rows [])).
  rewrite F by (apply nth_In; lia). reflexivity.
Qed.

Lemma selected_map {A B} (f : A -> bool) (P : A -> B -> Prop) : forall l r, Forall2 P l r -> Forall2 P (filter f l) (selected r (map f l)).
Proof.
  unfold selected. intros l r H. induction H as [|a b l r Hab H IH]; [constructor|]. cbn [map combine filter snd].
  destruct (f a); cbn [map fst]; [constructor|]; assumption.
Qed.

Lemma forall2_nth {A B} (P : A -> B -> Prop) : forall l r, length l = length r ->
  (forall k a, nth_error l k = Some a -> exists b, nth_error r k = Some b /\ P a b) -> Forall2 P l r.
Proof.
  induction l as [|a l IH]; intros [|b r] L H; cbn [length] in L; try discriminate; constructor.
  - destruct (H 0%nat a eq_refl) as (b' & E & Q). injection E as ->. exact Q.
  - apply IH; [lia|]. intros k x E. exact (H (S k) x E).
Qed.

Lemma nth_error_block {A} : forall (rows : list (list A)) nt k a, (forall row, In row rows -> length row = nt) ->
  nth_error (concat rows) k = Some a -> exists o t row, k = (o * nt + t)%nat /\ (t < nt)%nat /\ nth_error rows o = Some row /\ nth_error row t = Some a.
Proof.
  induction rows as [|row rows IH]; intros nt k a F E; cbn [concat] in E; [destruct k; discriminate|].
  pose proof (F row (or_introl eq_refl)) as Lr. destruct (Nat.lt_ge_cases k (length row)) as [Hk|Hk].
  - rewrite nth_error_app1 in E by exact Hk. exists 0%nat, k, row. repeat split; try assumption; lia.
  - rewrite nth_error_app2 in E by exact Hk. destruct (IH nt _ a (fun r h => F r (or_intror h)) E) as (o & t & rw & K & T & E1 & E2).
    exists (S o), t, rw. repeat split; try assumption. cbn. lia.
Qed.

Lemma grid_index no nt k o t : nth_error (grid no nt) k = Some (o, t) -> k = (o * nt + t)%nat /\ (o < no)%nat /\ (t < nt)%nat.
Proof.
  intros E. unfold grid in E. rewrite flat_map_concat_map in E.
  destruct (nth_error_block (map (fun o0 => map (fun t0 => (o0, t0)) (seq 0 nt)) (seq 0 no)) nt k (o, t)) as (a & b & row & K & B & E1 & E2).
  - intros row H. apply in_map_iff in H. destruct H as (x & <- & _). rewrite map_length, seq_length. reflexivity.
  - exact E.
  - assert (a < no)%nat as Ha. { assert (nth_error (map (fun o0 => map (fun t0 => (o0, t0)) (seq 0 nt)) (seq 0 no)) a <> None) as N by congruence.
      apply nth_error_Some in N. rewrite map_length, seq_length in N. exact N. }
    assert (row = map (fun t0 => (a, t0)) (seq 0 nt)) as ->.
    { apply nth_error_nth with (d := map (fun t0 => (0%nat, t0)) (seq 0 nt)) in E1. rewrite <- E1.
      change (map (fun t0 => (0%nat, t0)) (seq 0 nt)) with ((fun o0 => map (fun t0 => (o0, t0)) (seq 0 nt)) 0%nat).
      rewrite map_nth, seq_nth by exact Ha. reflexivity. }
    apply nth_error_nth with (d := (a, 0%nat)) in E2. change (a, 0%nat) with ((fun t0 => (a, t0)) 0%nat) in E2.
    rewrite map_nth, seq_nth in E2 by exact B. injection E2 as <- <-. auto.
Qed.

Lemma grid_length no nt : length (grid no nt) = (no * nt)%nat.
Proof.
  unfold grid. generalize 0%nat at 2. induction no as [|no IH]; intros k; [reflexivity|]. cbn [seq flat_map].
  rewrite app_length, IH, map_length, seq_length. cbn. lia.
Qed.

(** * Masks *)
Lemma nth_true (l : list bool) k : nth k l false = true <-> nth_error l k = Some true.
Proof. revert k. induction l as [|b l IH]; intros [|k]; cbn; try (split; discriminate). - split; [intros ->; reflexivity|intros E; injection E as ->; reflexivity]. - apply IH. Qed.
