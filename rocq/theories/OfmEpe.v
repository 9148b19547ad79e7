From Coq Require Import Reals List Lra Lia Arith Bool.
From Verif Require Import Base ResultLib ListLib GeomModel GeomBase WayModel OfmModel OfmSpec OfmIou.
Import ListNotations.
Open Scope R_scope.

Lemma average_total {A} (f : A -> R) l : average f l = over (total f l) (INR (length l)).
Proof.
  unfold average, over. destruct l as [|a l]; [cbn; destruct (Req_EM_T 0 0); [reflexivity|lra]|].
  destruct (Req_EM_T _ 0) as [E|E]; [|reflexivity]. exfalso. apply (not_0_INR (length (a :: l))); [cbn; lia|exact E].
Qed.
Lemma mean_average {A} (f : A -> R) l : mean (map f l) = average f l.
Proof. unfold mean, average. rewrite map_length, sum_total. destruct l; reflexivity. Qed.
Lemma exists_moves v : flow_exists v = if moves v then 1 else 0.
Proof. unfold flow_exists, moves. destruct (Req_EM_T (fst v) 0); [destruct (Req_EM_T (snd v) 0); reflexivity|reflexivity]. Qed.
Lemma moves_iff v : moves v = false <-> at_rest v.
Proof.
  destruct v as [x y]. unfold moves, at_rest. cbn [fst snd]. destruct (Req_EM_T x 0) as [->|N], (Req_EM_T y 0) as [->|M]; split; intro H; try reflexivity; try discriminate; injection H; intros; contradiction.
Qed.
Lemma epe_value t p : length t = length p -> compute_flow_epe t p = average (fun c => distance (fst c) (snd c)) (moving_cells t p).
Proof.
  intro L. rewrite average_total. unfold compute_flow_epe, moving_cells, divide_no_nan, over. rewrite !sum_total.
  assert (E1 : total (fun tp => sqrt ((fst (fst tp) - fst (snd tp)) * flow_exists (fst tp) * ((fst (fst tp) - fst (snd tp)) * flow_exists (fst tp)) +
      (snd (fst tp) - snd (snd tp)) * flow_exists (fst tp) * ((snd (fst tp) - snd (snd tp)) * flow_exists (fst tp)))) (combine t p)
    = total (fun c => distance (fst c) (snd c)) (filter (fun c => moves (fst c)) (combine t p))).
  { rewrite total_filter. apply total_ext. intros [v w] _. cbn [fst snd]. rewrite exists_moves. unfold distance. destruct (moves v).
    - f_equal. ring.
    - match goal with |- sqrt ?x = _ => replace x with 0 by ring end. apply sqrt_0. }
  assert (E2 : total flow_exists t = INR (length (filter (fun c => moves (fst c)) (combine t p)))).
  { rewrite <- total_one, total_filter. clear E1. revert p L. induction t as [|v t IH]; intros [|w p] L; cbn in L; try lia; [reflexivity|].
    cbn [total combine fst]. rewrite (IH p) by lia. now rewrite exists_moves. }
  cbv zeta. rewrite E1, E2. reflexivity.
Qed.
Lemma average_nonneg {A} (f : A -> R) l : (forall x, In x l -> 0 <= f x) -> 0 <= average f l.
Proof.
  intro H. unfold average. destruct l as [|a l]; [lra|]. apply Rmult_le_pos; [now apply total_nonneg|]. apply Rlt_le, Rinv_0_lt_compat, lt_0_INR. cbn. lia.
Qed.
Lemma average_le {A} (f : A -> R) l M : 0 <= M -> (forall x, In x l -> f x <= M) -> average f l <= M.
Proof.
  intros M0 H. unfold average. destruct l as [|a l]; [lra|]. set (n := INR _). assert (0 < n) by (apply lt_0_INR; cbn; lia).
  apply (Rmult_le_reg_r n); [lra|]. unfold Rdiv. rewrite Rmult_assoc, Rinv_l by lra.
  pose proof (total_le f (fun _ => M * 1) (a :: l) ltac:(intros x I; rewrite Rmult_1_r; now apply H)) as E.
  assert (K : total (fun _ : A => M * 1) (a :: l) = M * n). { unfold n. rewrite <- total_one. generalize (a :: l). clear. induction l as [|b l IH]; cbn [total]; [ring|]. rewrite IH. ring. }
  lra.
Qed.
Lemma average_zero {A} (f : A -> R) l : (forall x, In x l -> 0 <= f x) -> (average f l = 0 <-> forall x, In x l -> f x = 0).
Proof.
  intro H. rewrite <- (total_zero f l H). unfold average. destruct l as [|a l]; [cbn; tauto|].
  assert (N : INR (length (a :: l)) <> 0) by (apply not_0_INR; cbn; lia). split; intro E.
  - apply Rmult_integral in E. destruct E as [E|E]; [exact E|]. now apply Rinv_neq_0_compat in E.
  - rewrite E. unfold Rdiv. lra.
Qed.
Lemma average_const {A} (f : A -> R) l M : l <> [] -> (forall x, In x l -> f x = M) -> average f l = M.
Proof.
  intros N H. unfold average. destruct l as [|a l]; [now contradict N|]. rewrite (total_ext f (fun _ => M)) by assumption.
  assert (P : 0 < INR (length (a :: l))) by (apply lt_0_INR; cbn; lia).
  replace (total (fun _ : A => M) (a :: l)) with (M * INR (length (a :: l))); [field; lra|].
  rewrite <- total_one. generalize (a :: l). clear. induction l as [|b l IH]; cbn [total]; [ring|]. rewrite <- IH. ring.
Qed.
Lemma distance_nonneg v w : 0 <= distance v w.
Proof. apply sqrt_pos. Qed.
Lemma distance_zero v w : distance v w = 0 <-> v = w.
Proof.
  destruct v as [a b], w as [c d]. unfold distance. cbn [fst snd]. split; intro H.
  - apply sqrt_eq_0 in H; [|apply Rplus_le_le_0_compat; apply pow2_ge_0]. pose proof (pow2_ge_0 (a - c)). pose proof (pow2_ge_0 (b - d)).
    assert (X : (a - c) * (a - c) = 0) by lra. assert (Y : (b - d) * (b - d) = 0) by lra. apply Rmult_integral in X, Y. f_equal; lra.
  - injection H as -> ->. match goal with |- sqrt ?x = _ => replace x with 0 by ring end. apply sqrt_0.
Qed.
Lemma epe_nonneg t p : length t = length p -> 0 <= compute_flow_epe t p.
Proof. intro L. rewrite epe_value by exact L. apply average_nonneg. intros c _. apply distance_nonneg. Qed.
Lemma in_nth (t p : list (R * R)) c : length t = length p -> In c (combine t p) -> exists i, (i < length t)%nat /\ nth i t (0, 0) = fst c /\ nth i p (0, 0) = snd c.
Proof.
  intros L I. destruct (In_nth _ _ ((0, 0), (0, 0)) I) as (i & B & E). rewrite combine_length, <- L, Nat.min_id in B. exists i. split; [exact B|].
  rewrite combine_nth in E by exact L. subst c. cbn. tauto.
Qed.
Lemma nth_in (t p : list (R * R)) i : length t = length p -> (i < length t)%nat -> In (nth i t (0, 0), nth i p (0, 0)) (combine t p).
Proof. intros L I. rewrite <- combine_nth by exact L. apply nth_In. rewrite combine_length, <- L, Nat.min_id. exact I. Qed.
Lemma epe_zero t p : length t = length p ->
  (compute_flow_epe t p = 0 <-> forall i, (i < length t)%nat -> nth i t (0, 0) <> (0, 0) -> nth i p (0, 0) = nth i t (0, 0)).
Proof.
  intro L. rewrite epe_value by exact L. rewrite average_zero by (intros; apply distance_nonneg). split; intro H.
  - intros i I M. symmetry. apply distance_zero. apply (H (nth i t (0, 0), nth i p (0, 0))). apply filter_In. split; [now apply nth_in|].
    cbn [fst]. destruct (moves _) eqn:E; [reflexivity|]. apply moves_iff in E. contradiction.
  - intros c I. apply filter_In in I. destruct I as [I M]. destruct (in_nth t p c L I) as (i & B & E1 & E2). apply distance_zero.
    rewrite <- E1, <- E2. symmetry. apply H; [exact B|]. rewrite E1. intro Z. apply moves_iff in Z. congruence.
Qed.
(** What is predicted where nothing moves does not matter. *)
Lemma epe_blind t p q : length t = length p -> length t = length q ->
  (forall i, (i < length t)%nat -> nth i t (0, 0) <> (0, 0) -> nth i p (0, 0) = nth i q (0, 0)) ->
  compute_flow_epe t p = compute_flow_epe t q.
Proof.
  intros L M H. rewrite !epe_value by assumption. f_equal.
  unfold moving_cells. revert p q L M H. induction t as [|v t IH]; intros [|a p] [|b q] L M H; cbn in L, M; try lia; [reflexivity|].
  cbn [combine filter fst]. rewrite (IH p q ltac:(lia) ltac:(lia) (fun i I => H (S i) ltac:(cbn; lia))).
  destruct (moves v) eqn:E; [|reflexivity]. do 2 f_equal. apply (H 0%nat); [cbn; lia|]. intro Z. apply moves_iff in Z. cbn [nth] in Z. congruence.
Qed.
Lemma epe_refuted d : 0 < d -> exists t p, length t = length p /\ compute_flow_epe t p = 0 /\ average (fun c => distance (fst c) (snd c)) (combine t p) = d.
Proof.
  intro D. exists [(0, 0)], [(d, 0)]. split; [reflexivity|]. split.
  - apply epe_zero; [reflexivity|]. intros [|i] I N; [now contradict N|cbn in I; lia].
  - cbn. unfold distance. cbn [fst snd]. match goal with |- (sqrt ?x + 0) / 1 = _ => replace x with (d * d) by ring end. rewrite sqrt_square by lra. field.
Qed.
