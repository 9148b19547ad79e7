From Coq Require Import Reals List Lra Lia Arith Bool.
From Verif Require Import Base ResultLib ListLib GeomModel GeomBase WayModel OfmModel OfmSpec.
Import ListNotations.
Open Scope R_scope.

Lemma sum_total {A} (f : A -> R) l : reduce_sum (map f l) = total f l.
Proof. induction l as [|a l IH]; [reflexivity|]. cbn [map total]. rewrite <- IH. reflexivity. Qed.
Lemma sum_id l : reduce_sum l = total (fun x => x) l.
Proof. induction l as [|a l IH]; [reflexivity|]. cbn [total]. rewrite <- IH. reflexivity. Qed.
Lemma total_add {A} (f g : A -> R) l : total (fun x => f x + g x) l = total f l + total g l.
Proof. induction l as [|a l IH]; cbn [total]; [lra|]. rewrite IH. lra. Qed.
Lemma total_sub {A} (f g : A -> R) l : total (fun x => f x - g x) l = total f l - total g l.
Proof. induction l as [|a l IH]; cbn [total]; [lra|]. rewrite IH. lra. Qed.
Lemma total_ext {A} (f g : A -> R) l : (forall x, In x l -> f x = g x) -> total f l = total g l.
Proof. induction l as [|a l IH]; intro H; [reflexivity|]. cbn [total]. rewrite IH, (H a (or_introl eq_refl)); [reflexivity|]. intros x I. apply H. now right. Qed.
Lemma total_le {A} (f g : A -> R) l : (forall x, In x l -> f x <= g x) -> total f l <= total g l.
Proof.
  induction l as [|a l IH]; intro H; cbn [total]; [lra|]. pose proof (H a (or_introl eq_refl)). assert (total f l <= total g l) by (apply IH; intros x I; apply H; now right). lra.
Qed.
Lemma total_nonneg {A} (f : A -> R) l : (forall x, In x l -> 0 <= f x) -> 0 <= total f l.
Proof. induction l as [|a l IH]; intro H; cbn [total]; [lra|]. pose proof (H a (or_introl eq_refl)). assert (0 <= total f l) by (apply IH; intros x I; apply H; now right). lra. Qed.
Lemma total_zero {A} (f : A -> R) l : (forall x, In x l -> 0 <= f x) -> (total f l = 0 <-> forall x, In x l -> f x = 0).
Proof.
  induction l as [|a l IH]; intro H; cbn [total]; [split; [intros _ x []|reflexivity]|].
  pose proof (H a (or_introl eq_refl)) as A0. assert (N : forall x, In x l -> 0 <= f x) by (intros x I; apply H; now right).
  pose proof (total_nonneg f l N). specialize (IH N). split.
  - intros E x [<-|I]; [lra|]. apply IH; [lra|exact I].
  - intro E. rewrite (E a (or_introl eq_refl)), (proj2 IH); [lra|]. intros x I. apply E. now right.
Qed.
Lemma total_map {A B} (f : B -> R) (g : A -> B) l : total f (map g l) = total (fun x => f (g x)) l.
Proof. induction l as [|a l IH]; [reflexivity|]. cbn [map total]. now rewrite IH. Qed.
Lemma total_filter {A} (f : A -> R) keep l : total f (filter keep l) = total (fun x => if keep x then f x else 0) l.
Proof. induction l as [|a l IH]; [reflexivity|]. cbn [filter total]. destruct (keep a); cbn [total]; rewrite IH; lra. Qed.
Lemma total_one {A} (l : list A) : total (fun _ => 1) l = INR (length l).
Proof. induction l as [|a l IH]; [reflexivity|]. cbn [total List.length]. rewrite S_INR, IH. lra. Qed.
Lemma total_swap (f : R * R -> R) a : forall b, length a = length b -> total f (combine b a) = total (fun c => f (snd c, fst c)) (combine a b).
Proof.
  induction a as [|x a IH]; intros [|y b] L; cbn in L; try lia; [reflexivity|]. cbn [combine total fst snd]. rewrite IH by lia. reflexivity.
Qed.
Lemma total_fst (a : list R) : forall b : list R, length a = length b -> total fst (combine a b) = total (fun x => x) a.
Proof. induction a as [|x a IH]; intros [|y b] L; cbn in L; try lia; [reflexivity|]. cbn [combine total fst]. rewrite IH by lia. reflexivity. Qed.
Lemma total_snd (a : list R) : forall b : list R, length a = length b -> total snd (combine a b) = total (fun x => x) b.
Proof. induction a as [|x a IH]; intros [|y b] L; cbn in L; try lia; [reflexivity|]. cbn [combine total snd]. rewrite IH by lia. reflexivity. Qed.

Definition over (a b : R) : R := if Req_EM_T b 0 then 0 else a / b.
Definition both (c : R * R) := fst c * snd c.
Definition any (c : R * R) := fst c + snd c - fst c * snd c.
Lemma any_eq l : total any l = total fst l + total snd l - total both l.
Proof. unfold any. rewrite total_sub, total_add. reflexivity. Qed.
Lemma iou_total t p : length t = length p -> t <> [] ->
  compute_occupancy_soft_iou t p = over (total both (combine t p)) (total any (combine t p)).
Proof.
  intros L N. unfold compute_occupancy_soft_iou, reduce_mean, divide_no_nan, over. rewrite sum_total, map_length, combine_length, <- L, Nat.min_id.
  assert (P : 0 < INR (length t)) by (destruct t; [now contradict N|apply lt_0_INR; cbn; lia]). set (n := INR (length t)) in *.
  rewrite (total_swap _ t p L). cbn [fst snd]. rewrite (total_ext (fun c => snd c * fst c) both) by (intros; unfold both; ring).
  rewrite !sum_id, <- (total_fst t p L), <- (total_snd t p L), any_eq.
  set (I := total both _). set (T := total fst _). set (Q := total snd _).
  replace (Q / n + T / n - I / n) with ((T + Q - I) / n) by (field; lra).
  destruct (Req_EM_T ((T + Q - I) / n) 0) as [E|E], (Req_EM_T (T + Q - I) 0) as [F|F]; try reflexivity.
  - exfalso. apply F. apply (Rmult_eq_reg_r (/ n)); [|apply Rinv_neq_0_compat; lra]. unfold Rdiv in E. rewrite E. lra.
  - exfalso. apply E. rewrite F. unfold Rdiv. lra.
  - field. split; [exact F|lra].
Qed.

Definition good (l : list (R * R)) := forall c, In c l -> 0 <= fst c <= 1 /\ 0 <= snd c <= 1.
Lemma good_combine t p : probabilities t -> probabilities p -> good (combine t p).
Proof. intros T P [x y] I. cbn [fst snd]. split; [apply T; eapply in_combine_l|apply P; eapply in_combine_r]; exact I. Qed.
Lemma both_pos l : good l -> forall c, In c l -> 0 <= both c.
Proof. intros G c I. destruct (G c I). unfold both. nra. Qed.
Lemma both_any l : good l -> forall c, In c l -> both c <= any c.
Proof. intros G c I. destruct (G c I). unfold both, any. nra. Qed.
Lemma any_pos l : good l -> forall c, In c l -> 0 <= any c.
Proof. intros G c I. pose proof (both_pos l G c I). pose proof (both_any l G c I). lra. Qed.

Lemma combine_same : forall a b : list R, length a = length b -> (forall c, In c (combine a b) -> fst c = snd c) -> a = b.
Proof.
  induction a as [|x a IH]; intros [|y b] E H; cbn in E; try lia; [reflexivity|]. f_equal.
  - exact (H (x, y) (or_introl eq_refl)).
  - apply IH; [lia|]. intros c I. apply H. now right.
Qed.
Lemma in_pair_l : forall (a b : list R) x, length a = length b -> In x a -> exists y, In (x, y) (combine a b).
Proof.
  induction a as [|u a IH]; intros [|v b] x E I; cbn in E; try lia; [destruct I|]. destruct I as [->|I]; [exists v; now left|].
  destruct (IH b x ltac:(lia) I) as [y J]. exists y. now right.
Qed.
Lemma combine_diag : forall (a : list R) c, In c (combine a a) -> In (fst c) a /\ fst c = snd c.
Proof. induction a as [|x a IH]; intros c I; [destruct I|]. destruct I as [<-|I]; [split; [now left|reflexivity]|]. destruct (IH c I). split; [now right|assumption]. Qed.
Lemma iou_symmetric t p : length t = length p -> t <> [] -> compute_occupancy_soft_iou t p = compute_occupancy_soft_iou p t.
Proof.
  intros L N.
  rewrite !iou_total; try assumption; try now symmetry.
  - rewrite !(total_swap _ t p L). f_equal; apply total_ext; intros c _; unfold both, any; cbn [fst snd]; ring.
  - intros ->. destruct t; [now contradict N|cbn in L; discriminate].
Qed.
Section Grids.
Variables t p : list R.
Hypothesis L : length t = length p.
Hypothesis N : t <> [].
Hypothesis T : probabilities t.
Hypothesis P : probabilities p.
Let G := good_combine t p T P.
Lemma iou_range : 0 <= compute_occupancy_soft_iou t p <= 1.
Proof.
  rewrite iou_total by assumption. unfold over. destruct (Req_EM_T _ 0) as [E|E]; [lra|].
  pose proof (total_nonneg both _ (both_pos _ G)). pose proof (total_le both any _ (both_any _ G)).
  set (a := total both _) in *. set (b := total any _) in *. assert (0 < b) by lra. split.
  - apply Rmult_le_pos; [lra|]. apply Rlt_le, Rinv_0_lt_compat. lra.
  - apply (Rmult_le_reg_r b); [lra|]. unfold Rdiv. rewrite Rmult_assoc, Rinv_l by lra. lra.
Qed.
Lemma iou_one : compute_occupancy_soft_iou t p = 1 <-> t = p /\ binary t /\ shows_something t.
Proof.
  rewrite iou_total by assumption. unfold over.
  pose proof (total_zero (fun c => any c - both c) (combine t p)) as Z. rewrite total_sub in Z.
  assert (D : forall c, In c (combine t p) -> 0 <= any c - both c) by (intros c I; pose proof (both_any _ G c I); lra). specialize (Z D).
  split.
  - intro E. destruct (Req_EM_T _ 0) as [F|F]; [lra|].
    assert (S : total any (combine t p) = total both (combine t p)).
    { apply (f_equal (fun x => x * total any (combine t p))) in E. unfold Rdiv in E. rewrite Rmult_assoc, Rinv_l in E by exact F. lra. }
    assert (Q : forall c, In c (combine t p) -> fst c = snd c /\ (fst c = 0 \/ fst c = 1)).
    { intros c I. pose proof (proj1 Z ltac:(lra) c I) as A. destruct (G c I) as [X Y]. unfold any, both in A.
      assert (A1 : fst c * (1 - snd c) = 0) by nra. assert (A2 : snd c * (1 - fst c) = 0) by nra.
      apply Rmult_integral in A1. apply Rmult_integral in A2. destruct A1, A2; split; lra. }
    split; [apply combine_same; [exact L|]; intros c I; apply (Q c I)|]. split.
    + intros x I. destruct (in_pair_l t p x L I) as [y J]. apply (Q _ J).
    + destruct (Rlt_dec 0 (total both (combine t p))) as [K|K].
      * assert (X : ~ forall c, In c (combine t p) -> both c = 0).
        { intro H. apply (total_zero both _ (both_pos _ G)) in H. lra. }
        assert (W : exists c, In c (combine t p) /\ both c <> 0).
        { clear - X. revert X. induction (combine t p) as [|c l IH]; intro X; [contradict X; intros c []|].
          destruct (Req_EM_T (both c) 0) as [E|E]; [|exists c; split; [now left|exact E]].
          destruct IH as (d & I & F); [|exists d; split; [now right|exact F]]. intro H. apply X. intros d [<-|I]; [exact E|now apply H]. }
        destruct W as (c & I & F2). exists (fst c). destruct c as [x y]. split; [eapply in_combine_l; exact I|].
        destruct (G _ I) as [U V]. cbn [fst snd] in *. unfold both in F2. cbn [fst snd] in F2. destruct (Req_EM_T x 0) as [E0|E0]; [subst; lra|lra].
      * pose proof (total_nonneg both _ (both_pos _ G)). lra.
  - intros (E & B & x & I & X). rewrite <- E in *. clear D.
    assert (Q : forall c, In c (combine t t) -> any c - both c = 0).
    { intros c J. destruct (combine_diag t c J) as [K M]. unfold any, both. rewrite <- M. destruct (B _ K) as [->| ->]; lra. }
    apply (proj2 Z) in Q. destruct (Req_EM_T _ 0) as [F|F].
    + exfalso. destruct (in_pair_l t t x eq_refl I) as [y J]. assert (Z0 := proj1 (total_zero any _ (any_pos _ (good_combine t t T T))) F _ J).
      destruct (combine_diag t _ J) as [_ M]. cbn [fst snd] in M. unfold any in Z0. cbn [fst snd] in Z0. rewrite <- M in Z0. destruct (B x I) as [->| ->]; lra.
    + replace (total both (combine t t)) with (total any (combine t t)) by lra. apply Rinv_r. exact F.
Qed.
Lemma iou_zero : compute_occupancy_soft_iou t p = 0 <-> forall c, In c (combine t p) -> fst c = 0 \/ snd c = 0.
Proof.
  rewrite iou_total by assumption. unfold over. pose proof (total_zero both _ (both_pos _ G)) as Z.
  assert (K : total both (combine t p) = 0 <-> forall c, In c (combine t p) -> fst c = 0 \/ snd c = 0).
  { rewrite Z. split; intros H c I; [apply Rmult_integral, (H c I)|]. unfold both. destruct (H c I) as [-> | ->]; lra. }
  rewrite <- K. destruct (Req_EM_T _ 0) as [E|E].
  - pose proof (total_nonneg both _ (both_pos _ G)). pose proof (total_le both any _ (both_any _ G)). split; intros; lra.
  - split; intro H.
    + apply Rmult_integral in H. destruct H as [H|H]; [exact H|]. now apply Rinv_neq_0_compat in H.
    + rewrite H. unfold Rdiv. lra.
Qed.
(** The truth is binary. *)
Hypothesis B : binary t.
Lemma iou_binary : shows_something t ->
  0 < INR (length (occupied t p)) + total snd (free t p) /\
  compute_occupancy_soft_iou t p = total snd (occupied t p) / (INR (length (occupied t p)) + total snd (free t p)).
Proof.
  intros (x & I & X). rewrite iou_total by assumption.
  assert (E1 : total both (combine t p) = total snd (occupied t p)).
  { unfold occupied. rewrite total_filter. apply total_ext. intros [u v] J. unfold both, occupied_cell. cbn [fst snd].
    destruct (B u (in_combine_l _ _ _ _ J)) as [-> | ->]; destruct (Req_EM_T _ 1); try lra. }
  assert (E2 : total any (combine t p) = INR (length (occupied t p)) + total snd (free t p)).
  { rewrite <- total_one. unfold occupied, free. rewrite !total_filter, <- total_add. apply total_ext. intros [u v] J. unfold any, occupied_cell. cbn [fst snd].
    destruct (B u (in_combine_l _ _ _ _ J)) as [-> | ->]; destruct (Req_EM_T _ 1); cbn [negb]; lra. }
  assert (Pos : 0 < INR (length (occupied t p)) + total snd (free t p)).
  { assert (0 <= total snd (free t p)).
    { apply total_nonneg. intros c J. unfold free in J. apply filter_In in J. apply (G c (proj1 J)). }
    assert (0 < INR (length (occupied t p))); [|lra]. apply lt_0_INR. destruct (in_pair_l t p x L I) as [y J].
    assert (K : In (x, y) (occupied t p)).
    { apply filter_In. split; [exact J|]. unfold occupied_cell. cbn [fst]. destruct (Req_EM_T x 1) as [|F]; [reflexivity|]. destruct (B x I); lra. }
    destruct (occupied t p); [destruct K|cbn; lia]. }
  split; [exact Pos|]. rewrite E1, E2. unfold over. destruct (Req_EM_T _ 0); [lra|reflexivity].
Qed.
End Grids.

Lemma occ0 a : occupied_cell (0, a) = false.
Proof. unfold occupied_cell. cbn [fst]. destruct (Req_EM_T 0 1); [lra|reflexivity]. Qed.
Lemma occ1 a : occupied_cell (1, a) = true.
Proof. unfold occupied_cell. cbn [fst]. destruct (Req_EM_T 1 1); [reflexivity|lra]. Qed.
Lemma free_le t p q : length t = length p -> length t = length q -> binary t -> no_worse t p q ->
  total snd (free t q) <= total snd (free t p) /\ total snd (occupied t p) <= total snd (occupied t q) /\
  length (occupied t p) = length (occupied t q).
Proof.
  unfold free, occupied. revert p q. induction t as [|x t IH]; intros [|a p] [|b q] L M B H; cbn in L, M; try lia; [cbn; repeat split; lra|].
  destruct (IH p q ltac:(lia) ltac:(lia) ltac:(intros y I; apply B; now right)) as (A1 & A2 & A3).
  { intros i I. apply (H (S i)). cbn. lia. }
  pose proof (H 0%nat ltac:(cbn; lia)) as [H1 H0]. cbn [nth] in H1, H0. cbn [combine filter].
  destruct (B x (or_introl eq_refl)) as [X|X]; subst x; rewrite ?occ0, ?occ1; cbn [negb total snd List.length].
  - specialize (H0 eq_refl). split; [lra|]. split; [lra|exact A3].
  - specialize (H1 eq_refl). split; [lra|]. split; [lra|now f_equal].
Qed.
Lemma iou_monotone t p q : length t = length p -> length t = length q -> binary t -> probabilities p -> probabilities q -> no_worse t p q ->
  compute_occupancy_soft_iou t p <= compute_occupancy_soft_iou t q.
Proof.
  intros L M B P Q H. destruct (list_eq_dec Req_EM_T t []) as [E|N].
  { subst t. destruct p, q; try discriminate. lra. }
  assert (T : probabilities t) by (intros x I; destruct (B x I); lra).
  destruct (existsb (fun x => if Req_EM_T x 1 then true else false) t) eqn:X.
  - assert (W : shows_something t). { apply existsb_exists in X. destruct X as (x & I & F). exists x. split; [exact I|]. destruct (Req_EM_T x 1); [lra|discriminate]. }
    destruct (iou_binary t p L N T P B W) as [Dp ->]. destruct (iou_binary t q M N T Q B W) as [Dq ->].
    destruct (free_le t p q L M B H) as (F & O & E). rewrite <- E in *.
    assert (0 <= total snd (occupied t p)). { apply total_nonneg. intros [u v] J. apply filter_In in J. apply (P v). eapply in_combine_r. apply J. }
    set (n := INR _) in *. set (a := total snd (occupied t p)) in *. set (b := total snd (occupied t q)) in *.
    set (c := total snd (free t p)) in *. set (d := total snd (free t q)) in *.
    unfold Rdiv. apply Rmult_le_compat; try lra; [apply Rlt_le, Rinv_0_lt_compat; lra|]. apply Rinv_le_contravar; lra.
  - assert (Z : forall c g, In c (combine t g) -> fst c = 0 \/ snd c = 0).
    { intros [u v] g J. left. cbn [fst]. apply in_combine_l in J. destruct (B u J) as [|E]; [assumption|]. exfalso.
      assert (Y : existsb (fun x => if Req_EM_T x 1 then true else false) t = true) by (apply existsb_exists; exists u; split; [exact J|destruct (Req_EM_T u 1); [reflexivity|lra]]).
      congruence. }
    rewrite (proj2 (iou_zero t p L N T P) (fun c => Z c p)), (proj2 (iou_zero t q M N T Q) (fun c => Z c q)). lra.
Qed.
(** Both binary: cells in both over cells in either. *)
Lemma iou_counts t p : length t = length p -> binary t -> binary p -> shows_something t ->
  compute_occupancy_soft_iou t p =
  INR (length (filter (fun c => occupied_cell c && predicted_cell c) (combine t p))) /
  INR (length (filter (fun c => occupied_cell c || predicted_cell c) (combine t p))).
Proof.
  intros L B C W. assert (N : t <> []) by (destruct W as (x & I & _); intros ->; destruct I).
  assert (T : probabilities t) by (intros x I; destruct (B x I); lra). assert (P : probabilities p) by (intros x I; destruct (C x I); lra).
  destruct (iou_binary t p L N T P B W) as [D ->]. f_equal.
  - rewrite <- total_one. unfold occupied. rewrite !total_filter. apply total_ext. intros [u v] J. unfold occupied_cell, predicted_cell. cbn [fst snd].
    destruct (C v (in_combine_r _ _ _ _ J)) as [-> | ->]; destruct (Req_EM_T u 1), (Req_EM_T _ 1); cbn [andb]; lra.
  - f_equal. rewrite <- !total_one. unfold occupied, free. rewrite !total_filter, <- total_add. apply total_ext. intros [u v] J. unfold occupied_cell, predicted_cell. cbn [fst snd].
    destruct (C v (in_combine_r _ _ _ _ J)) as [-> | ->]; destruct (Req_EM_T u 1), (Req_EM_T _ 1); cbn [negb orb]; lra.
Qed.
Lemma soft_refuted : exists g, probabilities g /\ shows_something g /\ compute_occupancy_soft_iou g g < compute_occupancy_soft_iou g (map (fun _ => 1) g).
Proof.
  exists [1 / 2]. split; [intros x [<-|[]]; lra|]. split; [exists (1 / 2); split; [now left|lra]|].
  rewrite !iou_total by (reflexivity || discriminate). unfold over, both, any. cbn. repeat (destruct (Req_EM_T _ 0); try lra).
Qed.
