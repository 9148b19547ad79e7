(** Frames on which the matcher does not do what it says. *)
From Coq Require Import Reals Lra Psatz List Arith Lia Bool ZArith.
From Verif Require Import Base ResultLib GeomModel GeomBase PoseModel PoseSpec PoseReorder PoseBox PoseMatch PoseStages PosePem.
Import ListNotations.
Open Scope R_scope.

Definition kp (x y : R) (v : Z) : keypoint := {| px := x; py := y; pz := 0; visibility := v |}.
Definition room : box3 := {| cx := 0; cy := 0; cz := 0; sx := 2; sy := 2; sz := 2; heading := 0 |}.
Lemma sqrt_square x : 0 <= x -> sqrt (x * x) = x.
Proof. intros H. now rewrite sqrt_square. Qed.
Lemma dist_kp x x' v v' : dist3 (place (kp x 0 v)) (place (kp x' 0 v')) = Rabs (x - x').
Proof.
  unfold dist3, place, kp. cbn [px py pz fst snd]. rewrite <- sqrt_Rsqr_abs. f_equal. unfold Rsqr. ring.
Qed.
Lemma room_distance v : box_distance room (place (kp 0 0 v)) = 0.
Proof.
  unfold box_distance, room, place, kp. cbn [px py pz cx cy cz sx sy sz heading fst snd]. rewrite cos_0, sin_0, !Rminus_0_r, !Rmult_0_r, Rminus_0_r, Rplus_0_r, Rabs_R0.
  rewrite Rmax_left by lra. rewrite Rmult_0_r, !Rplus_0_r. apply sqrt_0.
Qed.
Lemma room_sane : sane_box room. Proof. unfold sane_box, room; cbn; lra. Qed.
Lemma room_near d o : 0 <= d -> near_box d room (kp 0 0 2 :: o).
Proof. intros D. exists (kp 0 0 2). split; [now left|]. split; [reflexivity|]. rewrite room_distance. lra. Qed.
Lemma matching_two_one M : matching M 2 1 -> M = [] \/ M = [(0, 0)]%nat \/ M = [(1, 0)]%nat.
Proof.
  intros (_ & B & C). destruct M as [|[i j] M]; auto. right. pose proof (C (i, j) (or_introl eq_refl)) as [I J]. cbn [fst snd] in I, J.
  assert (j = 0)%nat by lia. subst j. assert (M = []).
  { destruct M as [|[i' j'] M]; auto. exfalso. pose proof (C (i', j') (or_intror (or_introl eq_refl))) as [_ J']. cbn in J'. assert (j' = 0)%nat by lia. subst j'.
    cbn in B. inversion_clear B as [|x y B1 B2]. apply B1. now left. }
  subst M. assert (i = 0 \/ i = 1)%nat as [-> | ->] by lia; auto.
Qed.
Lemma rect2 l : (forall o, In o l -> length o = 2%nat) -> rectangular 2 l. Proof. auto. Qed.

(** ** The assignment does not minimise the error *)
Definition gA : person := [kp 0 0 2; kp 0 0 2].
Definition gB : person := [kp (1/5) 0 2; kp 0 0 0].
Definition pA : person := [kp 0 0 2; kp 0 0 0].
Definition frameA : frame := {| f_boxes := [room; room]; f_gt := [gA; gB]; f_pr := [pA] |}.
Lemma frameA_sane : sane_frame 2 frameA.
Proof.
  repeat split; cbn.
  - repeat constructor; cbn; lra.
  - intros o [<-|[<-|[]]]; reflexivity.
  - intros o [<-|[]]; reflexivity.
Qed.
Ltac visibles := repeat match goal with |- context [visible (kp ?x ?y ?v)] =>
  let b := eval cbn in (visible (kp 0 0 v)) in change (visible (kp x y v)) with b end.
Lemma errA : pair_error (1/4) gA pA = 1/4.
Proof.
  unfold pair_error, gA, pA. cbn [combine]. rewrite !sum_cons. cbn [fst snd]. unfold error. visibles. cbv iota. rewrite dist_kp.
  rewrite Rminus_0_r, Rabs_R0. rewrite Rmin_left by lra. unfold sum_of; cbn; lra.
Qed.
Lemma errB : pair_error (1/4) gB pA = 1/5.
Proof.
  unfold pair_error, gB, pA. cbn [combine]. rewrite !sum_cons. cbn [fst snd]. unfold error. visibles. cbv iota. rewrite dist_kp.
  rewrite Rminus_0_r, Rabs_right by lra. rewrite Rmin_left by lra. unfold sum_of; cbn; lra.
Qed.
Lemma matchA assign : solves assign -> matching_ids assign (1/4) (f_boxes frameA) (f_gt frameA) (f_pr frameA) 2 = [(1, 0)]%nat.
Proof.
  intros HS. destruct frameA_sane as (FB & FG & FP). cbn [f_boxes f_gt f_pr frameA] in *.
  assert (D0 : 0 < 1/4) by lra. assert (D1 : 1/4 <= 10000000000) by lra. assert (N2 : (0 < 2)%nat) by lia.
  pose proof (match_one_to_one assign (1/4) _ _ _ 2 HS D0 D1 N2 FB FG FP) as OO.
  destruct (match_stages assign (1/4) _ _ _ 2 HS D0 D1 N2 FB FG FP) as (fi & se & E & F & _ & _ & _ & O). rewrite E in *.
  assert (NF : fi = []).
  { destruct fi as [|m fi]; auto. exfalso. destruct (F m (or_introl eq_refl)) as ((S & _) & _). destruct OO as (_ & _ & B).
    destruct (B m) as [L _]; [apply in_app_iff; right; now left|]. cbn in L. destruct (fst m) as [|[|k]]; [discriminate | discriminate | lia]. }
  subst fi. rewrite app_nil_r in *.
  specialize (O [(1, 0)]%nat). cbn [length] in O. assert (L : 0 + 0 + 3/10 <= sum_of (fun m => 1/4 * INR 2 - pair_error (1/4) (person_at [gA; gB] (fst m)) (person_at [pA] (snd m))) se).
  { eapply Rle_trans; [|apply O].
    - rewrite sum_cons. cbn [fst snd person_at nth]. rewrite errB. unfold sum_of; cbn; lra.
    - repeat split; cbn; try (constructor; [intros [] | constructor]); destruct H as [<-|[]]; cbn; lia.
    - intros a b _ [].
    - intros m [<-|[]]. cbn. apply room_near. lra. }
  destruct (matching_two_one se OO) as [-> |[-> | ->]]; auto; exfalso.
  - unfold sum_of in L; cbn in L; lra.
  - rewrite sum_cons in L. cbn [fst snd person_at nth] in L. rewrite errA in L. unfold sum_of in L; cbn in L; lra.
Qed.
Lemma pointsA : pair_points gA pA = 2 /\ pair_points gB pA = 1.
Proof. unfold pair_points, gA, gB, pA. cbn [combine]. rewrite !sum_cons. cbn [fst snd]. visibles. unfold sum_of; cbn. split; lra. Qed.
Lemma countA : visible_points gA = 2 /\ visible_points gB = 1 /\ visible_points pA = 1.
Proof. unfold visible_points, gA, gB, pA. rewrite !sum_cons. visibles. unfold sum_of; cbn. repeat split; lra. Qed.
Lemma sum_nil {A} (f : A -> R) : sum_of f [] = 0. Proof. reflexivity. Qed.
Lemma frame_one gt p M i : M = [(i, 0)]%nat -> forall penalty, shows (person_at gt i) = true ->
  frame_error penalty gt [p] M = pair_error penalty (person_at gt i) p + penalty * sum_of (fun k => visible_points (person_at gt k)) (unmatched [i] (length gt)) /\
  frame_points gt [p] M = pair_points (person_at gt i) p + sum_of (fun k => visible_points (person_at gt k)) (unmatched [i] (length gt)).
Proof.
  intros -> penalty H. unfold frame_error, frame_points. cbn [map fst snd length]. change (unmatched [0%nat] 1) with (@nil nat). rewrite !sum_cons, !sum_nil. cbn [fst snd].
  rewrite H. change (person_at [p] 0) with p. split; lra.
Qed.
Theorem not_minimal : exists f M n d, sane_frame n f /\ 0 < d /\ (0 < n)%nat /\ matching M (length (f_gt f)) (length (f_pr f)) /\
  (forall m, In m M -> near_box d (box_at (f_boxes f) (fst m)) (person_at (f_pr f) (snd m))) /\
  (forall g, In g (f_gt f) -> shows g = true) /\
  forall assign, solves assign -> exists v, pem assign n d d [f] = Ok v /\
    mean_of (frame_error d (f_gt f) (f_pr f) M) (frame_points (f_gt f) (f_pr f) M) < v.
Proof.
  exists frameA, [(0, 0)]%nat, 2%nat, (1/4). split; [apply frameA_sane|]. split; [lra|]. split; [lia|].
  split. { repeat split; cbn; try (constructor; [intros [] | constructor]); destruct H as [<-|[]]; cbn; lia. }
  split. { intros m [<-|[]]. cbn. apply room_near. lra. }
  split. { intros g [<-|[<-|[]]]; reflexivity. }
  intros assign HS. eexists. split.
  - apply pem_value_sum; auto; try lra; try lia. apply Forall_cons; [apply frameA_sane | apply Forall_nil].
  - rewrite !sum_cons, !sum_nil. unfold err, pts, ids. rewrite matchA by auto. cbn [f_gt f_pr frameA].
    destruct pointsA as [P1 P2]. destruct countA as (C1 & C2 & C3).
    destruct (frame_one [gA; gB] pA [(0, 0)]%nat 0 eq_refl (1/4) eq_refl) as [-> ->].
    destruct (frame_one [gA; gB] pA [(1, 0)]%nat 1 eq_refl (1/4) eq_refl) as [-> ->]. cbn [length].
    change (unmatched [0%nat] 2) with [1%nat]. change (unmatched [1%nat] 2) with [0%nat]. rewrite !sum_cons, !sum_nil. cbn [person_at nth].
    rewrite errA, errB, P1, P2, C1, C2. unfold mean_of. destruct (Req_EM_T _ _); [lra|]. destruct (Req_EM_T _ _); lra.
Qed.

(** ** A label that shows nothing takes the prediction of one that does *)
Definition gH : person := [kp 0 0 0; kp 0 0 0].
Definition gC : person := [kp (1/10) 0 2; kp 0 0 2].
Definition frameC : frame := {| f_boxes := [room; room]; f_gt := [gH; gC]; f_pr := [pA] |}.
Lemma frameC_sane : sane_frame 2 frameC.
Proof.
  repeat split; cbn.
  - repeat constructor; cbn; lra.
  - intros o [<-|[<-|[]]]; reflexivity.
  - intros o [<-|[]]; reflexivity.
Qed.
Lemma errH : pair_error (1/4) gH pA = 1/4.
Proof. unfold pair_error, gH, pA. cbn [combine]. rewrite !sum_cons. cbn [fst snd]. unfold error. visibles. cbv iota. unfold sum_of; cbn; lra. Qed.
Lemma errC : pair_error (1/4) gC pA = 1/10 + 1/4.
Proof.
  unfold pair_error, gC, pA. cbn [combine]. rewrite !sum_cons. cbn [fst snd]. unfold error. visibles. cbv iota. rewrite dist_kp.
  rewrite Rminus_0_r, Rabs_right by lra. rewrite Rmin_left by lra. unfold sum_of; cbn; lra.
Qed.
Lemma closeC : close_people (1/4) gC pA.
Proof.
  exists (kp (1/10) 0 2, kp 0 0 2). split; [now left|]. cbn [fst snd]. repeat split. rewrite dist_kp, Rminus_0_r, Rabs_right; lra.
Qed.
Lemma matchC assign : solves assign -> matching_ids assign (1/4) (f_boxes frameC) (f_gt frameC) (f_pr frameC) 2 = [(0, 0)]%nat.
Proof.
  intros HS. destruct frameC_sane as (FB & FG & FP). cbn [f_boxes f_gt f_pr frameC] in *.
  assert (D0 : 0 < 1/4) by lra. assert (D1 : 1/4 <= 10000000000) by lra. assert (N2 : (0 < 2)%nat) by lia.
  pose proof (match_one_to_one assign (1/4) _ _ _ 2 HS D0 D1 N2 FB FG FP) as OO.
  destruct (match_stages assign (1/4) _ _ _ 2 HS D0 D1 N2 FB FG FP) as (fi & se & E & F & _ & _ & _ & O). rewrite E in *.
  assert (NF : fi = []).
  { destruct fi as [|m fi]; auto. exfalso. destruct (F m (or_introl eq_refl)) as ((_ & A) & _). destruct OO as (_ & _ & B).
    destruct (B m) as [_ L]; [apply in_app_iff; right; now left|]. cbn in L. assert (Z : snd m = 0%nat) by lia. rewrite Z in A.
    apply (A gC); [right; now left | apply closeC]. }
  subst fi. rewrite app_nil_r in *.
  specialize (O [(0, 0)]%nat). cbn [length] in O. assert (L : 1/4 <= sum_of (fun m => 1/4 * INR 2 - pair_error (1/4) (person_at [gH; gC] (fst m)) (person_at [pA] (snd m))) se).
  { eapply Rle_trans; [|apply O].
    - rewrite sum_cons. cbn [fst snd person_at nth]. rewrite errH. unfold sum_of; cbn; lra.
    - repeat split; cbn; try (constructor; [intros [] | constructor]); destruct H as [<-|[]]; cbn; lia.
    - intros a b _ [].
    - intros m [<-|[]]. cbn. apply room_near. lra. }
  destruct (matching_two_one se OO) as [-> |[-> | ->]]; auto; exfalso.
  - unfold sum_of in L; cbn in L; lra.
  - rewrite sum_cons in L. cbn [fst snd person_at nth] in L. rewrite errC in L. unfold sum_of in L; cbn in L; lra.
Qed.
Theorem hidden_takes : exists f n d, sane_frame n f /\ 0 < d /\ (0 < n)%nat /\
  forall assign, solves assign -> exists i i' j,
    In (i, j) (matching_ids assign d (f_boxes f) (f_gt f) (f_pr f) n) /\ shows (person_at (f_gt f) i) = false /\
    (i' < length (f_gt f))%nat /\ shows (person_at (f_gt f) i') = true /\ close_people d (person_at (f_gt f) i') (person_at (f_pr f) j) /\
    near_box d (box_at (f_boxes f) i') (person_at (f_pr f) j) /\
    ~ In i' (map fst (matching_ids assign d (f_boxes f) (f_gt f) (f_pr f) n)) /\ pem assign n d d [f] = Ok d.
Proof.
  exists frameC, 2%nat, (1/4). split; [apply frameC_sane|]. split; [lra|]. split; [lia|]. intros assign HS. exists 0%nat, 1%nat, 0%nat. rewrite matchC by auto.
  split; [now left|]. split; [reflexivity|]. split; [cbn; lia|]. split; [reflexivity|]. split; [apply closeC|].
  split; [cbn; apply room_near; lra|]. split; [cbn; lia|].
  rewrite pem_value_sum; auto; try lra; try lia; [|apply Forall_cons; [apply frameC_sane | apply Forall_nil]].
  f_equal. rewrite !sum_cons, !sum_nil. unfold err, pts, ids. rewrite matchC by auto. cbn [f_gt f_pr frameC].
  unfold frame_error, frame_points. cbn [map fst snd length]. change (unmatched [0%nat] 1) with (@nil nat). change (unmatched [0%nat] 2) with [1%nat].
  rewrite !sum_cons, !sum_nil. cbn [fst snd person_at nth]. change (shows gH) with false. cbv iota.
  assert (V : visible_points gC = 2) by (unfold visible_points, gC; rewrite !sum_cons; visibles; unfold sum_of; cbn; lra).
  rewrite V. unfold mean_of. destruct (Req_EM_T _ _); lra.
Qed.

(** ** The heading *)
Definition tilted : box3 := {| cx := 0; cy := 0; cz := 0; sx := 6; sy := 1; sz := 1; heading := PI / 4 |}.
Definition pT : person := [kp 2 2 2].
Definition frameT : frame := {| f_boxes := [tilted]; f_gt := [pT]; f_pr := [pT] |}.
Lemma frameT_sane : sane_frame 1 frameT.
Proof.
  repeat split; cbn.
  - repeat constructor; cbn; lra.
  - intros o [<-|[]]; reflexivity.
  - intros o [<-|[]]; reflexivity.
Qed.
Lemma c4 : 7/10 < cos (PI / 4) < 3/4 /\ sin (PI / 4) = cos (PI / 4).
Proof.
  assert (E : cos (PI / 4) * cos (PI / 4) = 1/2).
  { rewrite cos_PI4. unfold Rdiv. rewrite !Rmult_1_l, <- Rinv_mult. rewrite sqrt_sqrt by lra. reflexivity. }
  assert (P : 0 < cos (PI / 4)) by (rewrite cos_PI4; apply Rdiv_lt_0_compat; [lra | apply sqrt_lt_R0; lra]).
  split; [|now rewrite sin_PI4, cos_PI4].
  split; apply Rnot_le_lt; intros L.
  - assert (cos (PI / 4) * cos (PI / 4) <= 7/10 * (7/10)) by (apply Rmult_le_compat; lra). lra.
  - assert (3/4 * (3/4) <= cos (PI / 4) * cos (PI / 4)) by (apply Rmult_le_compat; lra). lra.
Qed.
Lemma inT : in_box tilted (place (kp 2 2 2)).
Proof.
  destruct c4 as [B E]. unfold in_box, tilted, place, kp. cbn [cx cy cz sx sy sz heading px py pz fst snd]. rewrite E. repeat split; apply Rabs_le; lra.
Qed.
Lemma farT : ~ near_box (1/4) tilted pT.
Proof.
  intros (k & [<-|[]] & _ & L). destruct c4 as [B E]. unfold box_distance, tilted, place, kp in L. cbn [cx cy cz sx sy sz heading px py pz fst snd] in L. rewrite E in L.
  set (c := cos (PI / 4)) in *. replace (c * (2 - 0) - c * (2 - 0)) with 0 in L by ring. rewrite !Rminus_0_r, Rabs_R0 in L.
  rewrite (Rmax_left 0 (0 - _)) in L by lra. rewrite (Rmax_left 0 (0 - _)) in L by lra. rewrite Rabs_right in L by lra. rewrite Rmax_right in L by lra.
  replace (0 * 0 + (c * 2 + c * 2 - 1 / 2) * (c * 2 + c * 2 - 1 / 2) + 0 * 0) with ((c * 2 + c * 2 - 1 / 2) * (c * 2 + c * 2 - 1 / 2)) in L by ring.
  rewrite sqrt_square in L by lra. lra.
Qed.
Lemma matchT assign : solves assign -> matching_ids assign (1/4) (f_boxes frameT) (f_gt frameT) (f_pr frameT) 1 = [].
Proof.
  intros HS. destruct frameT_sane as (FB & FG & FP). cbn [f_boxes f_gt f_pr frameT] in *.
  assert (D0 : 0 < 1/4) by lra. assert (D1 : 1/4 <= 10000000000) by lra. assert (N2 : (0 < 1)%nat) by lia.
  pose proof (match_one_to_one assign (1/4) _ _ _ 1 HS D0 D1 N2 FB FG FP) as (_ & _ & B).
  destruct (match_stages assign (1/4) _ _ _ 1 HS D0 D1 N2 FB FG FP) as (fi & se & E & F & _ & _ & G & _). rewrite E in *.
  assert (H : forall m, ~ In m (se ++ fi)).
  { intros m I. destruct (B m I) as [L1 L2]. cbn in L1, L2. assert (Z1 : fst m = 0%nat) by lia. assert (Z2 : snd m = 0%nat) by lia.
    apply in_app_iff in I. destruct I as [I|I].
    - destruct (G m I) as [X _]. rewrite Z1, Z2 in X. now apply farT.
    - destruct (F m I) as ((X & _) & _). rewrite Z1 in X. discriminate. }
  destruct (se ++ fi) as [|m l]; auto. exfalso. apply (H m). now left.
Qed.
Theorem heading_refuted : exists f n d, sane_frame n f /\ 0 < d /\ (0 < n)%nat /\ f_pr f = f_gt f /\
  (exists g, In g (f_gt f) /\ shows g = true) /\
  (forall i k, (i < length (f_gt f))%nat -> In k (person_at (f_gt f) i) -> in_box (box_at (f_boxes f) i) (place k)) /\
  forall assign, solves assign -> pem assign n d d [f] = Ok d.
Proof.
  exists frameT, 1%nat, (1/4). split; [apply frameT_sane|]. split; [lra|]. split; [lia|]. split; [reflexivity|]. split; [exists pT; split; [now left | reflexivity]|]. split.
  - intros i k I K. cbn in I. assert (i = 0)%nat by lia. subst i. cbn in K. destruct K as [<-|[]]. apply inT.
  - intros assign HS. rewrite pem_value_sum; auto; try lra; try lia; [|apply Forall_cons; [apply frameT_sane | apply Forall_nil]].
    f_equal. rewrite !sum_cons, !sum_nil. unfold err, pts, ids. rewrite matchT by auto. cbn [f_gt f_pr frameT].
    unfold frame_error, frame_points. cbn [map fst snd length]. change (unmatched [] 1) with [0%nat]. rewrite !sum_cons, !sum_nil. cbn [person_at nth].
    assert (V : visible_points pT = 1) by (unfold visible_points, pT; rewrite !sum_cons; visibles; unfold sum_of; cbn; lra).
    rewrite V. unfold mean_of. destruct (Req_EM_T _ _); lra.
Qed.

(** ** A frame that meets the hypotheses *)
Definition frameP : frame := {| f_boxes := [room]; f_gt := [gA]; f_pr := [gA] |}.
Lemma frameP_sane : sane_frame 2 frameP.
Proof.
  repeat split; cbn.
  - repeat constructor; cbn; lra.
  - intros o [<-|[]]; reflexivity.
  - intros o [<-|[]]; reflexivity.
Qed.
Lemma same_refl g : same_pose g g.
Proof.
  unfold same_pose. induction g as [|a g IH]; intros kk I; [destruct I|]. destruct I as [<-|I]; [cbn; auto | now apply IH].
Qed.
Lemma frameP_perfect : perfect (1/4) (f_boxes frameP) (f_gt frameP) (f_pr frameP) [(0, 0)]%nat.
Proof.
  split; [|split; [|split]]; cbn.
  - repeat split; cbn; try (constructor; [intros [] | constructor]); destruct H as [<-|[]]; cbn; lia.
  - intros m [<-|[]]. cbn. split; [reflexivity|]. split; [apply same_refl | apply room_near; lra].
  - intros i L _. lia.
  - intros i L _. lia.
Qed.
