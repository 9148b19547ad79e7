(** Proofs about the averages. *)
From Coq Require Import Reals Lra Psatz List Arith Lia Bool ZArith Permutation.
From Verif Require Import Base ResultLib GeomModel GeomBase PoseModel PoseSpec PoseReorder PoseBox PoseMatch PoseStages OksModel OksSpec OksProofs OksScores.
Import ListNotations.
Open Scope R_scope.

Definition times (vw : R * R) : R := fst vw * snd vw.
Lemma rsum_app a b : rsum (a ++ b) = rsum a + rsum b.
Proof. unfold rsum. rewrite fold_right_app. induction a as [|x a IH]; cbn [fold_right]; [lra | rewrite IH; lra]. Qed.
Lemma combine_app {A B} (a a' : list A) (b b' : list B) : length a = length b -> combine (a ++ a') (b ++ b') = combine a b ++ combine a' b'.
Proof. revert b. induction a as [|x a IH]; intros [|y b] L; cbn [length] in L; try lia; auto. cbn [app combine]. now rewrite IH by lia. Qed.
Lemma combine_map_l {A B C} (f : A -> B) (a : list A) : forall b : list C, combine (map f a) b = map (fun x => (f (fst x), snd x)) (combine a b).
Proof. induction a as [|x a IH]; intros [|y b]; auto. cbn [map combine fst snd]. now rewrite IH. Qed.
Lemma concat_sums {A} (v w : A -> list R) l : (forall a, In a l -> length (v a) = length (w a)) ->
  rsum (map times (combine (concat (map v l)) (concat (map w l)))) = sum_of (fun a => rsum (map times (combine (v a) (w a)))) l.
Proof.
  induction l as [|a l IH]; intros H; auto. cbn [map concat]. rewrite combine_app by (apply H; now left).
  rewrite map_app, rsum_app, sum_cons, IH; auto. intros b B. apply H. now right.
Qed.
Lemma concat_sum {A} (w : A -> list R) l : rsum (concat (map w l)) = sum_of (fun a => rsum (w a)) l.
Proof. induction l as [|a l IH]; auto. cbn [map concat]. rewrite rsum_app, sum_cons, IH. reflexivity. Qed.
Lemma sum_flat_map {A B} (f : B -> R) (g : A -> list B) l : sum_of f (flat_map g l) = sum_of (fun a => sum_of f (g a)) l.
Proof. induction l as [|a l IH]; auto. cbn [flat_map]. rewrite sum_app, sum_cons, IH. reflexivity. Qed.
Lemma sum_concat {A} (f : A -> R) l : sum_of f (concat l) = sum_of (sum_of f) l.
Proof. induction l as [|a l IH]; auto. cbn [concat]. rewrite sum_app, sum_cons, IH. reflexivity. Qed.
Lemma sum_perm {A} (f : A -> R) l m : Permutation l m -> sum_of f l = sum_of f m.
Proof. induction 1 as [|x l m P IH|x y l|l m k P IH P' IH']; rewrite ?sum_cons in *; lra. Qed.

(** ** One batch of a mean over keypoints *)
Definition masked (kind : weighting) (s : sample) : list R := map times (combine (pair_mask s) (weight_row kind s)).
Lemma masked_length n kind s : fits n kind s -> length (masked kind s) = n.
Proof.
  intros F. pose proof (weight_row_length n kind s F). destruct F as (G & P & _). unfold masked.
  rewrite map_length, combine_length, (pair_mask_length s n) by auto. lia.
Qed.
Lemma keypoint_batch n kind st (f : keypoint -> keypoint -> R -> R) (ks : sample -> list R) batch (value : sample -> list R) :
  Forall (fits n kind) batch -> Forall (fun s => length (ks s) = n) batch ->
  (forall s, In s batch -> value s = map (fun gpk => f (fst (fst gpk)) (snd (fst gpk)) (snd gpk)) (combine (combine (s_gt s) (s_pr s)) (ks s))) ->
  mean_update st (concat (map value batch)) (concat (map (masked kind) batch)) =
  {| total := total st + total_of (fun j => f (label j) (prediction j) (parameter j)) (all_joints kind ks batch);
     count := count st + total_weight (all_joints kind ks batch) |}.
Proof.
  intros F K V. rewrite Forall_forall in F, K. unfold mean_update. f_equal; f_equal.
  - change (fun vw : R * R => fst vw * snd vw) with times. rewrite concat_sums.
    + unfold total_of, all_joints. rewrite sum_flat_map. apply sum_ext. intros s I. rewrite V by auto.
      pose proof (F s I) as FS. pose proof (weight_row_length n kind s FS) as WL. pose proof (K s I). destruct FS as (G & P & _).
      apply weighted_sum; lia.
    + intros s I. rewrite V by auto. pose proof (F s I) as FS. rewrite (masked_length n) by auto. rewrite map_length, !combine_length.
      pose proof (K s I). destruct FS as (G & P & _). lia.
  - rewrite concat_sum. unfold total_weight, all_joints. rewrite sum_flat_map. apply sum_ext. intros s I.
    pose proof (F s I) as FS. pose proof (weight_row_length n kind s FS) as WL. pose proof (K s I). destruct FS as (G & P & _).
    apply weight_sum; lia.
Qed.
Lemma combine_length_eq {A B} (a : list A) (b : list B) n : length a = n -> length b = n -> length (combine a b) = n.
Proof. intros G P. rewrite combine_length, G, P. apply Nat.min_id. Qed.
Lemma check_ok n kind batch : Forall (fits n kind) batch -> mapM check_shapes batch = Ok (map (fun _ => tt) batch).
Proof.
  intros F. rewrite Forall_forall in F. apply mapM_ok. intros s I. destruct (F s I) as (G & P & _). unfold check_shapes. now rewrite G, P, Nat.eqb_refl.
Qed.
Lemma masked_all n kind batch : Forall (fits n kind) batch ->
  mapM (fun s => masked_weights kind (pair_mask s) (s_weight s)) batch = Ok (map (masked kind) batch).
Proof. intros F. rewrite Forall_forall in F. apply mapM_ok. intros s I. rewrite (masked_ok n) by auto. reflexivity. Qed.
Lemma no_parameter_length n kind batch : Forall (fits n kind) batch -> Forall (fun s => length (no_parameter s) = n) batch.
Proof. apply Forall_impl. intros s (G & _). unfold no_parameter. now rewrite repeat_length. Qed.
Lemma mpjpe_step n kind st batch : Forall (fits n kind) batch ->
  mpjpe_update kind st batch = Ok {| total := total st + total_of gap (all_joints kind no_parameter batch);
                                     count := count st + total_weight (all_joints kind no_parameter batch) |}.
Proof.
  intros F. unfold mpjpe_update. rewrite (check_ok n kind) by auto. cbn [bind]. rewrite (masked_all n) by auto. cbn [bind]. f_equal.
  rewrite (keypoint_batch n kind st (fun g p _ => dist3 (place g) (place p)) no_parameter); auto.
  - eapply no_parameter_length; eauto.
  - intros s I. rewrite Forall_forall in F. destruct (F s I) as (G & P & _). unfold position_error, no_parameter.
    rewrite G, <- (combine_length_eq (s_gt s) (s_pr s) n G P) at 1. rewrite combine_repeat, map_map. apply map_ext. intros gp. reflexivity.
Qed.
(** ** All batches *)
Lemma all_joints_app kind ks a b : all_joints kind ks (a ++ b) = all_joints kind ks a ++ all_joints kind ks b.
Proof. apply flat_map_app. Qed.
Lemma mean_fold (upd : mean_state -> list sample -> result mean_state) (ok : list sample -> Prop) (f : list sample -> R) (g : list sample -> R) batches :
  f [] = 0 -> g [] = 0 -> (forall a b, f (a ++ b) = f a + f b) -> (forall a b, g (a ++ b) = g a + g b) ->
  (forall st b, ok b -> upd st b = Ok {| total := total st + f b; count := count st + g b |}) -> Forall ok batches ->
  forall st, foldM upd batches st = Ok {| total := total st + f (concat batches); count := count st + g (concat batches) |}.
Proof.
  intros F0 G0 FA GA U. induction batches as [|b l IH]; intros A st.
  - cbn [foldM concat]. rewrite F0, G0. destruct st as [a b]; cbn [total count]. f_equal; f_equal; lra.
  - inversion A; subst. cbn [foldM concat]. rewrite U by auto. cbn [bind]. rewrite IH by auto. cbn [total count]. rewrite FA, GA.
    f_equal; f_equal; lra.
Qed.
Lemma total_app f a b : total_of f (a ++ b) = total_of f a + total_of f b. Proof. apply sum_app. Qed.
Lemma total_weight_app a b : total_weight (a ++ b) = total_weight a + total_weight b. Proof. apply sum_app. Qed.
Theorem mpjpe_value n kind batches : Forall (Forall (fits n kind)) batches ->
  exists st, foldM (mpjpe_update kind) batches mean_zero = Ok st /\
    mean_result st = let js := all_joints kind no_parameter (concat batches) in mean_of (total_of gap js) (total_weight js).
Proof.
  intros F. eexists. split.
  - apply (mean_fold (mpjpe_update kind) (Forall (fits n kind)) (fun l => total_of gap (all_joints kind no_parameter l))
             (fun l => total_weight (all_joints kind no_parameter l))); auto.
    + intros a b. rewrite all_joints_app. apply total_app.
    + intros a b. rewrite all_joints_app. apply total_weight_app.
    + intros st b B. now apply mpjpe_step with n.
  - unfold mean_result. cbn [total count mean_zero]. cbv zeta. rewrite !Rplus_0_l. reflexivity.
Qed.

(** ** Correct keypoints *)
Lemma allowed_length n c size t s kind : fits n kind s -> sane_config n c -> length (allowed c size t s) = n.
Proof.
  intros (G & _) S. unfold allowed, sane_config in *. cbv zeta. destruct (per_type c) as [ks|]; [rewrite map_length; tauto | now rewrite repeat_length].
Qed.
Lemma threshold_ok two_d n c has_box size t s kind : fits n kind s -> sane_config n c -> (use_object_scale c = true -> has_box = true) ->
  is_size two_d (s_box s) (size (s_box s)) ->
  keypoint_threshold two_d c has_box t s = Ok (allowed c size t s).
Proof.
  intros (G & _) S H Z. unfold keypoint_threshold, allowed, sane_config in *. cbv zeta. rewrite (box_scale_size _ _ _ Z).
  destruct (use_object_scale c); [rewrite (H eq_refl)|]; cbn [bind]; (destruct (per_type c) as [ks|]; [|reflexivity]);
    destruct S as [L _]; rewrite L, G, Nat.eqb_refl; reflexivity.
Qed.
Section Pck.
  Variables (two_d : bool) (n : nat) (c : pck_config) (has_box : bool) (size : box3 -> R) (kind : weighting).
  Hypothesis config : sane_config n c.
  Hypothesis boxed : use_object_scale c = true -> has_box = true.
  Definition good (s : sample) : Prop := fits n kind s /\ is_size two_d (s_box s) (size (s_box s)).
  Lemma good_fits batch : Forall good batch -> Forall (fits n kind) batch.
  Proof. apply Forall_impl. now intros s []. Qed.
  Lemma pck_step t st batch : Forall good batch ->
    pck_update two_d c has_box kind t st batch =
    Ok {| total := total st + total_of within (all_joints kind (allowed c size t) batch);
          count := count st + total_weight (all_joints kind (allowed c size t) batch) |}.
  Proof using config boxed.
    intros A. pose proof (good_fits batch A) as F. unfold pck_update. rewrite (check_ok n kind) by auto. cbn [bind].
    rewrite (mapM_ok _ (fun s => map (fun et => if rleb (fst et) (snd et) then 1 else 0) (combine (position_error s) (allowed c size t s)))).
    2: { intros s I. rewrite Forall_forall in A. destruct (A s I) as [FS Z]. unfold is_correct.
         rewrite (threshold_ok two_d n c has_box size t s kind) by auto. reflexivity. }
    cbn [bind]. rewrite (masked_all n) by auto. cbn [bind]. f_equal.
    rewrite (keypoint_batch n kind st (fun g p k => if rleb (dist3 (place g) (place p)) k then 1 else 0) (allowed c size t)); auto.
    - f_equal. f_equal. unfold total_of. apply sum_ext. intros j _. destruct (both j); auto. f_equal. unfold within, gap.
      destruct (rleb _ _) eqn:E; destruct (Rle_dec _ _) as [L|L]; auto.
      + apply rleb_iff in E. contradiction.
      + apply rleb_false in E. lra.
    - apply Forall_forall. intros s I. rewrite Forall_forall in F. eapply allowed_length; eauto.
    - intros s I. unfold position_error. rewrite combine_map_l, map_map. apply map_ext. intros [[g p] k]. reflexivity.
  Qed.
  Theorem pck_value t batches : Forall (Forall good) batches ->
    exists st, foldM (pck_update two_d c has_box kind t) batches mean_zero = Ok st /\
      mean_result st = let js := all_joints kind (allowed c size t) (concat batches) in mean_of (total_of within js) (total_weight js).
  Proof using config boxed.
    intros F. eexists. split.
    - apply (mean_fold (pck_update two_d c has_box kind t) (Forall good) (fun l => total_of within (all_joints kind (allowed c size t) l))
               (fun l => total_weight (all_joints kind (allowed c size t) l))); auto.
      + intros a b. rewrite all_joints_app. apply total_app.
      + intros a b. rewrite all_joints_app. apply total_weight_app.
      + intros st b B. now apply pck_step.
    - unfold mean_result. cbn [total count mean_zero]. cbv zeta. rewrite !Rplus_0_l. reflexivity.
  Qed.
End Pck.
Definition pck_of (kind : weighting) (c : pck_config) (size : box3 -> R) (t : R) (l : list sample) : R :=
  let js := all_joints kind (allowed c size t) l in mean_of (total_of within js) (total_weight js).
Lemma all_weighty n kind ks l : Forall (fits n kind) l -> weighty (all_joints kind ks l).
Proof.
  intros F j I. apply in_flat_map in I. destruct I as (s & S & I). rewrite Forall_forall in F. apply (joints_weighty n kind (ks s) s (F s S) j I).
Qed.
Theorem pck_range n kind c size t l : Forall (fits n kind) l -> 0 <= pck_of kind c size t l <= 1.
Proof.
  intros F. unfold pck_of. cbv zeta. apply mean_range, total_range; [now apply all_weighty with n|].
  intros j _. unfold within. destruct (Rle_dec _ _); lra.
Qed.
Lemma wider_sums gt : forall pr ks ks' ws, Forall2 Rle ks ks' -> Forall (fun w => 0 <= w) ws ->
  let js := map mk (combine (combine (combine gt pr) ks) ws) in
  let js' := map mk (combine (combine (combine gt pr) ks') ws) in
  total_weight js = total_weight js' /\ total_of within js <= total_of within js'.
Proof.
  induction gt as [|g gt IH]; intros [|p pr] ks ks' ws K W; try (cbv zeta; cbn; split; reflexivity || lra).
  destruct K as [|k k' ks ks' KK K]; [cbv zeta; cbn; split; reflexivity || lra|].
  destruct ws as [|w ws]; [cbv zeta; cbn; split; reflexivity || lra|].
  inversion W as [|? ? W1 W2]; subst. destruct (IH pr ks ks' ws K W2) as [A B].
  cbn [combine map]. cbv zeta. unfold total_weight, total_of in *. rewrite !sum_cons.
  change (both (mk (g, p, k, w))) with (there g && there p). change (both (mk (g, p, k', w))) with (there g && there p).
  cbn [mk label prediction parameter weight fst snd] in *. split; [f_equal; exact A|].
  apply Rplus_le_compat; [|exact B]. destruct (there g && there p); [|lra]. apply Rmult_le_compat_l; auto.
  unfold within, gap. cbn [mk label prediction parameter fst snd].
  destruct (Rle_dec _ k), (Rle_dec _ k'); lra.
Qed.
Lemma forall2_repeat a b n : a <= b -> Forall2 Rle (repeat a n) (repeat b n).
Proof. intros L. induction n; cbn [repeat]; auto. Qed.
Lemma allowed_mono n c size t t' s : sane_config n c -> 0 <= size (s_box s) -> t <= t' -> Forall2 Rle (allowed c size t s) (allowed c size t' s).
Proof.
  intros S Z T. unfold allowed, sane_config in *. cbv zeta.
  assert (B : (if use_object_scale c then t * size (s_box s) else t) <= (if use_object_scale c then t' * size (s_box s) else t')).
  { destruct (use_object_scale c); [now apply Rmult_le_compat_r | auto]. }
  destruct (per_type c) as [ks|]; [|now apply forall2_repeat]. destruct S as [_ K]. induction K as [|k ks PK K IH]; cbn [map]; auto.
  constructor; auto. now apply Rmult_le_compat_r.
Qed.
Theorem pck_mono n kind c size t t' l : sane_config n c -> Forall (fits n kind) l -> Forall (fun s => 0 <= size (s_box s)) l -> t <= t' ->
  pck_of kind c size t l <= pck_of kind c size t' l.
Proof.
  intros S F Z T. pose proof (all_weighty n kind (allowed c size t) l F) as W. unfold pck_of. cbv zeta.
  assert (H : total_weight (all_joints kind (allowed c size t) l) = total_weight (all_joints kind (allowed c size t') l) /\
              total_of within (all_joints kind (allowed c size t) l) <= total_of within (all_joints kind (allowed c size t') l)).
  { clear W. induction F as [|s l FS F IH]; [cbn; split; reflexivity || lra|]. inversion Z as [|? ? ZS ZL]; subst. destruct (IH ZL) as [A B].
    destruct (wider_sums (s_gt s) (s_pr s) _ _ (weight_row kind s) (allowed_mono n c size t t' s S ZS T) (weight_row_nonneg n kind s FS)) as [A' B'].
    unfold all_joints in *. cbn [flat_map]. rewrite !total_weight_app, !total_app.
    change (map mk (combine (combine (combine (s_gt s) (s_pr s)) (allowed c size t s)) (weight_row kind s))) with (joints kind (allowed c size t s) s) in *.
    change (map mk (combine (combine (combine (s_gt s) (s_pr s)) (allowed c size t' s)) (weight_row kind s))) with (joints kind (allowed c size t' s) s) in *.
    split; [now rewrite A, A' | lra]. }
  destruct H as [A B]. rewrite <- A. apply mean_le; auto. unfold total_weight. apply sum_nonneg. intros j I. specialize (W j I). destruct (both j); lra.
Qed.
Lemma joints_perm f kind ks l m : Permutation l m -> sum_of f (all_joints kind ks l) = sum_of f (all_joints kind ks m).
Proof. intros P. unfold all_joints. rewrite !sum_flat_map. now apply sum_perm. Qed.
