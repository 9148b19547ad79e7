(** Proofs about the keypoint and object asset tutorials. *)
From Coq Require Import QArith Qabs Qround String Lia Lqa.
From Verif Require Import Base ResultLib CombModel KatModel KatSpec.
Open Scope list_scope.

Lemma loop_members {L} (ts : list Z) : forall (ls : list L) vs k, In k (keypoints_loop ls vs ts) <-> exists i,
  nth_error ts i = Some (k_type k) /\ nth_error ls i = Some (k_location k) /\ (exists v, nth_error vs i = Some v /\ v <> 0%Z) /\ k_occluded k = false.
Proof.
  induction ts as [|t ts IH]; intros ls vs k.
  - split; [destruct ls, vs; intros []|]. intros ([|i] & H & _); discriminate H.
  - destruct ls as [|l ls]; [split; [intros []|intros ([|i] & _ & H & _); discriminate H]|].
    destruct vs as [|v vs]; [split; [intros []|intros ([|i] & _ & _ & (w & H & _) & _); discriminate H]|].
    cbn [keypoints_loop]. destruct (Z.eqb_spec v 0) as [Z|Z].
    + rewrite IH. split; [intros (i & H); exists (S i); exact H|]. intros ([|i] & A & B & (w & W & N) & O); [cbn in W; congruence|]. exists i. cbn in *. repeat split; eauto.
    + cbn [In]. rewrite IH. split.
      * intros [<-|(i & H)]; [exists O; cbn; repeat split; eauto|exists (S i); exact H].
      * intros ([|i] & A & B & (w & W & N) & O); [left|right; exists i; cbn in *; repeat split; eauto]. cbn in A, B. destruct k; cbn in *. congruence.
Qed.
Lemma keypoints_exact {L} (ls : list L) vs k : In k (create_all_keypoints_proto ls vs) <-> exists i, visible_joint ls vs i k.
Proof. apply loop_members. Qed.
Lemma loop_types {L} (ts : list Z) : NoDup ts -> forall (ls : list L) vs, NoDup (map k_type (keypoints_loop ls vs ts)).
Proof.
  induction 1 as [|t ts N D IH]; intros [|l ls] [|v vs]; cbn [keypoints_loop map]; try constructor.
  destruct (v =? 0)%Z; [apply IH|]. cbn [map k_type]. constructor; [|apply IH]. intros H. apply in_map_iff in H. destruct H as (k & K & I). apply loop_members in I.
  destruct I as (i & I & _). apply nth_error_In in I. congruence.
Qed.
Lemma keypoints_distinct {L} (ls : list L) vs : NoDup (map k_type (create_all_keypoints_proto ls vs)).
Proof.
  apply loop_types. unfold CANONICAL_ORDER_LASER, SHARED_TYPES. cbn. repeat (constructor; [cbn; intuition discriminate|]). constructor.
Qed.
Lemma pose_exact {L B} c t : forall (ls : list (list L)) vs (bs : list B), List.length vs = List.length ls -> List.length bs = List.length ls ->
  List.length (pose_estimation c t ls vs bs) = List.length ls /\ forall i p, nth_error (pose_estimation c t ls vs bs) i = Some p -> pose_of (Detected c t ls vs bs) i p.
Proof.
  induction ls as [|l ls IH]; intros [|v vs] [|b bs] V W; try discriminate.
  - split; [reflexivity|]. intros [|i] p; discriminate.
  - injection V as V. injection W as W. destruct (IH vs bs V W) as [N H]. cbn [pose_estimation List.length]. split; [now rewrite N|]. intros [|i] p P.
    + injection P as <-. unfold pose_of. cbn. repeat split. exists l, v. split; [reflexivity|]. split; [reflexivity|]. intros k. apply keypoints_exact.
    + apply H in P. exact P.
Qed.
Lemma submission_fold {L B} : forall (frames : list (detected L B)) s n, make_submission frames s n =
  (s ++ flat_map (fun f => pose_estimation (d_context f) (d_time f) (d_locations f) (d_visible f) (d_boxes f)) frames, (n + List.length frames)%nat).
Proof.
  induction frames as [|f frames IH]; intros s n; cbn [make_submission flat_map List.length]; [now rewrite app_nil_r, Nat.add_0_r|].
  rewrite IH, <- app_assoc. f_equal. lia.
Qed.
Lemma submission_exact {L B} (frames : list (detected L B)) :
  (forall f, In f frames -> List.length (d_visible f) = List.length (d_locations f) /\ List.length (d_boxes f) = List.length (d_locations f)) ->
  snd (make_submission frames [] 0) = List.length frames /\ exists parts, fst (make_submission frames [] 0) = concat parts /\
    Forall2 (fun f ps => List.length ps = List.length (d_locations f) /\ forall i p, nth_error ps i = Some p -> pose_of f i p) frames parts.
Proof.
  intros H. rewrite submission_fold. cbn [fst snd app]. split; [reflexivity|].
  exists (map (fun f => pose_estimation (d_context f) (d_time f) (d_locations f) (d_visible f) (d_boxes f)) frames). split; [apply flat_map_concat_map|].
  induction frames as [|f frames IH]; cbn [map]; constructor.
  - destruct (H f (or_introl eq_refl)) as [V W]. destruct f as [c t ls vs bs]. exact (pose_exact c t ls vs bs V W).
  - apply IH. intros g G. apply H. now right.
Qed.
Lemma count_fold {L B} (s : list (pose L B)) : forall n, fold_left (fun n e => (n + List.length (p_keypoints e))%nat) s n = (n + List.length (flat_map p_keypoints s))%nat.
Proof. induction s as [|p s IH]; intros n; cbn [fold_left flat_map]; [cbn; lia|]. rewrite IH, app_length. lia. Qed.
Lemma count_exact {L B} (s : list (pose L B)) : keypoint_count s = List.length (flat_map p_keypoints s).
Proof. unfold keypoint_count. now rewrite count_fold. Qed.

Lemma color_exact value m color alpha : byte value -> byte color -> (0 <= alpha <= 1)%Q -> byte (color_value value m color alpha) /\ blended value m color alpha (color_value value m color alpha).
Proof.
  intros [V1 V2] [C1 C2] [A1 A2]. unfold color_value, blended, byte. destruct m; [|rewrite Z.mod_small by lia; split; [lia|split; [reflexivity|discriminate]]].
  set (bg := (inject_Z value * (1 - alpha) + alpha * inject_Z color)%Q).
  assert (v1 : (0 <= inject_Z value)%Q) by (change 0%Q with (inject_Z 0); now rewrite <- Zle_Qle). assert (v2 : (inject_Z value <= 255)%Q) by (change 255%Q with (inject_Z 255); now rewrite <- Zle_Qle).
  assert (c1 : (0 <= inject_Z color)%Q) by (change 0%Q with (inject_Z 0); now rewrite <- Zle_Qle). assert (c2 : (inject_Z color <= 255)%Q) by (change 255%Q with (inject_Z 255); now rewrite <- Zle_Qle).
  assert (L : (0 <= bg)%Q) by (unfold bg; nra).
  assert (U : (bg <= 255)%Q) by (unfold bg; nra).
  assert (FL : (0 <= Qfloor bg)%Z) by (change 0%Z with (Qfloor 0); now apply Qfloor_resp_le).
  assert (FU : (Qfloor bg <= 255)%Z) by (apply Z.le_trans with (Qfloor 255); [now apply Qfloor_resp_le|vm_compute; discriminate]).
  rewrite Z.mod_small by lia. split; [lia|]. split; [discriminate|]. intros _. split; [apply Qfloor_le|].
  pose proof (Qlt_floor bg) as K. rewrite inject_Z_plus in K. exact K.
Qed.
Lemma mask_exact image : forall mask color alpha r, apply_color_mask image mask color alpha = Ok r -> Forall (Forall byte) image -> Forall byte color -> (0 <= alpha <= 1)%Q ->
  List.length r = List.length image /\ List.length mask = List.length image /\ forall i p m q, nth_error image i = Some p -> nth_error mask i = Some m -> nth_error r i = Some q ->
  List.length q = List.length p /\ forall j v c w, nth_error p j = Some v -> nth_error color j = Some c -> nth_error q j = Some w -> byte w /\ blended v m c alpha w.
Proof.
  induction image as [|p image IH]; intros [|m mask] color alpha r; cbn [apply_color_mask]; try discriminate.
  - intros [= <-] _ _ _. repeat split; destruct i; discriminate.
  - destruct (Nat.eqb_spec (List.length p) (List.length color)) as [E|E]; [|discriminate].
    destruct (apply_color_mask image mask color alpha) as [rest|] eqn:R; cbn [bind]; [|discriminate]. intros [= <-] F C A. inversion F as [|? ? Fp Fi]; subst.
    destruct (IH mask color alpha rest R Fi C A) as (N & M & H). cbn [List.length]. split; [now rewrite N|]. split; [now rewrite M|].
    intros [|i] p0 m0 q P Q R'; [|exact (H i p0 m0 q P Q R')]. injection P as <-. injection Q as <-. injection R' as <-.
    split; [rewrite map_length, combine_length, E; lia|]. intros j v c w J1 J2 J3.
    assert (G : nth_error (combine p color) j = Some (v, c)).
    { clear - J1 J2. revert color j J1 J2. induction p as [|a p IH]; intros [|b color] [|j] J1 J2; cbn in *; try discriminate; [congruence|now apply IH]. }
    rewrite nth_error_map, G in J3. injection J3 as <-. cbn [fst snd]. apply color_exact; [| |exact A].
    + rewrite Forall_forall in Fp. apply Fp. eapply nth_error_In, J1.
    + rewrite Forall_forall in C. apply C. eapply nth_error_In, J2.
Qed.

Lemma line_ok {A} n m (images : list A) : forall s, (s + List.length images <= n)%nat -> (0 < m)%nat -> mapM (fun ia => do p <- place (Line n) m (fst ia); Ok (p, snd ia)) (combine (seq s (List.length images)) images) = Ok (combine (seq s (List.length images)) images).
Proof.
  induction images as [|a images IH]; intros s H M; cbn [List.length seq combine mapM]; [reflexivity|]. cbn [List.length] in H. cbn [fst snd]. unfold place at 1.
  destruct (Nat.ltb_spec 0 m) as [_|?]; [|lia]. destruct (Nat.ltb_spec s n) as [_|?]; [|lia]. cbn [bind]. rewrite IH by lia. reflexivity.
Qed.
Lemma line_err {A} n m (images : list A) : forall s, (s <= n)%nat -> (n < s + List.length images)%nat -> (0 < m)%nat -> mapM (fun ia => do p <- place (Line n) m (fst ia); Ok (p, snd ia)) (combine (seq s (List.length images)) images) = Err IndexError.
Proof.
  induction images as [|a images IH]; intros s S H M; cbn [List.length] in H; [lia|]. cbn [List.length seq combine mapM fst snd]. unfold place at 1.
  destruct (Nat.ltb_spec 0 m) as [_|?]; [|lia]. destruct (Nat.ltb_spec s n) as [?|?]; cbn [bind]; [|reflexivity]. rewrite IH by lia. reflexivity.
Qed.
Lemma grid_exact {A} h w (images : list A) r : grid_imshow h w images = Ok r <->
  (0 < h)%nat /\ (0 < w)%nat /\ r = combine (seq 0 (List.length images)) images /\
  (images = [] \/ ((h = 1%nat /\ (1 < w)%nat \/ w = 1%nat /\ (1 < h)%nat) /\ (List.length images <= h * w)%nat)).
Proof.
  unfold grid_imshow, plt_subplots. destruct (Nat.eqb_spec h 0) as [->|H]; cbn [orb bind]; [split; [discriminate|lia]|].
  destruct (Nat.eqb_spec w 0) as [->|W]; cbn [bind]; [split; [discriminate|lia]|].
  destruct images as [|a images].
  - cbn [List.length seq combine mapM]. assert (G : forall x : subplots, (do axes <- Ok x; Ok ([] : list (nat * A))) = Ok []) by reflexivity.
    destruct (h =? 1)%nat, (w =? 1)%nat; cbn [andb bind]; (split; [intros [= <-]; repeat split; try lia; now left|intros (_ & _ & -> & _); reflexivity]).
  - destruct (Nat.eqb_spec h 1) as [->|H1]; destruct (Nat.eqb_spec w 1) as [->|W1]; cbn [andb bind].
    + cbn. split; [discriminate|]. intros (_ & _ & _ & [E|([[_ E]|[_ E]] & _)]); [discriminate|lia|lia].
    + destruct (Nat.le_gt_cases (List.length (a :: images)) w) as [N|N].
      * rewrite line_ok by (cbn [List.length] in *; lia). split; [intros [= <-]; repeat split; lia|intros (_ & _ & -> & _); reflexivity].
      * rewrite line_err by (cbn [List.length] in *; lia). split; [discriminate|]. intros (_ & _ & _ & [E|(_ & E)]); [discriminate|lia].
    + destruct (Nat.le_gt_cases (List.length (a :: images)) h) as [N|N].
      * rewrite line_ok by (cbn [List.length] in *; lia). split; [intros [= <-]; repeat split; lia|intros (_ & _ & -> & _); reflexivity].
      * rewrite line_err by (cbn [List.length] in *; lia). split; [discriminate|]. intros (_ & _ & _ & [E|(_ & E)]); [discriminate|lia].
    + cbn [List.length seq combine mapM fst snd]. unfold place at 1. cbn [Nat.ltb Nat.leb]. destruct h as [|h]; [lia|]. cbn. split; [discriminate|].
      intros (_ & _ & _ & [E|([[E _]|[E _]] & _)]); [discriminate|lia|lia].
Qed.
Theorem single_image_refuted : ~ (forall A h w (images : list A), (0 < h)%nat -> (0 < w)%nat -> (List.length images <= h * w)%nat -> exists r, grid_imshow h w images = Ok r).
Proof. intros H. destruct (H nat 1%nat 1%nat [5%nat]) as (r & R); [lia|lia|cbn; lia|]. discriminate R. Qed.

Lemma chunks_concat {A} w (g : list (list A)) : Forall (fun r => List.length r = w) g -> chunks (List.length g) w (concat g) = g.
Proof.
  induction 1 as [|r g R G IH]; [reflexivity|]. cbn [List.length concat chunks]. rewrite <- R at 1. rewrite firstn_app, Nat.sub_diag, firstn_all. cbn [firstn]. rewrite app_nil_r.
  rewrite <- R at 2. rewrite skipn_app, Nat.sub_diag, skipn_all. cbn [skipn app]. now rewrite IH.
Qed.
Fixpoint zip2 {V} (f : V -> V -> bool) (a b : list (list V)) : list (list bool) :=
  match a, b with r :: a', s :: b' => map (fun od => f (fst od) (snd od)) (combine r s) :: zip2 f a' b' | _, _ => [] end.
Lemma combine_app' {A B} (a1 : list A) : forall (b1 : list B) a2 b2, List.length a1 = List.length b1 -> combine (a1 ++ a2) (b1 ++ b2) = combine a1 b1 ++ combine a2 b2.
Proof. induction a1 as [|x a1 IH]; intros [|y b1] a2 b2 H; try discriminate; [reflexivity|]. injection H as H. cbn. now rewrite IH. Qed.
Lemma zip2_concat {V} (f : V -> V -> bool) w : forall a b, List.length a = List.length b -> Forall (fun r => List.length r = w) a -> Forall (fun r => List.length r = w) b ->
  map (fun od => f (fst od) (snd od)) (combine (concat a) (concat b)) = concat (zip2 f a b) /\ rectangle (List.length a) w (zip2 f a b) /\
  forall y x o d, pixel a y x = Some o -> pixel b y x = Some d -> pixel (zip2 f a b) y x = Some (f o d).
Proof.
  unfold rectangle, pixel. induction a as [|r a IH]; intros [|s b] N A B; try discriminate.
  - repeat split; [constructor|]. intros [|y] x o d; discriminate.
  - injection N as N. inversion A as [|? ? R A']; subst. inversion B as [|? ? S B']; subst. destruct (IH b N A' B') as (E & (L & F) & P). cbn [concat zip2]. split; [|split].
    + rewrite combine_app' by (symmetry; exact S). rewrite map_app, E. reflexivity.
    + cbn [List.length]. split; [now rewrite L|]. constructor; [rewrite map_length, combine_length, S; lia|exact F].
    + intros [|y] x o d; cbn [nth_error]; [|apply P]. clear. intros O D. rewrite nth_error_map.
      assert (G : nth_error (combine r s) x = Some (o, d)) by (revert s x O D; induction r as [|u r IH]; intros [|v s] [|x] O D; cbn in *; try discriminate; [congruence|now apply IH]).
      now rewrite G.
Qed.
Lemma length_concat {A} w (g : list (list A)) : Forall (fun r => List.length r = w) g -> List.length (concat g) = (List.length g * w)%nat.
Proof. induction 1 as [|r g R G IH]; [reflexivity|]. cbn [concat List.length]. rewrite app_length, IH, R. lia. Qed.
Lemma ray_mask_exact {V S} (hit : V -> V -> S -> bool) h w origin direction size : (0 < h)%nat -> rectangle h w origin -> rectangle h w direction ->
  exists mask, compute_ray_mask hit origin direction size origin direction size = Ok mask /\ rectangle h w mask /\
  forall y x o d, pixel origin y x = Some o -> pixel direction y x = Some d -> pixel mask y x = Some (hit o d size).
Proof.
  intros H [OL OF] [DL DF]. destruct (zip2_concat (fun o d => hit o d size) w origin direction) as (E & R & P); [congruence|assumption|assumption|].
  exists (zip2 (fun o d => hit o d size) origin direction). split; [|split; [now rewrite OL in R|exact P]].
  unfold compute_ray_mask.
  assert (W : List.length (hd [] origin) = w) by (destruct origin as [|r origin]; [cbn in OL; lia|inversion OF; assumption]). rewrite W.
  rewrite E. destruct R as [RL RF]. rewrite (length_concat w _ RF), RL, Nat.eqb_refl. rewrite <- RL at 1. now rewrite chunks_concat.
Qed.
Lemma ray_mask_ignores {V S} (hit : V -> V -> S -> bool) go gd gs o d s d' s' : compute_ray_mask hit go gd gs o d s = compute_ray_mask hit go gd gs o d' s'.
Proof. reflexivity. Qed.
Theorem ray_mask_refuted : ~ (forall (hit : Z -> Z -> Z -> bool) go gd gs o d s mask, compute_ray_mask hit go gd gs o d s = Ok mask ->
  forall y x a b, pixel o y x = Some a -> pixel d y x = Some b -> pixel mask y x = Some (hit a b s)).
Proof.
  intros H. specialize (H (fun a _ _ => (a =? 0)%Z) [[0%Z]] [[0%Z]] 0%Z [[1%Z]] [[1%Z]] 1%Z _ eq_refl 0%nat 0%nat 1%Z 1%Z eq_refl eq_refl). discriminate H.
Qed.
Lemma shown_general {A} limit : forall (frames : list A) i, (i <= limit + 1)%nat -> frames_shown limit i frames = firstn (limit + 2 - i) frames.
Proof.
  induction frames as [|f frames IH]; intros i H; cbn [frames_shown]; [now rewrite firstn_nil|]. destruct (Nat.ltb_spec limit i) as [L|L].
  - replace (limit + 2 - i)%nat with 1%nat by lia. reflexivity.
  - rewrite IH by lia. replace (limit + 2 - i)%nat with (S (limit + 2 - (i + 1)))%nat by lia. reflexivity.
Qed.
Lemma shown_exact {A} limit (frames : list A) : frames_shown limit 0 frames = firstn (limit + 2) frames.
Proof. rewrite shown_general by lia. f_equal. lia. Qed.
