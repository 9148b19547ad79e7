(** Properties C08 and C09: multi object tracking evaluation. *)
From Coq Require Import Permutation.
From Verif Require Import Base MatcherModel MatcherSpec ScoreFirstProofs MotModel MotSpec MotFrameProofs MotSeqProofs.
Open Scope Z_scope.

(** C08. Every sequence of admissible frames is evaluated without a fatal check, whatever the
    hash order and the matcher, and the remembered correspondence is one-to-one. *)
Theorem C08_sequence_one_to_one : forall fs, Forall mframe_ok fs ->
  exists st ms, eval_all mot_init fs = Ok (st, ms) /\
    one_to_one (gt_pd st) /\ inverse_of (gt_pd st) (pd_gt st) /\ length ms = length fs.
Proof.
  intros fs H. destruct (eval_all_ok fs mot_init H init_ok) as (st & ms & E & (A & _ & B) & L).
  exists st, ms. auto.
Qed.
Print Assumptions C08_sequence_one_to_one.

(** C08. Each frame after any history: its correspondences are one-to-one and matchable, every
    remembered pair that is still matchable is kept, and the memory is exactly updated. *)
Theorem C08_frame_correspondences : forall st f, reachable st -> mframe_ok f ->
  exists st' nw, eval st f = Ok (st', nw) /\ reachable st' /\ correspondences st f st' nw.
Proof.
  intros st f Hr Hf. destruct (eval_reachable st f Hr Hf) as (st' & nw & E & R & C & _).
  exists st', nw. auto.
Qed.
Print Assumptions C08_frame_correspondences.

(** C08. Both matchers of the library are admissible. *)
Theorem C08_hungarian_admissible : forall (box : Type) (cfg : config box) fr t,
  frame_ok cfg fr -> info_ok fr t -> mframe_ok (hungarian_frame cfg fr t).
Proof. intros box cfg fr t H1 H2. exact (hungarian_frame_ok cfg fr H1 t H2). Qed.
Print Assumptions C08_hungarian_admissible.
Theorem C08_score_first_admissible : forall (box : Type) (cfg : config box) fr order t,
  frame_ok cfg fr -> info_ok fr t ->
  (forall ps, Forall (fun x => x < length (preds fr))%nat ps -> score_order fr ps (order ps)) ->
  mframe_ok (score_first_frame cfg fr order t).
Proof. intros box cfg fr order t H1 H2 H3. exact (score_first_frame_ok cfg fr H1 order t H2 H3). Qed.
Print Assumptions C08_score_first_admissible.

(** C08. A repeated ground truth id is always fatal. *)
Theorem C08_duplicate_ground_truth_fatal : forall st f,
  Forall (fun x => x < length (pids f))%nat (psub f) -> Forall (fun y => y < length (gids f))%nat (gsub f) ->
  ~ NoDup (map (fun y => nth y (gids f) 0%nat) (gsub f)) -> eval st f = Err CheckFailed.
Proof. exact eval_duplicate_gt. Qed.
Print Assumptions C08_duplicate_ground_truth_fatal.

(** C08. The reported numbers may depend on the hash order when pairs tie. *)
Theorem C08_hash_order_independence_refuted :
  exists it it' : amap -> amap,
    (forall m, Permutation (it m) m) /\ (forall m, Permutation (it' m) m) /\
    Forall mframe_ok (flicker it) /\ Forall mframe_ok (flicker it') /\
    final_mismatches (eval_all mot_init (flicker it)) <> final_mismatches (eval_all mot_init (flicker it')).
Proof.
  exists (fun m => m), rev_gts. destruct flicker_runs as [E1 E2]. rewrite E1, E2.
  split; [intros m; apply Permutation_refl|]. split; [exact rev_gts_perm|].
  split; [apply flicker_ok; intros m; apply Permutation_refl|]. split; [apply flicker_ok, rev_gts_perm|discriminate].
Qed.
Print Assumptions C08_hash_order_independence_refuted.

(** C09. Each counter changes by the number of objects of the frame its definition names. *)
Theorem C09_frame_accounting : forall st f, reachable st -> mframe_ok f ->
  exists st' nw, eval st f = Ok (st', nw) /\ accounting st f st' nw.
Proof.
  intros st f Hr Hf. destruct (eval_reachable st f Hr Hf) as (st' & nw & E & _ & _ & A).
  exists st', nw. auto.
Qed.
Print Assumptions C09_frame_accounting.

(** C09. Counted ground truths are matched or missed; counters are not negative; at most two
    identity switches per match. *)
Theorem C09_totals_add_up : forall st, reachable st ->
  objects_gt (meas st) = matches (meas st) + misses (meas st) /\
  0 <= misses (meas st) /\ 0 <= fps (meas st) /\ 0 <= matches (meas st) /\
  0 <= mismatches (meas st) <= 2 * matches (meas st).
Proof. exact reachable_totals. Qed.
Print Assumptions C09_totals_add_up.

(** ** Non-vacuity *)
Example flicker_admissible : Forall mframe_ok (flicker rev_gts).
Proof. apply flicker_ok, rev_gts_perm. Qed.
Definition summary (r : result (mot * list amap)) :=
  match r with
  | Ok (st, ms) => Some (gt_pd st, ms, misses (meas st), fps (meas st), mismatches (meas st),
                         matches (meas st), objects_gt (meas st))
  | Err _ => None
  end.
Example flicker_crossed : summary (eval_all mot_init (flicker rev_gts))
  = Some ([(20, 10)]%nat, [[(21, 10); (20, 11)]; [(20, 10)]]%nat, 0, 0, 2, 3, 3).
Proof. vm_compute. reflexivity. Qed.
Example flicker_straight : summary (eval_all mot_init (flicker (fun m => m)))
  = Some ([(20, 10); (21, 11)]%nat, [[(20, 10); (21, 11)]; [(20, 10)]]%nat, 0, 0, 0, 3, 3).
Proof. vm_compute. reflexivity. Qed.
(** A prediction in a no-label zone and a too difficult ground truth are ignored; a repeated
    prediction id is evaluated once. *)
Definition lonely : mframe := hungarian_frame
  {| thresholds := [0; 1#2; 3#4]%Q; iou_fn := fun _ _ => (1#2)%Q; affinity_fn := None |}
  {| preds := [mk 2 5 0; mk 2 5 0; mk 2 5 0]; gts := [mk 2 6 0; mk 2 6 0] |}
  {| t_pids := [10; 10; 11]%nat; t_gids := [20; 21]%nat; t_nlz := [false; false; true]; t_diff := [1; 2]%nat;
     t_psub := [0; 1; 2]%nat; t_gsub := [0; 1]%nat; t_level := 1; t_iter := fun m => m |}.
Example lonely_run : summary (eval_all mot_init [lonely]) = Some ([], [[]], 1, 1, 0, 0, 1).
Proof. vm_compute. reflexivity. Qed.
