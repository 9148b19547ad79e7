(** C146: the motion prediction tutorial. *)
From Coq Require Import QArith Lia.
From Verif Require Import Base ResultLib MtutModel MtutSpec MtutProofs.
Open Scope list_scope.

(** Subsampling keeps the last step of every interval. *)
Theorem C146_subsample (A : Type) a b (l : list A) : (0 < b <= a)%nat ->
  exists out, subsample a b l = Ok out /\ forall k, nth_error out k = nth_error l ((k + 1) * (a / b) - 1).
Proof. exact (subsample_exact a b l). Qed.
Print Assumptions C146_subsample.
(** It is refused exactly if the rate of the predictions is zero or larger than the rate of the tracks. *)
Theorem C146_subsample_error (A : Type) a b (l : list A) : subsample a b l = Err ValueError <-> b = 0%nat \/ (a < b)%nat.
Proof. exact (subsample_error a b l). Qed.
Print Assumptions C146_subsample_error.
(** The training targets are the future states. *)
Theorem C146_targets (S : Type) h (t : track S) : List.length (past t) = h -> List.length (current t) = 1%nat -> gt_targets h t = future t.
Proof. exact (targets_future h t). Qed.
Print Assumptions C146_targets.
(** After subsampling, target k is the state k + 1 intervals after the current step. *)
Theorem C146_target_times (S : Type) h (t : track S) a b out : subsample a b (gt_targets h t) = Ok out ->
  forall k, nth_error out k = nth_error (gt_future t) (h + (k + 1) * (a / b)).
Proof. exact (target_times h t a b out). Qed.
Print Assumptions C146_target_times.
(** A sample is valid if it was seen at some step up to the current one. *)
Theorem C146_sample_valid (S : Type) (t : track S) : sample_is_valid t = true <-> exists s, In (true, s) (past t) \/ In (true, s) (current t).
Proof. exact (valid_exact t). Qed.
Print Assumptions C146_sample_valid.
(** Batches hold all samples in order. *)
Theorem C146_batches (A : Type) n (l : list A) : (0 < n)%nat -> concat (batches n l) = l.
Proof. exact (batches_concat n l). Qed.
Print Assumptions C146_batches.
(** The metric printed after an epoch is that of all predictions of this and all former epochs; an epoch has one batch more than its number says. *)
Theorem C146_epochs (W B P : Type) (train : W -> B -> W * list P) n epochs bs w :
  List.length (run_epochs train n epochs bs w []) = epochs /\ forall i, (i < epochs)%nat ->
  nth_error (run_epochs train n epochs bs w []) i = Some (snd (trained train w (concat (repeat (firstn (n + 1) bs) (i + 1))))).
Proof. exact (epochs_exact train n epochs bs w). Qed.
Print Assumptions C146_epochs.
(** The number of samples printed is at least twice the number seen. *)
Theorem C146_progress (A : Type) (l : list A) n step printed : In (step, printed) (progress n (batches 32 l)) ->
  (2 * List.length (concat (firstn (step + 1) (batches 32 l))) <= printed)%nat.
Proof. exact (progress_wrong l n step printed). Qed.
Print Assumptions C146_progress.
(** One image for each step, in order, titled with the number of steps before or after the current one. *)
Theorem C146_images (S : Type) (past current future : list S) images : all_images past current future = Ok images ->
  List.length images = (List.length past + 1 + List.length future)%nat /\
  forall j t s, nth_error images j = Some (t, s) -> nth_error (past ++ firstn 1 current ++ future) j = Some s /\ relative_step t = (Z.of_nat j - Z.of_nat (List.length past))%Z.
Proof. exact (images_exact past current future images). Qed.
Print Assumptions C146_images.
(** They can be made exactly if there is a past, a current and a future step. *)
Theorem C146_images_accepts (S : Type) (past current future : list S) :
  (exists images, all_images past current future = Ok images) <-> past <> [] /\ current <> [] /\ future <> [].
Proof. exact (images_error past current future). Qed.
Print Assumptions C146_images_accepts.
(** The animation shows only the first half of the images. *)
Theorem C146_animation_refuted (I : Type) (images : list I) : (exists hidden, images = animation images ++ hidden) /\
  List.length (animation images) = (List.length images / 2)%nat /\ (images <> [] -> animation images <> images).
Proof. exact (animation_half images). Qed.
Print Assumptions C146_animation_refuted.
(** The loss depends only on predictions of valid steps of agents to be predicted. *)
Theorem C146_loss_counted b b' : same_counted b b' -> (loss_value b == loss_value b')%Q.
Proof. exact (loss_same b b'). Qed.
Print Assumptions C146_loss_counted.
(** It is zero exactly if all of these are right. *)
Theorem C146_loss_zero b : (loss_value b == 0)%Q <-> forall target pred, counted b target pred -> (fst target == fst pred)%Q /\ (snd target == snd pred)%Q.
Proof. exact (loss_zero b). Qed.
Print Assumptions C146_loss_zero.
(** But it is not their mean: an agent that does not count lowers it. *)
Theorem C146_loss_refuted : exists b a, fst a = false /\ (loss_value (b ++ [a]) < loss_value b)%Q.
Proof. exact (loss_diluted_refuted ). Qed.
Print Assumptions C146_loss_refuted.
(** The metric of the second epoch is not that of the predictions of the second epoch. *)
Theorem C146_epochs_refuted : exists (train : nat -> nat -> nat * list nat) bs w second w1,
  nth_error (run_epochs train 10 2 bs w []) 1 = Some second /\ w1 = fst (trained train w (firstn 11 bs)) /\ second <> snd (trained train w1 (firstn 11 bs)).
Proof. exact (epochs_refuted ). Qed.
Print Assumptions C146_epochs_refuted.
(** The number of samples printed is wrong. *)
Theorem C146_progress_refuted : exists (l : list nat) step printed, In (step, printed) (progress 10 (batches 32 l)) /\ printed <> List.length (concat (firstn (step + 1) (batches 32 l))).
Proof. exact (progress_refuted ). Qed.
Print Assumptions C146_progress_refuted.
(** The picture is a square of at least ten meters with all valid positions, and no larger than needed. *)
Theorem C146_viewport states cy cx w left right bottom top : get_viewport states = Ok (cy, cx, w) -> limits cy cx w = (left, right, bottom, top) ->
  (right - left == top - bottom)%Q /\ (10 <= right - left)%Q /\
  (forall x y, seen states (x, y) -> (left <= x <= right)%Q /\ (bottom <= y <= top)%Q) /\
  ((10 < right - left)%Q -> (exists p q, seen states p /\ seen states q /\ (fst p == left)%Q /\ (fst q == right)%Q) \/
                            (exists p q, seen states p /\ seen states q /\ (snd p == bottom)%Q /\ (snd q == top)%Q)).
Proof. exact (viewport_covers states cy cx w left right bottom top). Qed.
Print Assumptions C146_viewport.
(** There is one exactly if some position is valid. *)
Theorem C146_viewport_exists states : ((exists v, get_viewport states = Ok v) <-> exists p, seen states p) /\ ((forall p, ~ seen states p) -> get_viewport states = Err ValueError).
Proof. exact (viewport_exists states). Qed.
Print Assumptions C146_viewport_exists.

Example C146_nonvacuous_subsample : subsample 10 2 (seq 0 80) = Ok [4; 9; 14; 19; 24; 29; 34; 39; 44; 49; 54; 59; 64; 69; 74; 79]%nat.
Proof. reflexivity. Qed.
Example C146_nonvacuous_targets : gt_targets 1 (Track [(true, 1)] [(true, 2)] [(false, 3); (true, 4)])%Z = [(false, 3); (true, 4)]%Z.
Proof. reflexivity. Qed.
Example C146_nonvacuous_loss : (loss_value [(true, [(true, ((0, 0), (2, 0))); (false, ((0, 0), (5, 5)))])] == 1)%Q.
Proof. vm_compute. reflexivity. Qed.
Example C146_nonvacuous_viewport : exists cy cx w, get_viewport [[(true, (0, 0)); (true, (20, 4)); (false, (100, 100))]]%Q = Ok (cy, cx, w) /\ (cy == 2 /\ cx == 10 /\ w == 20)%Q.
Proof. do 3 eexists. split; [vm_compute; reflexivity|]. vm_compute. auto. Qed.
Example C146_nonvacuous_images : all_images [1; 2] [3] [4]%Z = Ok [(Past 2, 1); (Past 1, 2); (Current, 3); (Future 1, 4)]%Z.
Proof. reflexivity. Qed.
Example C146_nonvacuous_progress : progress 10 (batches 32 (repeat tt 100)) = [(0, 64)]%nat.
Proof. reflexivity. Qed.
