(** C17: segmentation IoU. C18: accumulation, rejection and merging. *)
From Coq Require Import Permutation.
From Verif Require Import Base SegModel SegSpec SegProofs.
Open Scope Z_scope.

(** An evaluator is created exactly for lists of distinct classes, with all counts zero. *)
Theorem C17_create types :
  (NoDup types -> create types = Ok (run types [])) /\ (~ NoDup types -> create types = Err CheckFailed).
Proof.
  unfold create. split; intros H; [now rewrite (proj2 (no_duplicates_iff types) H)|].
  destruct (no_duplicates types) eqn:E; [|reflexivity]. exfalso. apply H. now apply no_duplicates_iff.
Qed.
Print Assumptions C17_create.
(** After any history, the reported metrics are those of the accepted points since the last reset. *)
Theorem C17_value types h : NoDup types -> compute_iou types (run types h) = metrics_of types (points h).
Proof. exact (compute_value types h). Qed.
Print Assumptions C17_value.
Theorem C17_bounds types h c q : NoDup types -> In (c, q) (per_class (compute_iou types (run types h))) -> (0 <= q <= 1)%Q.
Proof.
  intros Hnd H. rewrite (compute_value types h Hnd) in H. apply in_map_iff in H. destruct H as (c' & E & _). inversion E; subst.
  apply ratio_unit.
Qed.
Print Assumptions C17_bounds.
Theorem C17_mean_bounds types h v : NoDup types -> miou (compute_iou types (run types h)) = Some v -> (0 <= v <= 1)%Q.
Proof.
  intros Hnd H. rewrite (compute_value types h Hnd) in H. apply (mean_unit _ _) in H; [exact H|].
  intros x Hx. apply in_map_iff in Hx. destruct Hx as (c & <- & _). apply ratio_unit.
Qed.
Print Assumptions C17_mean_bounds.
(** A class that never occurs has IoU 1; without classes the mean is not a number. *)
Theorem C17_absent types h c : NoDup types -> In c types ->
  (forall pt, In pt (points h) -> snd pt <> c /\ (fst pt = c -> ~ In (snd pt) types)) ->
  In (c, 1%Q) (per_class (compute_iou types (run types h))).
Proof.
  intros Hnd Hc H. rewrite (compute_value types h Hnd). apply in_map_iff. exists c. split; [|exact Hc].
  f_equal. unfold ratio. assert (E : count (in_either types c) (points h) = 0).
  { unfold count. replace (filter (in_either types c) (points h)) with (@nil (Z * Z)); [reflexivity|]. symmetry.
    induction (points h) as [|pt pts IH]; [reflexivity|]. cbn [filter].
    destruct (H pt (or_introl eq_refl)) as [A B]. unfold in_either at 1. rewrite (proj2 (Z.eqb_neq _ _) A). cbn [orb].
    destruct (Z.eqb_spec (fst pt) c) as [E|E]; cbn [andb]; [|apply IH; intros x Hx; apply H; now right].
    destruct (valid types (snd pt)) eqn:Ev; [exfalso; apply (B E); now apply valid_iff|]. apply IH. intros x Hx. apply H. now right. }
  rewrite E. reflexivity.
Qed.
Print Assumptions C17_absent.
Theorem C17_no_classes h : miou (compute_iou [] (run [] h)) = None.
Proof. reflexivity. Qed.
Print Assumptions C17_no_classes.

(** A rejected update returns an error and leaves the state unchanged. *)
Theorem C18_rejected types m p g : length p <> length g -> update types m p g = (m, Err ValueError).
Proof. intros H. unfold update. now rewrite (proj2 (Nat.eqb_neq _ _) H). Qed.
Print Assumptions C18_rejected.
Theorem C18_accepted types m p g : length p = length g -> snd (update types m p g) = Ok tt.
Proof. intros H. unfold update. now rewrite (proj2 (Nat.eqb_eq _ _) H). Qed.
Print Assumptions C18_accepted.
(** Histories that accept the same points, in whatever order and split, report the same. *)
Theorem C18_order types h h' : NoDup types -> Permutation (points h) (points h') ->
  compute_iou types (run types h) = compute_iou types (run types h').
Proof. intros Hnd H. rewrite !compute_value by exact Hnd. now apply metrics_perm. Qed.
Print Assumptions C18_order.
(** Merging the measurements of several evaluators gives the metrics of all their points together. *)
Theorem C18_merge types hs : NoDup types -> Z.of_nat (length (concat (map points hs))) < 2 ^ 31 ->
  merge_results types (map (fun h => measurements (compute_iou types (run types h))) hs) = Ok (metrics_of types (concat (map points hs))).
Proof.
  intros Hnd HL. rewrite <- (merge_value types (map points hs) HL), map_map. f_equal. apply map_ext. intros h. now rewrite compute_value.
Qed.
Print Assumptions C18_merge.
(** Beyond 2^31 points the merged counts are narrowed to 32 bits: the merged IoU is then wrong. *)
Theorem C18_merge_large_refuted : exists rs m, merge_results [1] rs = Ok m /\
  rs = [([2 ^ 30], [2 ^ 30]); ([0], [2 ^ 31])] /\ per_class m = [(1, 1%Q)].
Proof. exists [([2 ^ 30], [2 ^ 30]); ([0], [2 ^ 31])]. eexists. split; [vm_compute; reflexivity|]. split; [reflexivity|]. reflexivity. Qed.
Print Assumptions C18_merge_large_refuted.

Example C17_nonvacuous : let h := [Update [1;2;3] [1;1;2]; Update [1] []; Update [2;9] [2;2]] in
  points h = [(1,1);(2,1);(3,2);(2,2);(9,2)] /\ inters (compute_iou [1;2] (run [1;2] h)) = [1;1] /\ unions (compute_iou [1;2] (run [1;2] h)) = [2;4].
Proof. repeat split; reflexivity. Qed.
