(** C108 and C109: matching two sets of boxes. *)
From Coq Require Import Sorted.
From Verif Require Import Base MatchOpModel MatchOpSpec MatchOpApi.
Open Scope Z_scope.

(** Every call with fitting shapes returns, for each element of the batch, a best matching of its
    boxes; it depends on the boxes of that element only, and the predictions are in ascending order. *)
Theorem C108_match fns thr t lc np ng d : columns t d ->
  exists one : (nat -> nat -> Q) -> (nat -> nat -> Q) -> list (nat * nat),
  (forall fp fg, in_range fns lc d np ng fp fg ->
     best fns thr t lc d np ng fp fg (one fp fg) /\ StronglySorted lt (map fst (one fp fg))) /\
  (forall nb x y, shape_of x = Some (nb, np, d) -> shape_of y = Some (nb, ng, d) ->
     (forall b, (b < nb)%nat -> in_range fns lc d np ng (contents x b) (contents y b)) ->
     match_api fns thr t MATCHER_HUNGARIAN lc x y =
     Ok (assembled fns lc d np ng nb (contents x) (contents y) (fun b => one (contents x b) (contents y b)))).
Proof. exact (match_correct fns thr t lc np ng d). Qed.
Print Assumptions C108_match.
(** No box of the batch is reported twice; the k-th entries of the four tensors describe one pair
    of boxes of one batch element that may be matched. *)
Theorem C108_ids fns thr t lc np ng d nb x y : columns t d -> shape_of x = Some (nb, np, d) -> shape_of y = Some (nb, ng, d) ->
  (forall b, (b < nb)%nat -> in_range fns lc d np ng (contents x b) (contents y b)) ->
  exists r, match_api fns thr t MATCHER_HUNGARIAN lc x y = Ok r /\
  NoDup (prediction_ids r) /\ NoDup (groundtruth_ids r) /\
  length (groundtruth_ids r) = length (prediction_ids r) /\ length (ious r) = length (prediction_ids r) /\
  length (longitudinal_affinities r) = length (prediction_ids r) /\
  (forall k p g, nth_error (prediction_ids r) k = Some p -> nth_error (groundtruth_ids r) k = Some g ->
     exists b i j, (b < nb)%nat /\ p = (i + b * np)%nat /\ g = (j + b * ng)%nat /\ (p / np)%nat = b /\ (g / ng)%nat = b /\
       may_match fns thr t lc d np ng (contents x b) (contents y b) i j /\
       nth_error (ious r) k = Some (overlap fns lc (box_of d (contents x b i)) (box_of d (contents y b j))) /\
       nth_error (longitudinal_affinities r) k = Some (affinity_of fns lc (box_of d (contents x b i)) (box_of d (contents y b j)))).
Proof. exact (match_ids fns thr t lc np ng d nb x y). Qed.
Print Assumptions C108_ids.
(** Inputs whose shapes do not fit are refused. *)
Theorem C109_bad_shapes fns thr t m lc x y : ~ shapes_fit t x y -> match_api fns thr t m lc x y = Err ValueError.
Proof. exact (bad_shapes fns thr t m lc x y). Qed.
Print Assumptions C109_bad_shapes.
(** Any matcher other than the Hungarian one aborts on a batch that is not empty. *)
Theorem C109_matchers fns thr t m lc nb np ng d x y : columns t d -> m <> MATCHER_HUNGARIAN ->
  shape_of x = Some (nb, np, d) -> shape_of y = Some (nb, ng, d) ->
  match_api fns thr t m lc x y =
  if Nat.eqb nb 0 then Ok {| prediction_ids := []; groundtruth_ids := []; ious := []; longitudinal_affinities := [] |} else Err CheckFailed.
Proof. exact (other_matchers fns thr t m lc nb np ng d x y). Qed.
Print Assumptions C109_matchers.
(** A configuration that is given but not enabled counts as none. *)
Theorem C109_disabled fns thr t m x y : match_api fns thr t m (Some false) x y = match_api fns thr t m None x y.
Proof. exact (disabled_config fns thr t m x y). Qed.
Print Assumptions C109_disabled.
(** The documented choice of another matching algorithm does not work. *)
Theorem C109_score_first_refuted : exists fns thr x y, shapes_fit BOX_2D x y /\
  match_api fns thr BOX_2D MATCHER_SCORE_FIRST None x y = Err CheckFailed.
Proof.
  exists {| plain_iou := fun _ _ => 1%Q; let_iou := fun _ _ => 1%Q; let_affinity := fun _ _ => 1%Q |}, (1 # 2)%Q,
    (Rank2 1 5 (fun _ _ => 1%Q)), (Rank2 1 5 (fun _ _ => 1%Q)).
  split; [|reflexivity]. exists 1%nat, 1%nat, 1%nat, 5%nat. repeat split; right; left; auto.
Qed.
Print Assumptions C109_score_first_refuted.

(** Two elements: in the first, the middle prediction has no extent and the other two swap partners. *)
Definition example_fns : functions := {| plain_iou := fun p g => if Qeq_bool (center_x p) (center_x g) then 1%Q else (1 # 4)%Q; let_iou := fun _ _ => 0%Q; let_affinity := fun _ _ => 0%Q |}.
Definition example_p (b i k : nat) : Q :=
  match b, i, k with 0%nat, 1%nat, _ => 0%Q | _, _, 0%nat => inject_Z (Z.of_nat (i + b)) | _, _, _ => 1%Q end.
Definition example_g (b i k : nat) : Q := match k with 0%nat => inject_Z (2 - Z.of_nat i) | _ => 1%Q end.
Example C108_nonvacuous :
  match_api example_fns (1 # 2)%Q BOX_2D MATCHER_HUNGARIAN None (Rank3 2 3 5 example_p) (Rank3 2 3 5 example_g) =
  Ok {| prediction_ids := [0; 2; 3; 4]%nat; groundtruth_ids := [2; 0; 4; 3]%nat; ious := [1; 1; 1; 1]%Q; longitudinal_affinities := [1; 1; 1; 1]%Q |} /\
  forall b, in_range example_fns None 5 3 3 (example_p b) (example_g b).
Proof.
  split; [vm_compute; reflexivity|]. intros b i j _ _. unfold unit, overlap, affinity_of, example_fns. cbn [plain_iou].
  split; [destruct (Qeq_bool _ _); split; discriminate|split; discriminate].
Qed.
Example C109_nonvacuous : ~ shapes_fit BOX_3D (Rank2 1 5 (fun _ _ => 1%Q)) (Rank2 1 5 (fun _ _ => 1%Q)) /\
  shapes_fit BOX_3D (Rank2 4 7 (fun _ _ => 1%Q)) (Rank3 1 2 7 (fun _ _ _ => 1%Q)).
Proof.
  split.
  - intros (nb & np & ng & d & [= <- <- <-] & _ & [[E _]|[[E _]|[_ E]]]); discriminate.
  - exists 1%nat, 4%nat, 2%nat, 7%nat. repeat split. right. right. split; reflexivity.
Qed.
