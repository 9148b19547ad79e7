(** What matching people and the pose estimation error are.  Only the types of the inputs come from the model. *)
From Coq Require Import Reals List Arith ZArith Bool.
From Verif Require Import PoseModel.
Import ListNotations.
Open Scope R_scope.

Definition sum_of {A} (f : A -> R) (l : list A) : R := fold_right (fun a s => f a + s) 0 l.
Definition visible (k : keypoint) : bool := Z.ltb 1 (visibility k).
(** A person with a visible keypoint. *)
Definition shows (o : list keypoint) : bool := existsb visible o.
Definition dist3 (a b : R * R * R) : R :=
  sqrt ((fst (fst a) - fst (fst b)) * (fst (fst a) - fst (fst b)) +
        (snd (fst a) - snd (fst b)) * (snd (fst a) - snd (fst b)) + (snd a - snd b) * (snd a - snd b)).
Definition place (k : keypoint) : R * R * R := (px k, py k, pz k).
(** The error of two keypoints of one kind: the distance up to the penalty, the penalty if only one is visible. *)
Definition error (penalty : R) (g p : keypoint) : R :=
  if visible g then if visible p then Rmin (dist3 (place g) (place p)) penalty else penalty
  else if visible p then penalty else 0.
Definition pair_error (penalty : R) (g p : list keypoint) : R :=
  sum_of (fun kk => error penalty (fst kk) (snd kk)) (combine g p).
(** Keypoints that are visible in one or both. *)
Definition pair_points (g p : list keypoint) : R :=
  sum_of (fun kk => if visible (fst kk) || visible (snd kk) then 1 else 0) (combine g p).
Definition visible_points (o : list keypoint) : R := sum_of (fun k => if visible k then 1 else 0) o.

(** A matching of [r] labels and [c] predictions: pairs, no label and no prediction twice. *)
Definition matching (M : list (nat * nat)) (r c : nat) : Prop :=
  NoDup (map fst M) /\ NoDup (map snd M) /\ forall m, In m M -> (fst m < r)%nat /\ (snd m < c)%nat.
Definition unmatched (used : list nat) (n : nat) : list nat :=
  filter (fun i => negb (existsb (Nat.eqb i) used)) (seq 0 n).
Definition person_at (l : list (list keypoint)) (i : nat) : list keypoint := nth i l [].
(** The sum of errors of a frame and the number of keypoints that count: matched pairs with a visible label keypoint,
    labels and predictions left over.  Predictions matched with a label without visible keypoints do not count. *)
Definition frame_error (penalty : R) (gt pr : list (list keypoint)) (M : list (nat * nat)) : R :=
  sum_of (fun m => if shows (person_at gt (fst m)) then pair_error penalty (person_at gt (fst m)) (person_at pr (snd m)) else 0) M +
  penalty * sum_of (fun i => visible_points (person_at gt i)) (unmatched (map fst M) (length gt)) +
  penalty * sum_of (fun j => visible_points (person_at pr j)) (unmatched (map snd M) (length pr)).
Definition frame_points (gt pr : list (list keypoint)) (M : list (nat * nat)) : R :=
  sum_of (fun m => if shows (person_at gt (fst m)) then pair_points (person_at gt (fst m)) (person_at pr (snd m)) else 0) M +
  sum_of (fun i => visible_points (person_at gt i)) (unmatched (map fst M) (length gt)) +
  sum_of (fun j => visible_points (person_at pr j)) (unmatched (map snd M) (length pr)).
(** All people have the same number of keypoints. *)
Definition rectangular (n : nat) (l : list (list keypoint)) : Prop := forall o, In o l -> length o = n.

(** A matching of all labels or all predictions, whichever are fewer. *)
Definition complete (M : list (nat * nat)) (r c : nat) : Prop := matching M r c /\ length M = Nat.min r c.
Definition cost_of (cost : nat -> nat -> R) (M : list (nat * nat)) : R := sum_of (fun m => cost (fst m) (snd m)) M.
(** What scipy promises of linear_sum_assignment. *)
Definition solves (assign : bool -> nat -> nat -> (nat -> nat -> R) -> list (nat * nat)) : Prop :=
  forall r c cost, complete (assign false r c cost) r c /\ complete (assign true r c cost) r c /\
    forall M, complete M r c -> cost_of cost (assign false r c cost) <= cost_of cost M /\
                                cost_of cost M <= cost_of cost (assign true r c cost).

(** The points of a box whose heading counts clockwise, and counter-clockwise. *)
Definition in_box_clockwise (b : box3) (q : R * R * R) : Prop :=
  let dx := fst (fst q) - cx b in
  let dy := snd (fst q) - cy b in
  Rabs (cos (heading b) * dx - sin (heading b) * dy) <= sx b / 2 /\
  Rabs (sin (heading b) * dx + cos (heading b) * dy) <= sy b / 2 /\ Rabs (snd q - cz b) <= sz b / 2.
Definition in_box (b : box3) (q : R * R * R) : Prop :=
  let dx := fst (fst q) - cx b in
  let dy := snd (fst q) - cy b in
  Rabs (cos (heading b) * dx + sin (heading b) * dy) <= sx b / 2 /\
  Rabs (- sin (heading b) * dx + cos (heading b) * dy) <= sy b / 2 /\ Rabs (snd q - cz b) <= sz b / 2.
(** The distance from a point to a box whose heading counts clockwise. *)
Definition box_distance (b : box3) (q : R * R * R) : R :=
  let dx := fst (fst q) - cx b in
  let dy := snd (fst q) - cy b in
  let ex := Rmax 0 (Rabs (cos (heading b) * dx - sin (heading b) * dy) - sx b / 2) in
  let ey := Rmax 0 (Rabs (sin (heading b) * dx + cos (heading b) * dy) - sy b / 2) in
  let ez := Rmax 0 (Rabs (snd q - cz b) - sz b / 2) in
  sqrt (ex * ex + ey * ey + ez * ez).
(** A visible keypoint of the person is within [d] of the box. *)
Definition near_box (d : R) (b : box3) (o : list keypoint) : Prop :=
  exists k, In k o /\ visible k = true /\ box_distance b (place k) <= d.
(** The visible keypoints in the box, within a hundredth of a millimetre. *)
Definition inside_count (b : box3) (o : list keypoint) : R :=
  sum_of (fun k => if visible k then if Rlt_dec (box_distance b (place k)) (/ 100000) then 1 else 0 else 0) o.
(** Two people with a keypoint in common, visible in both, closer than [d]. *)
Definition close_people (d : R) (g p : list keypoint) : Prop :=
  exists kk, In kk (combine g p) /\ visible (fst kk) = true /\ visible (snd kk) = true /\ dist3 (place (fst kk)) (place (snd kk)) < d.
(** What the first pass may match: a label that shows nothing and a prediction not close to any label. *)
Definition first_allowed (d : R) (gt pr : list (list keypoint)) (m : nat * nat) : Prop :=
  shows (person_at gt (fst m)) = false /\ forall g, In g gt -> ~ close_people d g (person_at pr (snd m)).
Definition no_box : box3 := {| cx := 0; cy := 0; cz := 0; sx := 0; sy := 0; sz := 0; heading := 0 |}.
Definition box_at (l : list box3) (i : nat) : box3 := nth i l no_box.
Definition sane_box (b : box3) : Prop := 0 <= sx b /\ 0 <= sy b /\ 0 <= sz b.
(** [second] after [first]: no label and no prediction of [first] again. *)
Definition avoids (second first : list (nat * nat)) : Prop :=
  forall m n, In m second -> In n first -> fst m <> fst n /\ snd m <> snd n.

(** A mean with nothing counted is zero. *)
Definition mean_of (total count : R) : R := if Req_EM_T count 0 then 0 else total / count.
(** The same keypoints visible, at the same places. *)
Definition same_pose (g p : list keypoint) : Prop :=
  forall kk, In kk (combine g p) -> visible (fst kk) = visible (snd kk) /\ (visible (fst kk) = true -> place (fst kk) = place (snd kk)).
Definition matched_to (M : list (nat * nat)) (gt pr : list (list keypoint)) : Prop :=
  (forall m, In m M -> shows (person_at gt (fst m)) = true -> same_pose (person_at gt (fst m)) (person_at pr (snd m))) /\
  (forall i, (i < length gt)%nat -> shows (person_at gt i) = true -> In i (map fst M)) /\
  (forall j, (j < length pr)%nat -> shows (person_at pr j) = true -> In j (map snd M)).
Definition sane_frame (n : nat) (f : frame) : Prop :=
  Forall sane_box (f_boxes f) /\ rectangular n (f_gt f) /\ rectangular n (f_pr f).
(** A one-to-one assignment of the people with visible keypoints under which every prediction is right. *)
Definition perfect (d : R) (boxes : list box3) (gt pr : list (list keypoint)) (M : list (nat * nat)) : Prop :=
  matching M (length gt) (length pr) /\
  (forall m, In m M -> shows (person_at gt (fst m)) = true /\ same_pose (person_at gt (fst m)) (person_at pr (snd m)) /\
                       near_box d (box_at boxes (fst m)) (person_at pr (snd m))) /\
  (forall i, (i < length gt)%nat -> shows (person_at gt i) = true -> In i (map fst M)) /\
  (forall j, (j < length pr)%nat -> shows (person_at pr j) = true -> In j (map snd M)).
