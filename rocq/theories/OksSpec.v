(** What the keypoint scores are.  Only the types of the inputs come from the model. *)
From Coq Require Import Reals List Arith ZArith Bool.
From Verif Require Import PoseModel PoseSpec OksModel.
Import ListNotations.
Open Scope R_scope.

(** A keypoint that is not missing, and a person with such a label. *)
Definition there (k : keypoint) : bool := Z.ltb 0 (visibility k).
Definition labelled (s : sample) : bool := existsb there (s_gt s).
(** The size of an object: the side of the square of its area or of the cube of its volume. *)
Definition is_size (two_d : bool) (b : box3) (r : R) : Prop :=
  0 <= r /\ if two_d then r * r = sx b * sy b else r * r * r = sx b * sy b * sz b.
(** The closeness of two points: one at the same place, falling with the distance; always one without tolerance. *)
Definition closeness (tolerance d : R) : R :=
  if Req_EM_T tolerance 0 then 1 else exp (- (d * d) / (2 * (tolerance * tolerance))).

(** The weight of every keypoint of a sample. *)
Definition weight_row (kind : weighting) (s : sample) : list R :=
  match kind with
  | Unweighted => repeat 1 (length (s_gt s))
  | PerObject => repeat (hd 0 (s_weight s)) (length (s_gt s))
  | PerPoint => s_weight s
  end.
(** A sample of the right shape with weights that are not negative. *)
Definition fits (n : nat) (kind : weighting) (s : sample) : Prop :=
  length (s_gt s) = n /\ length (s_pr s) = n /\ Forall (fun w => 0 <= w) (s_weight s) /\
  match kind with Unweighted => True | PerObject => length (s_weight s) = 1%nat | PerPoint => length (s_weight s) = n end.
(** The keypoints of a sample: label, prediction, a parameter of its kind and weight. *)
Record joint := { label : keypoint; prediction : keypoint; parameter : R; weight : R }.
Definition joints (kind : weighting) (parameters : list R) (s : sample) : list joint :=
  map (fun x => {| label := fst (fst (fst x)); prediction := snd (fst (fst x)); parameter := snd (fst x); weight := snd x |})
      (combine (combine (combine (s_gt s) (s_pr s)) parameters) (weight_row kind s)).
(** Labelled and predicted. *)
Definition both (j : joint) : bool := there (label j) && there (prediction j).
Definition gap (j : joint) : R := dist3 (place (label j)) (place (prediction j)).
(** The weighted mean of [f] over the keypoints labelled and predicted. *)
Definition total_weight (js : list joint) : R := sum_of (fun j => if both j then weight j else 0) js.
Definition total_of (f : joint -> R) (js : list joint) : R := sum_of (fun j => if both j then weight j * f j else 0) js.

(** The box three times as large, not turned. *)
Definition enlarged (b : box3) : box3 :=
  {| cx := cx b; cy := cy b; cz := cz b; sx := 3 * sx b; sy := 3 * sy b; sz := 3 * sz b; heading := 0 |}.
(** The similarity of an object of size [r]: over the labelled and predicted keypoints by their distance; without labels
    over all predictions by their distance to the enlarged box. *)
Definition similarity (r : R) (kind : weighting) (scales : list R) (s : sample) : R :=
  let js := joints kind scales s in
  if labelled s then mean_of (total_of (fun j => closeness (parameter j * r) (gap j)) js) (total_weight js)
  else mean_of (sum_of (fun j => closeness (parameter j * r) (box_distance (enlarged (s_box s)) (place (prediction j)))) js)
               (INR (length js)).

(** A point in the enlarged box. *)
Definition in_enlarged (b : box3) (q : R * R * R) : Prop :=
  Rabs (fst (fst q) - cx b) <= 3 * sx b / 2 /\ Rabs (snd (fst q) - cy b) <= 3 * sy b / 2 /\ Rabs (snd q - cz b) <= 3 * sz b / 2.
(** The same sample with other predictions. *)
Definition predict (s : sample) (pr : list keypoint) : sample :=
  {| s_gt := s_gt s; s_pr := pr; s_box := s_box s; s_weight := s_weight s |}.
(** The same sample seen in other units. *)
Definition zoom_point (c : R) (k : keypoint) : keypoint :=
  {| px := c * px k; py := c * py k; pz := c * pz k; visibility := visibility k |}.
Definition zoom_box (c : R) (b : box3) : box3 :=
  {| cx := c * cx b; cy := c * cy b; cz := c * cz b; sx := c * sx b; sy := c * sy b; sz := c * sz b; heading := heading b |}.
Definition zoom (c : R) (s : sample) : sample :=
  {| s_gt := map (zoom_point c) (s_gt s); s_pr := map (zoom_point c) (s_pr s); s_box := zoom_box c (s_box s); s_weight := s_weight s |}.

(** All samples of several batches, and sums over them. *)
Definition all_joints (kind : weighting) (parameters : sample -> list R) (l : list sample) : list joint :=
  flat_map (fun s => joints kind (parameters s) s) l.
(** The distance a keypoint may be off: the threshold, times the size of the object, times the scale of its kind. *)
Definition allowed (c : pck_config) (size : box3 -> R) (t : R) (s : sample) : list R :=
  let base := if use_object_scale c then t * size (s_box s) else t in
  match per_type c with None => repeat base (length (s_gt s)) | Some ks => map (fun k => base * k) ks end.
Definition sane_config (n : nat) (c : pck_config) : Prop :=
  match per_type c with None => True | Some ks => length ks = n /\ Forall (fun k => 0 <= k) ks end.
Definition within (j : joint) : R := if Rle_dec (gap j) (parameter j) then 1 else 0.

(** A box that counts: the longest side is above a hundredth of a millimetre. *)
Definition counts (two_d : bool) (b : box3) : R :=
  if Rlt_dec (/ 100000) (if two_d then Rmax (sx b) (sy b) else Rmax (Rmax (sx b) (sy b)) (sz b)) then 1 else 0.
Definition hit (sim : sample -> R) (t : R) (s : sample) : R := if Rlt_dec t (sim s) then 1 else 0.
(** The share of [weights] on the objects whose similarity is above the threshold. *)
Definition share (importance : sample -> R) (sim : sample -> R) (t : R) (l : list sample) : R :=
  mean_of (sum_of (fun s => importance s * hit sim t s) l) (sum_of importance l).
Definition precision (two_d : bool) (sim : sample -> R) (t : R) (l : list sample) : R :=
  share (fun s => counts two_d (s_box s)) sim t l.
(** The mean of the thresholds. *)
Definition mean_over (ts : list R) (f : R -> R) : R := mean_of (sum_of f ts) (INR (length ts)).
Definition no_parameter (s : sample) : list R := repeat 0 (length (s_gt s)).
(** A sample of the right shape, with a box and its size. *)
Definition proper (two_d : bool) (n : nat) (kind : weighting) (size : box3 -> R) (s : sample) : Prop :=
  fits n kind s /\ sane_box (s_box s) /\ is_size two_d (s_box s) (size (s_box s)).
(** The share of keypoints labelled and predicted that are no further off than allowed. *)
Definition correct_share (kind : weighting) (c : pck_config) (size : box3 -> R) (t : R) (l : list sample) : R :=
  let js := all_joints kind (allowed c size t) l in mean_of (total_of within js) (total_weight js).
(** Their mean distance. *)
Definition mean_gap (kind : weighting) (l : list sample) : R :=
  let js := all_joints kind no_parameter l in mean_of (total_of gap js) (total_weight js).
(** The enlarged box, turned as the box is. *)
Definition enlarged_turned (b : box3) : box3 :=
  {| cx := cx b; cy := cy b; cz := cz b; sx := 3 * sx b; sy := 3 * sy b; sz := 3 * sz b; heading := heading b |}.
(** All the results of a metric: the precisions and their average. *)
Definition all_precisions (two_d : bool) (sim : sample -> R) (ts : list R) (l : list sample) : list (R * R) :=
  map (fun t => (t, precision two_d sim t l)) ts.
