(** C136: batches of keypoints and boxes, and precision and recall of visibility. *)
From Coq Require Import QArith List Permutation.
From Verif Require Import Base ResultLib StkModel StkSpec.
From Verif Require Import StkProofs StkExample.
Import ListNotations.
(** Stacking tensors: when it works and what is where. *)
Theorem C136_stack {A} (ts : list (tensor A)) : (ts = [] -> stack ts = Ok {| shape := [0%nat]; values := [] |}) /\
  (ts <> [] -> (forall sh, exists u, In u ts /\ shape u <> sh) -> stack ts = Err ValueError) /\
  (forall sh, ts <> [] -> (forall u, In u ts -> shape u = sh /\ full u) -> exists t, stack ts = Ok t /\ shape t = length ts :: sh /\ full t /\
     forall i u idx, nth_error ts i = Some u -> valid sh idx -> entry t (i :: idx) = entry u idx).
Proof. exact (stack_outcome ts). Qed.
Print Assumptions C136_stack.
(** Keypoints can be stacked exactly if there are some and they are single and of one shape. *)
Theorem C136_keypoints_outcome vs : (forall v, In v vs -> made_keypoints v) ->
  ((exists k, stack_keypoints vs = Ok k) <-> vs <> [] /\ exists n d, forall v, In v vs -> shape (location v) = [n; d]) /\
  (forall e, stack_keypoints vs = Err e -> e = ValueError).
Proof. exact (keypoints_outcome vs). Qed.
Print Assumptions C136_keypoints_outcome.
(** What is where in stacked keypoints, and which objects have a visible one. *)
Theorem C136_keypoints vs n d k : (forall v, In v vs -> made_keypoints v /\ shape (location v) = [n; d] /\ full (location v) /\ full (visibility v)) ->
  stack_keypoints vs = Ok k ->
  shape (location k) = [length vs; n; d] /\ shape (visibility k) = [length vs; n] /\ shape (has_visible k) = [length vs] /\
  forall i v, nth_error vs i = Some v ->
    (forall a b, (a < n)%nat -> (b < d)%nat -> entry (location k) [i; a; b] = entry (location v) [a; b]) /\
    (forall a, (a < n)%nat -> entry (visibility k) [i; a] = entry (visibility v) [a]) /\
    exists s, entry (has_visible k) [i] = Some s /\ (s = true <-> exists a z, (a < n)%nat /\ entry (visibility v) [a] = Some z /\ (1 < z)%Z).
Proof. exact (keypoints_stacked vs n d k). Qed.
Print Assumptions C136_keypoints.
(** Which boxes are refused, and how. *)
Theorem C136_boxes_refused vs : (forall b, In b vs -> made_box b) ->
  (vs = [] -> stack_boxes vs = Err ValueError) /\
  (vs <> [] -> (forall sh, exists b, In b vs /\ shape (center b) <> sh) -> stack_boxes vs = Err ValueError) /\
  (forall sh, (forall b, In b vs -> shape (center b) = sh) -> mixed vs -> stack_boxes vs = Err AssertionError) /\
  (forall n d, vs <> [] -> (forall b, In b vs -> shape (center b) = [n; d]) -> ~ mixed vs -> (forall b, In b vs -> heading b = None) -> stack_boxes vs = Err ValueError).
Proof. exact (boxes_refused vs). Qed.
Print Assumptions C136_boxes_refused.
(** Boxes of one dimension, all with or all without heading, can be stacked. *)
Theorem C136_boxes vs d : vs <> [] ->
  (forall b, In b vs -> made_box b /\ shape (center b) = [d] /\ full (center b) /\ full (size b) /\ forall h, heading b = Some h -> shape h = [] /\ full h) ->
  ~ mixed vs -> exists k, stack_boxes vs = Ok k /\ shape (center k) = [length vs; d] /\ shape (size k) = [length vs; d] /\
    (heading k = None <-> forall b, In b vs -> heading b = None) /\
    forall i b, nth_error vs i = Some b ->
      (forall a, (a < d)%nat -> entry (center k) [i; a] = entry (center b) [a] /\ entry (size k) [i; a] = entry (size b) [a]) /\
      (forall h, heading b = Some h -> exists hs, heading k = Some hs /\ entry hs [i] = entry h []).
Proof. exact (boxes_stacked vs d). Qed.
Print Assumptions C136_boxes.
(** The corners of a box. *)
Theorem C136_corners b idx : made_box b -> full (center b) -> full (size b) -> valid (shape (center b)) idx ->
  exists c s lo hi, entry (center b) idx = Some c /\ entry (size b) idx = Some s /\ entry (min_corner b) idx = Some lo /\ entry (max_corner b) idx = Some hi /\
    (lo + hi == c + c /\ hi - lo == s)%Q.
Proof. exact (corners b idx). Qed.
Print Assumptions C136_corners.
(** Which calls are accepted. *)
Theorem C136_observe_outcome c : let sh := shape (visibility (gt c)) in
  ((exists o, observe c = Ok o) <-> shape (location (gt c)) = shape (location (pr c)) /\ sh = shape (visibility (pr c)) /\
     (forall d, box_dims c = Some d -> last (shape (location (gt c))) 0%nat = d) /\
     (forall w, weights c = Some w -> shape w = [] \/ shape w = removelast sh \/ shape w = sh)) /\
  (forall e, observe c = Err e -> e = ValueError).
Proof. exact (observe_outcome c). Qed.
Print Assumptions C136_observe_outcome.
(** What a call observes. *)
Theorem C136_observed c o idx : let sh := shape (visibility (gt c)) in made_keypoints (gt c) -> full (visibility (gt c)) -> full (visibility (pr c)) ->
  (forall w, weights c = Some w -> full w) -> observe c = Ok o -> valid sh idx ->
  exists g p w, entry (visibility (gt c)) idx = Some g /\ entry (visibility (pr c)) idx = Some p /\ weight_at sh (weights c) idx = Some w /\
    nth_error o (offset sh idx) = Some (Z.ltb 1 g, Z.ltb 1 p, w).
Proof. exact (observed c o idx). Qed.
Print Assumptions C136_observed.
(** Precision is the share of the truly visible in those predicted visible. *)
Theorem C136_precision cs os : mapM observe cs = Ok os -> exists q, precision cs = Ok q /\ share (fun o => labelled o && predicted o) predicted (concat os) q.
Proof. exact (precision_share cs os). Qed.
Print Assumptions C136_precision.
(** Recall is the share of those predicted visible in the truly visible. *)
Theorem C136_recall cs os : mapM observe cs = Ok os -> exists q, recall cs = Ok q /\ share (fun o => labelled o && predicted o) labelled (concat os) q.
Proof. exact (recall_share cs os). Qed.
Print Assumptions C136_recall.
(** If a call fails, so do both. *)
Theorem C136_fail cs e : mapM observe cs = Err e -> precision cs = Err e /\ recall cs = Err e.
Proof. exact (metrics_fail cs e). Qed.
Print Assumptions C136_fail.
(** Neither the order nor the batches matter. *)
Theorem C136_order cs ds os ps : mapM observe cs = Ok os -> mapM observe ds = Ok ps -> Permutation (concat os) (concat ps) ->
  (exists q r, precision cs = Ok q /\ precision ds = Ok r /\ q == r)%Q /\ (exists q r, recall cs = Ok q /\ recall ds = Ok r /\ q == r)%Q.
Proof. exact (order_free cs ds os ps). Qed.
Print Assumptions C136_order.
(** Shares are between zero and one, and one exactly without mistakes. *)
Theorem C136_range part whole l q : (forall o, In o l -> 0 <= snd o)%Q -> share (fun o => part o && whole o) whole l q ->
  (0 <= q <= 1)%Q /\ (q == 1 <-> (exists o, In o l /\ whole o = true /\ 0 < snd o) /\ forall o, In o l -> whole o = true -> part o = false -> snd o == 0)%Q.
Proof. exact (share_range part whole l q). Qed.
Print Assumptions C136_range.
(** Swapping labels and predictions swaps precision and recall. *)
Theorem C136_swap cs os : mapM observe cs = Ok os -> exists q r, precision (map swapped cs) = Ok q /\ recall cs = Ok r /\ (q == r)%Q.
Proof. exact (swap_dual cs os). Qed.
Print Assumptions C136_swap.
(** Places and the difference of occluded and missing keypoints do not matter. *)
Theorem C136_only_visible c d : shape (location (gt c)) = shape (location (gt d)) -> shape (location (pr c)) = shape (location (pr d)) ->
  shape (visibility (gt c)) = shape (visibility (gt d)) -> shape (visibility (pr c)) = shape (visibility (pr d)) ->
  Forall2 (fun a b => (1 < a)%Z <-> (1 < b)%Z) (values (visibility (gt c))) (values (visibility (gt d))) ->
  Forall2 (fun a b => (1 < a)%Z <-> (1 < b)%Z) (values (visibility (pr c))) (values (visibility (pr d))) ->
  box_dims c = box_dims d -> weights c = weights d -> observe c = observe d.
Proof. exact (only_visible c d). Qed.
Print Assumptions C136_only_visible.

Example C136_nonvacuous : made_keypoints (person 2 0) /\ full (location (person 2 0)) /\ made_box (flat_box (Some 1%Q)) /\
  (exists k, stack_keypoints [person 2 0; person 1 1] = Ok k /\ has_visible k = {| shape := [2]%nat; values := [true; false] |}) /\
  stack_boxes [flat_box (Some 1%Q); flat_box None] = Err AssertionError /\
  (exists k, stack_boxes [flat_box (Some 1%Q); flat_box (Some 2%Q)] = Ok k).
Proof. repeat split; try exact (person_made 2 0); eexists; repeat split; reflexivity. Qed.
Example C136_nonvacuous_calls : mapM observe calls = Ok [[(true, true, 1%Q); (true, false, 1%Q)]; [(false, true, 2%Q); (true, true, 1%Q)]] /\
  (exists q, precision calls = Ok q /\ q == 1 # 2)%Q /\ (exists q, recall calls = Ok q /\ q == 2 # 3)%Q.
Proof. split; [exact calls_observed|]. split; eexists; split; reflexivity. Qed.
