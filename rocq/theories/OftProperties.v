(** C149: the tutorial of the occupancy and flow challenge. *)
From Coq Require Import QArith Qabs String Lia.
From Verif Require Import Base ResultLib OftModel OftSpec OftProofs.
Open Scope list_scope.

(** The images of the observed occupancy are those of the waypoints, in order. *)
Theorem C149_observed_images (A : Type) n (render : nat -> A) v : fst (observed_cell n render v) = map render (seq 0 n).
Proof. exact (observed_images n render v). Qed.
Print Assumptions C149_observed_images.
(** The images of the occluded occupancy are not: each is the observed occupancy of the last waypoint. *)
Theorem C149_occluded_images_refuted (A : Type) n (robs rocc : nat -> A) v : (0 < n)%nat ->
  occluded_cell n rocc (snd (observed_cell n robs v)) = repeat (robs (n - 1)%nat) n.
Proof. exact (occluded_images n robs rocc v). Qed.
Print Assumptions C149_occluded_images_refuted.
(** The channels of a waypoint: observed, occluded, and the two of the flow. *)
Theorem C149_slices n outs j cell k : nth_error outs j = Some cell -> List.length cell = (4 * n)%nat -> (k < n)%nat ->
  exists o c f a b x y, nth_error (observed_occupancy (get_pred_waypoint_logits n outs)) k = Some o /\
    nth_error (occluded_occupancy (get_pred_waypoint_logits n outs)) k = Some c /\ nth_error (flow (get_pred_waypoint_logits n outs)) k = Some f /\
    nth_error o j = Some [a] /\ nth_error c j = Some [b] /\ nth_error f j = Some [x; y] /\
    nth_error cell (4 * k) = Some a /\ nth_error cell (4 * k + 1) = Some b /\ nth_error cell (4 * k + 2) = Some x /\ nth_error cell (4 * k + 3) = Some y.
Proof. exact (slices_exact n outs j cell k). Qed.
Print Assumptions C149_slices.
(** The flow loss: twice the mean difference over the cells in which its first argument moves. *)
Theorem C149_flow_loss r o s n : flow_error r o s n -> exists v, flow_loss r o = Ok v /\ twice_mean s n v.
Proof. exact (flow_loss_exact r o s n). Qed.
Print Assumptions C149_flow_loss.
(** The losses are means over the waypoints; for the flow the reference is the prediction. *)
Theorem C149_loss xe n T P a b c : occupancy_flow_loss xe n T P = Ok (a, b, c) -> exists la lb lc, mean_of n la a /\ mean_of n lb b /\ mean_of n lc c /\ forall k,
  (forall v, nth_error la k = Some v -> entropy_loss xe (nth_error (observed_occupancy T) k) (nth_error (observed_occupancy P) k) v) /\
  (forall v, nth_error lb k = Some v -> entropy_loss xe (nth_error (occluded_occupancy T) k) (nth_error (occluded_occupancy P) k) v) /\
  (forall v, nth_error lc k = Some v -> flow_difference (nth_error (flow P) k) (nth_error (flow T) k) v).
Proof. exact (loss_exact xe n T P a b c). Qed.
Print Assumptions C149_loss.
(** A prediction of no flow costs nothing, whatever the truth is. *)
Theorem C149_still_prediction_is_free xe n T P a b c : occupancy_flow_loss xe n T P = Ok (a, b, c) -> Forall (Forall still) (flow P) -> (c == 0)%Q.
Proof. exact (still_prediction_is_free xe n T P a b c). Qed.
Print Assumptions C149_still_prediction_is_free.
(** So a loss of zero does not mean that the flow is right where there is flow. *)
Theorem C149_flow_reference_refuted : ~ (forall xe n T P a b c, occupancy_flow_loss xe n T P = Ok (a, b, c) -> (c == 0)%Q ->
  forall k t p s m, nth_error (flow T) k = Some t -> nth_error (flow P) k = Some p -> flow_error t p s m -> (s == 0)%Q).
Proof. exact (flow_reference_refuted ). Qed.
Print Assumptions C149_flow_reference_refuted.
(** The submission: the listed examples, in order, each with the bytes nearest to its predictions. *)
Theorem C149_submission n ids l r : generate_predictions n ids l = Ok r -> exists k, listed ids l k /\ Forall2 (fun e p => fst p = fst e /\ messages_of n (snd e) (snd p)) k r.
Proof. exact (predictions_exact n ids l r). Qed.
Print Assumptions C149_submission.
(** It is made for all predictions with enough waypoints. *)
Theorem C149_submission_accepts n ids l : (forall id w, In (id, w) l -> (n <= List.length (observed_occupancy w))%nat /\ (n <= List.length (occluded_occupancy w))%nat /\ (n <= List.length (flow w))%nat) ->
  exists r, generate_predictions n ids l = Ok r.
Proof. exact (predictions_accepts n ids l). Qed.
Print Assumptions C149_submission_accepts.

Example C149_nonvacuous_slices : observed_occupancy (get_pred_waypoint_logits 2 [[1; 2; 3; 4; 5; 6; 7; 8]%Q]) = [[[1%Q]]; [[5%Q]]] /\
  flow (get_pred_waypoint_logits 2 [[1; 2; 3; 4; 5; 6; 7; 8]%Q]) = [[[3%Q; 4%Q]]; [[7%Q; 8%Q]]].
Proof. split; reflexivity. Qed.
Example C149_nonvacuous_flow_loss : exists v, flow_loss [(3%Q, 4%Q); (0%Q, 0%Q)] [(1%Q, 4%Q); (9%Q, 9%Q)] = Ok v /\ (v == 4)%Q.
Proof. eexists. split; [reflexivity|]. reflexivity. Qed.
Example C149_nonvacuous_loss : exists a b c, occupancy_flow_loss (fun t p => (t + p)%Q) 1 (Waypoints [[1%Q]] [[2%Q]] [[(3%Q, 4%Q)]]) (Waypoints [[0%Q]] [[1%Q]] [[(1%Q, 0%Q)]]) = Ok (a, b, c) /\
  (a == 1000)%Q /\ (b == 3000)%Q /\ (c == 12)%Q.
Proof. do 3 eexists. split; [reflexivity|]. repeat split; reflexivity. Qed.
Example C149_nonvacuous_still : exists a b c, occupancy_flow_loss (fun t p => (t + p)%Q) 1 (Waypoints [[1%Q]] [[2%Q]] [[(3%Q, 4%Q)]]) (Waypoints [[0%Q]] [[1%Q]] [[(0%Q, 0%Q)]]) = Ok (a, b, c).
Proof. do 3 eexists. reflexivity. Qed.
Example C149_nonvacuous_submission : generate_predictions 1 ["b"; "c"]%string
  [("a"%string, Waypoints [] [] []); ("b"%string, Waypoints [[(1 # 2)%Q; 1%Q]] [[0%Q; 0%Q]] [[((-200)%Q, (3 # 2)%Q); (0%Q, 300%Q)]])]
  = Ok [("b"%string, [Message [128; 255] [0; 0] [-128; 2; 0; 127]])]%Z.
Proof. vm_compute. reflexivity. Qed.
