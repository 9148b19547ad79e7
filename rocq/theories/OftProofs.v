(** Proofs about the occupancy and flow tutorial. *)
From Coq Require Import QArith Qabs Qminmax String Lia Lqa.
From Verif Require Import Base ResultLib DeltaProofs RangeImageProofs OftModel OftSpec.
Open Scope list_scope.

Lemma exists_one t : ~ still t -> flow_exists t = 1%Q.
Proof.
  unfold still, flow_exists. intros H. destruct (Qeq_bool (fst t) 0) eqn:A; [|reflexivity]. destruct (Qeq_bool (snd t) 0) eqn:B; [|reflexivity].
  apply Qeq_bool_eq in A, B. tauto.
Qed.
Lemma exists_zero t : still t -> flow_exists t = 0%Q.
Proof.
  unfold still, flow_exists. intros [A B]. apply Qeq_eq_bool in A, B. rewrite A, B. reflexivity.
Qed.
Lemma still_dec t : still t \/ ~ still t.
Proof.
  unfold still. destruct (Qeq_dec (fst t) 0); destruct (Qeq_dec (snd t) 0); tauto.
Qed.
Lemma flow_error_total r : forall o, List.length r = List.length o -> exists s n, flow_error r o s n.
Proof.
  induction r as [|a r IH]; intros [|b o] H; try discriminate.
  - exists 0%Q, 0%Z. constructor.
  - injection H as H. destruct (IH o H) as (s & n & E). destruct (still_dec a) as [D|D]; eexists; eexists; [apply flow_error_still|apply flow_error_moves]; eassumption.
Qed.
Lemma flow_sums r o s n : flow_error r o s n -> List.length r = List.length o /\ (0 <= n)%Z /\
  (reduce_sum (map diff_norm (combine r o)) == s)%Q /\ (reduce_sum (map flow_exists r) == inject_Z n)%Q.
Proof.
  induction 1 as [|r o rs os s n D E (L & N & A & B)|r o rs os s n D E (L & N & A & B)].
  - repeat split; try lia; reflexivity.
  - cbn [List.length combine map reduce_sum]. unfold diff_norm at 1. rewrite (exists_zero r D). repeat split; try lia.
    + rewrite A. setoid_replace ((fst r - fst o) * 0)%Q with 0%Q by ring. setoid_replace ((snd r - snd o) * 0)%Q with 0%Q by ring. change (Qabs 0) with 0%Q. ring.
    + rewrite B. ring.
  - cbn [List.length combine map reduce_sum]. unfold diff_norm at 1. rewrite (exists_one r D). repeat split; try lia.
    + rewrite A. setoid_replace ((fst r - fst o) * 1)%Q with (fst r - fst o)%Q by ring. setoid_replace ((snd r - snd o) * 1)%Q with (snd r - snd o)%Q by ring. reflexivity.
    + rewrite B. rewrite inject_Z_plus. reflexivity.
Qed.
Lemma flow_loss_exact r o s n : flow_error r o s n -> exists v, flow_loss r o = Ok v /\ twice_mean s n v.
Proof.
  intros E. destruct (flow_sums _ _ _ _ E) as (L & N & A & B). unfold flow_loss. rewrite L, Nat.eqb_refl. eexists. split; [reflexivity|].
  unfold twice_mean, divide_no_nan. destruct (Z.eq_dec n 0) as [Z|Z].
  - left. split; [exact Z|]. subst n.
    assert (Q0 : (reduce_sum (map flow_exists r) / 2 == 0)%Q) by (rewrite B; reflexivity). apply Qeq_eq_bool in Q0. rewrite Q0. ring.
  - right. split; [lia|].
    assert (Hn : ~ (inject_Z n == 0)%Q) by (intros F; apply Z; unfold Qeq in F; cbn in F; lia).
    destruct (Qeq_bool (reduce_sum (map flow_exists r) / 2) 0) eqn:F.
    + apply Qeq_bool_eq in F. rewrite B in F. exfalso. apply Hn. setoid_replace (inject_Z n) with (2 * (inject_Z n / 2))%Q by field. rewrite F. reflexivity.
    + rewrite A, B. field. exact Hn.
Qed.
Lemma flow_loss_inv r o v : flow_loss r o = Ok v -> exists s n, flow_error r o s n /\ twice_mean s n v.
Proof.
  intros H. assert (L : List.length r = List.length o) by (unfold flow_loss in H; destruct (Nat.eqb_spec (List.length r) (List.length o)); [assumption|discriminate]).
  destruct (flow_error_total r o L) as (s & n & E). destruct (flow_loss_exact _ _ _ _ E) as (w & W & T). rewrite H in W. injection W as <-. eauto.
Qed.
Lemma entropy_sum xe t : forall p, List.length t = List.length p ->
  entropy xe t p (reduce_sum (map (fun tp => xe (fst tp) (snd tp)) (combine t p))).
Proof.
  induction t as [|a t IH]; intros [|b p] H; try discriminate; [constructor|]. injection H as H. cbn. constructor. apply IH, H.
Qed.
Lemma xe_inv xe t p v : sigmoid_xe_loss xe t p = Ok v -> exists s, entropy xe t p s /\ (v == 1000 * s / inject_Z (Z.of_nat (List.length p)))%Q.
Proof.
  unfold sigmoid_xe_loss. destruct (Nat.eqb_spec (List.length t) (List.length p)) as [L|L]; [|discriminate]. intros [= <-].
  eexists. split; [apply entropy_sum, L|reflexivity].
Qed.
Lemma at_index_ok {A} (l : list A) k a : at_index l k = Ok a -> nth_error l k = Some a.
Proof. unfold at_index. destruct (nth_error l k); congruence. Qed.
Lemma loop_exact xe T P n : forall k la lb lc, loss_loop xe k n T P = Ok (la, lb, lc) ->
  List.length la = n /\ List.length lb = n /\ List.length lc = n /\ forall i,
  (forall v, nth_error la i = Some v -> entropy_loss xe (nth_error (observed_occupancy T) (k + i)) (nth_error (observed_occupancy P) (k + i)) v) /\
  (forall v, nth_error lb i = Some v -> entropy_loss xe (nth_error (occluded_occupancy T) (k + i)) (nth_error (occluded_occupancy P) (k + i)) v) /\
  (forall v, nth_error lc i = Some v -> flow_difference (nth_error (flow P) (k + i)) (nth_error (flow T) (k + i)) v).
Proof.
  induction n as [|n IH]; intros k la lb lc; cbn [loss_loop].
  - intros [= <- <- <-]. repeat split; destruct i; discriminate.
  - destruct (at_index (observed_occupancy P) k) as [po|] eqn:E1; cbn [bind]; [|discriminate].
    destruct (at_index (occluded_occupancy P) k) as [pc|] eqn:E2; cbn [bind]; [|discriminate].
    destruct (at_index (observed_occupancy T) k) as [t_o|] eqn:E3; cbn [bind]; [|discriminate].
    destruct (at_index (occluded_occupancy T) k) as [tc|] eqn:E4; cbn [bind]; [|discriminate].
    destruct (sigmoid_xe_loss xe t_o po) as [a|] eqn:E5; cbn [bind]; [|discriminate].
    destruct (sigmoid_xe_loss xe tc pc) as [b|] eqn:E6; cbn [bind]; [|discriminate].
    destruct (at_index (flow P) k) as [pf|] eqn:E7; cbn [bind]; [|discriminate].
    destruct (at_index (flow T) k) as [tf|] eqn:E8; cbn [bind]; [|discriminate].
    destruct (flow_loss pf tf) as [c|] eqn:E9; cbn [bind]; [|discriminate].
    destruct (loss_loop xe (S k) n T P) as [[[xa xb] xc]|] eqn:E; cbn [bind]; [|discriminate].
    intros [= <- <- <-]. destruct (IH _ _ _ _ E) as (L1 & L2 & L3 & H). cbn [List.length]. repeat split; try lia; destruct i as [|i]; cbn [nth_error].
    + intros v [= <-]. rewrite Nat.add_0_r. destruct (xe_inv _ _ _ _ E5) as (s & X & Y). exists t_o, po, s. auto using at_index_ok.
    + replace (k + S i)%nat with (S k + i)%nat by lia. apply H.
    + intros v [= <-]. rewrite Nat.add_0_r. destruct (xe_inv _ _ _ _ E6) as (s & X & Y). exists tc, pc, s. auto using at_index_ok.
    + replace (k + S i)%nat with (S k + i)%nat by lia. apply H.
    + intros v [= <-]. rewrite Nat.add_0_r. destruct (flow_loss_inv _ _ _ E9) as (s & m & X & Y). exists pf, tf, s, m. auto using at_index_ok.
    + replace (k + S i)%nat with (S k + i)%nat by lia. apply H.
Qed.
Lemma reduce_fold l : reduce_sum l = fold_right Qplus 0%Q l.
Proof. induction l as [|a l IH]; cbn; [reflexivity|now rewrite IH]. Qed.
Lemma add_n_mean n l a : List.length l = n -> add_n l = Ok a -> mean_of n l (a / inject_Z (Z.of_nat n)).
Proof.
  intros L. unfold add_n. destruct l as [|q l]; [discriminate|]. intros [= <-]. unfold mean_of. split; [exact L|]. cbn [List.length] in L. split; [lia|].
  change (q + reduce_sum l)%Q with (reduce_sum (q :: l)). rewrite reduce_fold. field. intros F. unfold Qeq in F. cbn in F. lia.
Qed.
Theorem loss_exact xe n T P a b c : occupancy_flow_loss xe n T P = Ok (a, b, c) -> exists la lb lc, mean_of n la a /\ mean_of n lb b /\ mean_of n lc c /\ forall k,
  (forall v, nth_error la k = Some v -> entropy_loss xe (nth_error (observed_occupancy T) k) (nth_error (observed_occupancy P) k) v) /\
  (forall v, nth_error lb k = Some v -> entropy_loss xe (nth_error (occluded_occupancy T) k) (nth_error (occluded_occupancy P) k) v) /\
  (forall v, nth_error lc k = Some v -> flow_difference (nth_error (flow P) k) (nth_error (flow T) k) v).
Proof.
  unfold occupancy_flow_loss. destruct (loss_loop xe 0 n T P) as [[[la lb] lc]|] eqn:E; cbn [bind]; [|discriminate].
  destruct (loop_exact _ _ _ _ _ _ _ _ E) as (L1 & L2 & L3 & H).
  destruct (add_n la) as [x|] eqn:A; cbn [bind]; [|discriminate]. destruct (add_n lb) as [y|] eqn:B; cbn [bind]; [|discriminate].
  destruct (add_n lc) as [z|] eqn:C; cbn [bind]; [|discriminate]. intros [= <- <- <-].
  exists la, lb, lc. split; [now apply add_n_mean|]. split; [now apply add_n_mean|]. split; [now apply add_n_mean|]. exact H.
Qed.
Lemma still_error r o s n : flow_error r o s n -> Forall still r -> n = 0%Z.
Proof.
  induction 1; intros F; [reflexivity|inversion F; auto|inversion F; contradiction].
Qed.
Theorem still_prediction_is_free xe n T P a b c : occupancy_flow_loss xe n T P = Ok (a, b, c) -> Forall (Forall still) (flow P) -> (c == 0)%Q.
Proof.
  intros H F. destruct (loss_exact _ _ _ _ _ _ _ H) as (la & lb & lc & _ & _ & (L & N & M) & K).
  assert (Z : (fold_right Qplus 0 lc == 0)%Q).
  { assert (G : Forall (fun v => v == 0)%Q lc).
    { apply Forall_forall. intros v Hv. apply In_nth_error in Hv. destruct Hv as (k & Hk). destruct (K k) as (_ & _ & Kc). destruct (Kc v Hk) as (r & o & s & m & R & _ & E & D).
      apply nth_error_In in R. rewrite Forall_forall in F. apply F in R. pose proof (still_error _ _ _ _ E R) as ->. destruct D as [[_ D]|[D _]]; [exact D|lia]. }
    clear - G. induction G as [|v l V G IH]; cbn; [reflexivity|]. rewrite V, IH. reflexivity. }
  rewrite Z in M. apply Qmult_integral in M. destruct M as [M|M]; [exact M|]. unfold Qeq in M. cbn in M. lia.
Qed.
Theorem flow_reference_refuted : ~ (forall xe n T P a b c, occupancy_flow_loss xe n T P = Ok (a, b, c) -> (c == 0)%Q ->
  forall k t p s m, nth_error (flow T) k = Some t -> nth_error (flow P) k = Some p -> flow_error t p s m -> (s == 0)%Q).
Proof.
  intros H.
  specialize (H (fun _ _ => 0%Q) 1%nat (Waypoints [[0%Q]] [[0%Q]] [[(3%Q, 4%Q)]]) (Waypoints [[0%Q]] [[0%Q]] [[(0%Q, 0%Q)]]) _ _ _ eq_refl eq_refl
    0%nat [(3%Q, 4%Q)] [(0%Q, 0%Q)] (Qabs (3 - 0) + Qabs (4 - 0) + 0)%Q 1%Z eq_refl eq_refl).
  assert (E : (Qabs (3 - 0) + Qabs (4 - 0) + 0 == 0)%Q); [|discriminate E].
  apply H. apply (flow_error_moves (3%Q, 4%Q) (0%Q, 0%Q) [] [] 0%Q 0%Z); [|constructor]. intros [F _]. discriminate F.
Qed.
(** Slices of the output. *)
Lemma nth_skipn {A} n : forall (l : list A) i, nth_error (skipn n l) i = nth_error l (n + i).
Proof. induction n as [|n IH]; intros [|a l] i; cbn; try reflexivity; [now destruct i|apply IH]. Qed.
Lemma four {A} (l : list A) k n : List.length l = (4 * n)%nat -> (k < n)%nat -> exists a b x y rest,
  skipn (k * 4) l = a :: b :: x :: y :: rest.
Proof.
  intros L K. pose proof (skipn_length (k * 4) l) as S. rewrite L in S.
  destruct (skipn (k * 4) l) as [|a [|b [|x [|y rest]]]]; cbn [List.length] in S; try lia. do 5 eexists. reflexivity.
Qed.
Theorem slices_exact n outs j cell k : nth_error outs j = Some cell -> List.length cell = (4 * n)%nat -> (k < n)%nat ->
  exists o c f a b x y, nth_error (observed_occupancy (get_pred_waypoint_logits n outs)) k = Some o /\
    nth_error (occluded_occupancy (get_pred_waypoint_logits n outs)) k = Some c /\ nth_error (flow (get_pred_waypoint_logits n outs)) k = Some f /\
    nth_error o j = Some [a] /\ nth_error c j = Some [b] /\ nth_error f j = Some [x; y] /\
    nth_error cell (4 * k) = Some a /\ nth_error cell (4 * k + 1) = Some b /\ nth_error cell (4 * k + 2) = Some x /\ nth_error cell (4 * k + 3) = Some y.
Proof.
  intros J L K. destruct (four cell k n L K) as (a & b & x & y & rest & E).
  assert (S : slice (k * NUM_PRED_CHANNELS) (k * NUM_PRED_CHANNELS + NUM_PRED_CHANNELS) cell = [a; b; x; y]).
  { unfold slice, NUM_PRED_CHANNELS. rewrite E. replace (k * 4 + 4 - k * 4)%nat with 4%nat by lia. reflexivity. }
  assert (C : forall i, nth_error cell (4 * k + i) = nth_error (a :: b :: x :: y :: rest) i) by (intros i; rewrite <- E, nth_skipn; f_equal; lia).
  assert (Q : nth_error (seq 0 n) k = Some k).
  { rewrite (nth_error_nth' _ 0%nat) by (rewrite seq_length; lia). rewrite seq_nth by lia. reflexivity. }
  unfold get_pred_waypoint_logits. cbn [observed_occupancy occluded_occupancy flow].
  rewrite !nth_error_map, Q. cbn [option_map]. do 3 eexists. exists a, b, x, y. split; [reflexivity|]. split; [reflexivity|]. split; [reflexivity|].
  rewrite !nth_error_map, J. cbn [option_map]. rewrite S. repeat split.
  - replace (4 * k)%nat with (4 * k + 0)%nat by lia. now rewrite C.
  - now rewrite C.
  - now rewrite C.
  - now rewrite C.
Qed.
(** Images. *)
Lemma fold_last {A} (render : nat -> A) l : forall acc v, fold_left (fun st k => (fst st ++ [render k], render k)) l (acc, v) = (acc ++ map render l, last (map render l) v).
Proof.
  induction l as [|k l IH]; intros acc v; cbn [fold_left map]; [now rewrite app_nil_r|]. cbn [fst]. rewrite IH, <- app_assoc. f_equal.
  destruct (map render l) as [|b m] eqn:E; [reflexivity|]. cbn [last]. destruct m; [reflexivity|]. clear. revert a. generalize (render k) as z. intros z a. revert a. induction m; intros a'; cbn; [reflexivity|]. destruct m; [reflexivity|]. apply (IHm a).
Qed.
Lemma observed_images {A} n (render : nat -> A) v : fst (observed_cell n render v) = map render (seq 0 n).
Proof. unfold observed_cell. rewrite fold_last. reflexivity. Qed.
Lemma fold_const {A} (v : A) (l : list nat) : forall acc, fold_left (fun images _ => images ++ [v]) l acc = acc ++ repeat v (List.length l).
Proof. induction l as [|k l IH]; intros acc; cbn; [now rewrite app_nil_r|]. rewrite IH, <- app_assoc. reflexivity. Qed.
Lemma occluded_images {A} n (robs rocc : nat -> A) v : (0 < n)%nat -> occluded_cell n rocc (snd (observed_cell n robs v)) = repeat (robs (n - 1)%nat) n.
Proof.
  intros N. unfold occluded_cell, observed_cell. rewrite fold_last. cbn [snd]. cbv zeta. rewrite fold_const, seq_length. cbn [app]. f_equal.
  destruct n as [|n]; [lia|]. rewrite seq_S, map_app. cbn [map]. rewrite last_last. f_equal. lia.
Qed.
(** The bytes. *)
Lemma occupancy_level q : (0 <= q <= 1)%Q -> level_of q (occupancy_byte q).
Proof.
  intros [A B]. unfold level_of, occupancy_byte.
  assert (L : (0 <= round_half_even (q * 255))%Z).
  { change 0%Z with (round_half_even 0). apply round_mono. lra. }
  assert (U : (round_half_even (q * 255) <= 255)%Z).
  { apply Z.le_trans with (round_half_even 255); [apply round_mono; lra|vm_compute; discriminate]. }
  rewrite Z.mod_small by lia. split; [lia|]. destruct (round_bounds (q * 255)) as [X Y].
  apply Qabs_Qle_condition. set (r := inject_Z (round_half_even (q * 255))) in *.
  assert (H : (255 * (r / 255) == r)%Q) by (field). set (h := (r / 255)%Q) in *. split; lra.
Qed.
Lemma flow_level_exact q : flow_level q (flow_byte q).
Proof.
  unfold flow_level, flow_byte. split; [lia|]. split; [|split].
  - intros [A B]. assert (L : (-128 <= round_half_even q)%Z) by (change (-128)%Z with (round_half_even (-128)); apply round_mono; exact A).
    assert (U : (round_half_even q <= 127)%Z) by (change 127%Z with (round_half_even 127); apply round_mono; exact B).
    rewrite Z.max_l, Z.min_l by lia. apply round_error.
  - intros A. assert (L : (127 <= round_half_even q)%Z) by (change 127%Z with (round_half_even 127); apply round_mono; exact A). lia.
  - intros A. assert (L : (round_half_even q <= -128)%Z) by (change (-128)%Z with (round_half_even (-128)); apply round_mono; exact A). lia.
Qed.
Lemma forall2_map {A B} (R : A -> B -> Prop) (f : A -> B) l : (forall a, R a (f a)) -> Forall2 R l (map f l).
Proof. intros H. induction l; cbn; constructor; auto. Qed.
Lemma message_exact o c f : message_of o c f (Message (map occupancy_byte o) (map occupancy_byte c) (flat_map (fun g => [flow_byte (fst g); flow_byte (snd g)]) f)).
Proof.
  unfold message_of. cbn [m_observed m_occluded m_flow]. split; [apply forall2_map; intros; now apply occupancy_level|]. split; [apply forall2_map; intros; now apply occupancy_level|].
  exists (map flow_byte (map fst f)), (map flow_byte (map snd f)). split; [apply forall2_map, flow_level_exact|]. split; [apply forall2_map, flow_level_exact|].
  induction f as [|[x y] f IH]; cbn; [reflexivity|]. now rewrite IH.
Qed.
Lemma waypoints_exact n w ms : add_waypoints n w = Ok ms -> messages_of n w ms.
Proof.
  unfold add_waypoints, messages_of. intros H. split; [rewrite (mapM_length _ _ _ H); apply seq_length|].
  assert (G : forall l ms, mapM (fun k => do a <- at_index (observed_occupancy w) k; do b <- at_index (occluded_occupancy w) k; do c <- at_index (flow w) k;
      Ok (Message (map occupancy_byte a) (map occupancy_byte b) (flat_map (fun f => [flow_byte (fst f); flow_byte (snd f)]) c))) l = Ok ms ->
      forall k m, nth_error ms k = Some m -> exists i o c f, nth_error l k = Some i /\
    nth_error (observed_occupancy w) i = Some o /\ nth_error (occluded_occupancy w) i = Some c /\ nth_error (flow w) i = Some f /\ message_of o c f m).
  { clear. induction l as [|i l IH]; intros ms; cbn [mapM].
    - intros [= <-] k m. now destruct k.
    - destruct (at_index (observed_occupancy w) i) as [o|] eqn:E1; cbn [bind]; [|discriminate].
      destruct (at_index (occluded_occupancy w) i) as [c|] eqn:E2; cbn [bind]; [|discriminate].
      destruct (at_index (flow w) i) as [f|] eqn:E3; cbn [bind]; [|discriminate].
      destruct (mapM _ l) as [r|] eqn:E; cbn [bind]; [|discriminate]. intros [= <-] [|k] m; cbn [nth_error].
      + intros [= <-]. exists i, o, c, f. split; [reflexivity|]. split; [now apply at_index_ok|]. split; [now apply at_index_ok|]. split; [now apply at_index_ok|]. apply message_exact.
      + apply IH. reflexivity. }
  intros k m K. destruct (G _ _ H k m K) as (i & o & c & f & I & R).
  assert (i = k); [|subst; eauto].
  assert (k < n)%nat by (assert (I' : nth_error (seq 0 n) k <> None) by congruence; apply nth_error_Some in I'; rewrite seq_length in I'; exact I').
  rewrite (nth_error_nth' _ 0%nat) in I by (rewrite seq_length; lia). rewrite seq_nth in I by lia. injection I as <-. reflexivity.
Qed.
Theorem predictions_exact n ids l r : generate_predictions n ids l = Ok r -> exists k, listed ids l k /\ Forall2 (fun e p => fst p = fst e /\ messages_of n (snd e) (snd p)) k r.
Proof.
  revert r. induction l as [|[id w] l IH]; intros r; cbn [generate_predictions].
  - intros [= <-]. exists []. split; constructor.
  - destruct (existsb (String.eqb id) ids) eqn:E.
    + destruct (add_waypoints n w) as [ms|] eqn:M; cbn [bind]; [|discriminate]. destruct (generate_predictions n ids l) as [rest|]; cbn [bind]; [|discriminate].
      intros [= <-]. destruct (IH rest eq_refl) as (k & K & F). exists ((id, w) :: k). split.
      * apply listed_yes; [|exact K]. apply existsb_exists in E. destruct E as (x & X & Y). apply String.eqb_eq in Y. now subst.
      * constructor; [|exact F]. split; [reflexivity|]. apply waypoints_exact, M.
    + intros H. destruct (IH r H) as (k & K & F). exists k. split; [|exact F]. apply listed_no; [|exact K].
      intros X. rewrite (proj2 (existsb_exists _ _)) in E; [discriminate|]. exists id. split; [exact X|apply String.eqb_refl].
Qed.
Theorem predictions_accepts n ids l : (forall id w, In (id, w) l -> (n <= List.length (observed_occupancy w))%nat /\ (n <= List.length (occluded_occupancy w))%nat /\ (n <= List.length (flow w))%nat) ->
  exists r, generate_predictions n ids l = Ok r.
Proof.
  induction l as [|[id w] l IH]; intros H; cbn [generate_predictions]; [eauto|].
  destruct IH as (r & R); [intros i v V; apply (H i v); now right|]. rewrite R. destruct (existsb _ ids); [|eauto].
  destruct (H id w (or_introl eq_refl)) as (A & B & C).
  assert (W : exists ms, add_waypoints n w = Ok ms); [|destruct W as (ms & ->); cbn [bind]; eauto].
  unfold add_waypoints. assert (G : forall l', (forall k, In k l' -> (k < n)%nat) -> exists ms, mapM (fun k => do a <- at_index (observed_occupancy w) k; do b <- at_index (occluded_occupancy w) k; do c <- at_index (flow w) k;
      Ok (Message (map occupancy_byte a) (map occupancy_byte b) (flat_map (fun f => [flow_byte (fst f); flow_byte (snd f)]) c))) l' = Ok ms).
  { clear R H. induction l' as [|k l' IH]; intros H; cbn [mapM]; [eauto|]. destruct IH as (ms & ->); [intros j J; apply H; now right|]. specialize (H k (or_introl eq_refl)). unfold at_index.
    destruct (nth_error (observed_occupancy w) k) eqn:E1; [|apply nth_error_None in E1; lia]. destruct (nth_error (occluded_occupancy w) k) eqn:E2; [|apply nth_error_None in E2; lia].
    destruct (nth_error (flow w) k) eqn:E3; [|apply nth_error_None in E3; lia]. cbn [bind]. eauto. }
  apply G. intros k K. apply in_seq in K. lia.
Qed.
