From Coq Require Import Reals List Arith Lra Lia Bool ZArith.
From Verif Require Import Base ResultLib ListLib WayModel WaySpec.
Import ListNotations.
Open Scope R_scope.

Lemma window_cut {A} (d : A) l : forall a n, (a + n <= length l)%nat -> firstn n (skipn a l) = window d l a n.
Proof.
  induction l as [|x l IH]; intros a n H.
  - cbn in H. assert (a = 0)%nat by lia. assert (n = 0)%nat by lia. subst. reflexivity.
  - destruct a as [|a].
    + cbn [skipn]. destruct n as [|n]; [reflexivity|]. cbn in H. cbn [firstn].
      specialize (IH 0%nat n ltac:(lia)). cbn [skipn] in IH. rewrite IH. unfold window.
      cbn [seq map]. f_equal. rewrite <- seq_shift, map_map. apply map_ext. intro i. reflexivity.
    + cbn in H. cbn [skipn]. rewrite (IH a n) by lia. apply map_ext. intro i. reflexivity.
Qed.
Lemma window_length {A} (d : A) l a n : length (window d l a n) = n.
Proof. unfold window. now rewrite map_length, seq_length. Qed.
Lemma nth_window {A} (d : A) l a n i d' : (i < n)%nat -> nth i (window d l a n) d' = nth (a + i) l d.
Proof. intro H. unfold window. now rewrite (nth_map_seq (fun i => nth (a + i) l d) n i d' H). Qed.
Lemma window_window {A} (d : A) l a n b m : (b + m <= n)%nat -> window d (window d l a n) b m = window d l (a + b) m.
Proof.
  intro H. unfold window at 1 3. apply map_ext_in. intros i Hi. apply in_seq in Hi.
  rewrite nth_window by lia. f_equal. lia.
Qed.

Lemma bound_pos n i : (i <= n)%nat -> bound n (Z.of_nat i) = i.
Proof. intro H. unfold bound. destruct (Z.ltb_spec (Z.of_nat i) 0); [lia|]. rewrite Nat2Z.id. lia. Qed.
Lemma bound_neg n i : (0 < i)%nat -> bound n (- Z.of_nat i) = (n - i)%nat.
Proof. intro H. unfold bound. destruct (Z.ltb_spec (- Z.of_nat i) 0); [|lia]. lia. Qed.

Lemma slice_window {A} (d : A) l a b : (a <= b)%nat -> (b <= length l)%nat -> slice l (Z.of_nat a) (Z.of_nat b) = window d l a (b - a).
Proof. intros H K. unfold slice. rewrite !bound_pos by lia. apply window_cut. lia. Qed.
Lemma slice_tail {A} (d : A) l n : (0 < n <= length l)%nat -> slice_from l (- Z.of_nat n) = window d l (length l - n) n.
Proof.
  intro H. unfold slice_from. rewrite bound_neg by lia. rewrite <- (window_cut d) by lia.
  symmetry. apply firstn_all2. rewrite skipn_length. lia.
Qed.
Lemma slice_head {A} (d : A) l n : (0 < n <= length l)%nat -> slice_to l (- Z.of_nat n) = window d l 0 (length l - n).
Proof. intro H. unfold slice_to. rewrite bound_neg by lia. rewrite <- (window_cut d) by lia. reflexivity. Qed.

Lemma reduce_max_greatest l : l <> [] -> exists v, reduce_max l = Some v /\ greatest v l.
Proof.
  induction l as [|x l IH]; [congruence|]. intros _. cbn [reduce_max].
  destruct l as [|y l].
  - exists x. split; [reflexivity|]. split; [now left|]. intros u [U|[]]. subst. lra.
  - destruct (IH ltac:(discriminate)) as (v & V & G & B). rewrite V.
    exists (Rmax x v). split; [reflexivity|]. split.
    + unfold Rmax. destruct (Rle_dec x v); [now right|now left].
    + intros u [U|U]; [subst; apply Rmax_l|]. eapply Rle_trans; [apply B, U|apply Rmax_r].
Qed.

(** The end of a waypoint lies within the series. *)
Lemma end_le W size k : (k < W)%nat -> ((k + 1) * size <= W * size)%nat.
Proof. intro K. apply Nat.mul_le_mono_r. lia. Qed.

Section Waypoints.
Variables (c : config) (size : nat).
Hypothesis Split : can_split c size.
Hypothesis Some_future : (0 < num_future_steps c)%nat.

Lemma size_pos : (0 < size)%nat.
Proof. destruct Split as (W & F & _). destruct size; [rewrite Nat.mul_0_r in F; lia|lia]. Qed.

Lemma occupancy_shows from series k : (k < num_waypoints c)%nat ->
  (from + num_future_steps c <= length series)%nat ->
  exists shown, nth_error (occupancy_waypoints c size (window 0 series from (num_future_steps c))) k = Some shown /\
    shows_waypoint c size from k series shown.
Proof.
  intros K L. pose proof size_pos as S0. destruct Split as (W & F & _).
  pose proof (end_le _ size k K) as E. rewrite <- F in E.
  unfold occupancy_waypoints.
  set (f := fun k0 : nat => _). exists (f k). split.
  - rewrite (nth_error_nth' (map f (seq 0 (num_waypoints c))) (f k)) by (rewrite map_length, seq_length; exact K).
    now rewrite nth_map_seq by exact K.
  - unfold shows_waypoint. subst f. cbn beta zeta.
    replace (Z.of_nat ((k + 1) * size) - Z.of_nat size)%Z with (Z.of_nat (k * size)) by lia.
    replace (Z.of_nat ((k + 1) * size) - 1)%Z with (Z.of_nat (k * size + (size - 1))) by lia.
    rewrite !(slice_window 0) by (rewrite ?window_length; lia).
    rewrite !window_window by lia.
    replace ((k + 1) * size - k * size)%nat with size by lia.
    replace ((k + 1) * size - (k * size + (size - 1)))%nat with 1%nat by lia.
    destruct (cumulative_waypoints c).
    + apply reduce_max_greatest. intro N. apply (f_equal (@length R)) in N. rewrite window_length in N. cbn in N. lia.
    + unfold window. cbn [seq map hd_error]. do 2 f_equal. lia.
Qed.

Lemma whole_series (series : list R) : length series = num_future_steps c ->
  series = window 0 series 0 (num_future_steps c).
Proof.
  intro L. rewrite <- (window_cut 0) by lia. cbn [skipn]. symmetry. apply firstn_all2. lia.
Qed.

Lemma origin_window series : length series = (num_past_steps c + 1 + num_future_steps c)%nat ->
  flow_origin_steps c size series = window 0 series (num_past_steps c + 1 - size) (num_future_steps c).
Proof.
  intro L. pose proof size_pos as S0. destruct Split as (W & F & P).
  unfold flow_origin_steps. rewrite (slice_head 0) by lia.
  rewrite (slice_tail 0) by (rewrite window_length; lia). rewrite window_length.
  rewrite window_window by lia. f_equal. lia.
Qed.

Definition flow_shown (k : nat) (series : list (R * R)) : R * R :=
  let from := (num_past_steps c + 1 - size)%nat in
  if cumulative_waypoints c then mean_flow (window (0, 0) series (from + k * size) size)
  else nth (from + k * size + (size - 1)) series (0, 0).
Lemma flow_ok series : length series = (num_past_steps c + 1 + num_future_steps c - size)%nat ->
  flow_waypoints c size series = Ok (map (fun k => flow_shown k series) (seq 0 (num_waypoints c))).
Proof.
  intro L. pose proof size_pos as S0. destruct Split as (W & F & P).
  unfold flow_waypoints. rewrite (slice_tail (0, 0)) by lia.
  apply mapM_ok. intros k K. apply in_seq in K.
  pose proof (end_le (num_waypoints c) size k ltac:(lia)) as E. rewrite <- F in E.
  replace (length series - num_future_steps c)%nat with (num_past_steps c + 1 - size)%nat by lia.
  unfold flow_shown. cbn zeta. destruct (cumulative_waypoints c).
  - replace (Z.of_nat ((k + 1) * size) - Z.of_nat size)%Z with (Z.of_nat (k * size)) by lia.
    rewrite (slice_window (0, 0)) by (rewrite ?window_length; lia).
    rewrite window_window by lia.
    replace ((k + 1) * size - k * size)%nat with size by lia. reflexivity.
  - replace (Z.of_nat ((k + 1) * size) - 1)%Z with (Z.of_nat (k * size + (size - 1))) by lia.
    unfold index. destruct (Z.ltb_spec (Z.of_nat (k * size + (size - 1))) 0) as [B|B]; [lia|].
    destruct (Z.ltb_spec (Z.of_nat (k * size + (size - 1))) 0) as [B'|B']; [lia|].
    rewrite Nat2Z.id.
    rewrite (nth_error_nth' _ (0, 0)) by (rewrite window_length; lia).
    rewrite nth_window by lia. do 2 f_equal. lia.
Qed.

(** What the waypoints of a class show. *)
Definition class_shown (t : timestep_grids) (w : waypoint_grids) : Prop :=
  observed_occupancy w = occupancy_waypoints c size (window 0 (future_observed_occupancy t) 0 (num_future_steps c)) /\
  occluded_occupancy w = occupancy_waypoints c size (window 0 (future_occluded_occupancy t) 0 (num_future_steps c)) /\
  flow_origin_occupancy w = occupancy_waypoints c size
    (window 0 (all_occupancy t) (num_past_steps c + 1 - size) (num_future_steps c)) /\
  flow w = map (fun k => flow_shown k (all_flow t)) (seq 0 (num_waypoints c)).
Lemma one_class_ok t : well_shaped c size t -> exists w, one_class c size t = Ok w /\ class_shown t w.
Proof.
  intros (L1 & L2 & L3 & L4 & L5 & L6). unfold one_class. rewrite (flow_ok _ L6). cbn [bind].
  eexists. split; [reflexivity|]. unfold class_shown. cbn.
  rewrite <- (whole_series _ L3), <- (whole_series _ L4), (origin_window _ L5). repeat split; reflexivity.
Qed.
Lemma create_ok t : for_all_classes (well_shaped c size) t ->
  exists w, create_ground_truth_waypoint_grids c t = Ok w /\ for_each_class class_shown t w.
Proof.
  intros (A & B & C). pose proof size_pos as S0. pose proof Split as Sp. destruct Sp as (W & F & P).
  destruct (one_class_ok _ A) as (v & V & V'). destruct (one_class_ok _ B) as (p & Pp & P').
  destruct (one_class_ok _ C) as (y & Y & Y').
  exists {| vehicles := v; pedestrians := p; cyclists := y |}. split; [|exact (conj V' (conj P' Y'))].
  unfold create_ground_truth_waypoint_grids.
  destruct (Nat.eqb_spec (num_waypoints c) 0) as [E|_]; [lia|].
  assert (M : (num_future_steps c mod num_waypoints c = 0)%nat)
    by (rewrite F, Nat.mul_comm; apply Nat.mod_mul; lia).
  assert (D : (num_future_steps c / num_waypoints c = size)%nat)
    by (rewrite F, Nat.mul_comm; apply Nat.div_mul; lia).
  rewrite M, D. cbn [Nat.eqb negb].
  destruct (Nat.ltb_spec (num_past_steps c + 1) size); [lia|].
  rewrite V. cbn [bind]. rewrite Pp. cbn [bind]. rewrite Y. reflexivity.
Qed.
End Waypoints.

(** The refusals. *)
Lemma create_refuses c t : (forall size, ~ can_split c size) ->
  exists e, create_ground_truth_waypoint_grids c t = Err e /\ (e = if Nat.eqb (num_waypoints c) 0 then RuntimeError else ValueError).
Proof.
  intro N. unfold create_ground_truth_waypoint_grids.
  destruct (Nat.eqb_spec (num_waypoints c) 0) as [E|E]; [eexists; split; reflexivity|].
  destruct (Nat.eqb_spec (num_future_steps c mod num_waypoints c) 0) as [M|M]; cbn [negb]; [|eexists; split; reflexivity].
  destruct (Nat.ltb_spec (num_past_steps c + 1) (num_future_steps c / num_waypoints c)) as [L|L]; [eexists; split; reflexivity|].
  exfalso. apply (N (num_future_steps c / num_waypoints c)%nat). split; [lia|]. split; [|exact L].
  pose proof (Nat.div_mod (num_future_steps c) (num_waypoints c) E). lia.
Qed.

(** Each future step belongs to one waypoint. *)
Lemma one_waypoint c size s : can_split c size -> (s < num_future_steps c)%nat ->
  exists! k, (k < num_waypoints c /\ k * size <= s < k * size + size)%nat.
Proof.
  intros (W & F & _) L. assert (S0 : (0 < size)%nat) by (destruct size; [rewrite Nat.mul_0_r in F; lia|lia]).
  exists (s / size)%nat. split.
  - pose proof (Nat.div_mod s size ltac:(lia)). pose proof (Nat.mod_upper_bound s size ltac:(lia)).
    split; [|lia]. apply Nat.div_lt_upper_bound; lia.
  - intros k (K & A & B). symmetry. apply (Nat.div_unique s size k (s - k * size)); lia.
Qed.
