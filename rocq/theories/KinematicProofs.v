(** Proofs about the kinematic features. *)
From Coq Require Import QArith Qround Lqa Qfield.
From Verif Require Import Base MonadLib KinematicModel KinematicSpec.
Local Open Scope nat_scope.

Lemma nth_combine {A B} (l : list A) (r : list B) i a b :
  nth_error l i = Some a -> nth_error r i = Some b -> nth_error (combine l r) i = Some (a, b).
Proof.
  revert l r. induction i as [|i IH]; intros [|x l] [|y r] Ha Hb; try discriminate; cbn in *.
  - congruence.
  - auto.
Qed.

Lemma nth_skipn {A} n (l : list A) i : nth_error (skipn n l) i = nth_error l (n + i).
Proof. revert l. induction n as [|n IH]; intros l; [reflexivity|]. destruct l as [|a l]; [now destruct i|]. cbn. apply IH. Qed.

Lemma nth_firstn {A} n (l : list A) i : i < n -> nth_error (firstn n l) i = nth_error l i.
Proof.
  revert l i. induction n as [|n IH]; intros l i H; [lia|].
  destruct l as [|a l]; [reflexivity|]. rewrite firstn_cons. destruct i as [|i]; cbn; [reflexivity|].
  apply IH. lia.
Qed.

Lemma nth_length {A} (l : list A) i : i < length l -> exists a, nth_error l i = Some a.
Proof. intros H. destruct (nth_error l i) as [a|] eqn:E; [now exists a|]. apply nth_error_None in E. lia. Qed.

Lemma nth_lt {A} (l : list A) i a : nth_error l i = Some a -> i < length l.
Proof. intros H. apply nth_error_Some. congruence. Qed.

(** * Central operations *)

Section Central.
  Context {A B : Type} (f : A -> A -> B) (pad : B).

  Lemma central_length t : length (central f pad t) = Nat.max 2 (length t).
  Proof.
    unfold central. rewrite !app_length, map_length, combine_length, skipn_length, firstn_length.
    cbn [length]. lia.
  Qed.

  Lemma central_first t : nth_error (central f pad t) 0 = Some pad.
  Proof. reflexivity. Qed.

  Lemma central_last t : nth_error (central f pad t) (Nat.max 2 (length t) - 1) = Some pad.
  Proof.
    unfold central. cbn [app].
    assert (length (map (fun p => f (fst p) (snd p)) (combine (skipn 2 t) (firstn (length t - 2) t)))
            = length t - 2) as L.
    { rewrite map_length, combine_length, skipn_length, firstn_length. lia. }
    replace (Nat.max 2 (length t) - 1) with (S (length t - 2)) by lia. cbn [nth_error].
    rewrite nth_error_app2 by lia. rewrite L, Nat.sub_diag. reflexivity.
  Qed.

  Lemma central_inner t i a b : nth_error t i = Some b -> nth_error t (S (S i)) = Some a ->
    nth_error (central f pad t) (S i) = Some (f a b).
  Proof.
    intros Hb Ha. pose proof (nth_lt _ _ _ Ha) as L. unfold central. cbn [app nth_error].
    rewrite nth_error_app1.
    - rewrite nth_error_map'.
      rewrite (nth_combine _ _ _ a b); [reflexivity| |].
      + rewrite nth_skipn. exact Ha.
      + rewrite nth_firstn by lia. exact Hb.
    - rewrite map_length, combine_length, skipn_length, firstn_length. lia.
  Qed.

  Lemma central_cases t i v : nth_error (central f pad t) i = Some v ->
    (i = 0 /\ v = pad) \/ (i = Nat.max 2 (length t) - 1 /\ v = pad) \/
    exists j a b, i = S j /\ nth_error t j = Some b /\ nth_error t (S (S j)) = Some a /\ v = f a b.
  Proof.
    intros H. pose proof (nth_lt _ _ _ H) as L. rewrite central_length in L.
    destruct i as [|j].
    - left. split; [reflexivity|]. rewrite central_first in H. congruence.
    - right. destruct (Nat.eq_dec (S j) (Nat.max 2 (length t) - 1)) as [E|E].
      + left. split; [exact E|]. rewrite E, central_last in H. congruence.
      + right. destruct (nth_length t j) as (b & Hb); [lia|].
        destruct (nth_length t (S (S j))) as (a & Ha); [lia|].
        exists j, a, b. rewrite (central_inner t j a b Hb Ha) in H.
        repeat split; try assumption. congruence.
  Qed.
End Central.

(** * Validity *)

Lemma central_and_true t i : true_at (central_logical_and t false) i <->
  exists j, i = S j /\ true_at t j /\ true_at t (S (S j)).
Proof.
  unfold true_at, central_logical_and. split.
  - intros H. apply central_cases in H.
    destruct H as [(_ & E)|[(_ & E)|(j & a & b & -> & Hb & Ha & E)]]; try discriminate.
    symmetry in E. apply andb_prop in E. destruct E as (-> & ->). exists j. auto.
  - intros (j & -> & Hb & Ha). now rewrite (central_inner andb false t j true true Hb Ha).
Qed.

Lemma validity_lengths valid speed accel : compute_kinematic_validity valid = (speed, accel) ->
  length speed = Nat.max 2 (length valid) /\ length accel = Nat.max 2 (length valid).
Proof.
  unfold compute_kinematic_validity. intros H. injection H as <- <-.
  unfold central_logical_and. rewrite !central_length. lia.
Qed.

Lemma validity_exact valid speed accel : compute_kinematic_validity valid = (speed, accel) ->
  (forall i, true_at speed i <-> 1 <= i /\ true_at valid (i - 1) /\ true_at valid (i + 1)) /\
  (forall i, true_at accel i <->
     2 <= i /\ true_at valid (i - 2) /\ true_at valid i /\ true_at valid (i + 2)).
Proof.
  unfold compute_kinematic_validity. intros H. injection H as <- <-. split; intros i.
  - rewrite central_and_true. split.
    + intros (j & -> & Hb & Ha). split; [lia|].
      replace (S j - 1) with j by lia. replace (S j + 1) with (S (S j)) by lia. auto.
    + intros (Hi & Hb & Ha). exists (i - 1). split; [lia|].
      replace (S (S (i - 1))) with (i + 1) by lia. auto.
  - rewrite central_and_true. split.
    + intros (j & -> & Hb & Ha). rewrite central_and_true in Hb, Ha.
      destruct Hb as (k & -> & H1 & H2), Ha as (k' & E & H3 & H4). injection E as <-.
      split; [lia|]. replace (S (S k) - 2) with k by lia.
      replace (S (S k) + 2) with (S (S (S (S k)))) by lia. auto.
    + intros (Hi & H1 & H2 & H3). exists (i - 1). split; [lia|]. rewrite !central_and_true. split.
      * exists (i - 2). split; [lia|]. replace (S (S (i - 2))) with i by lia. auto.
      * exists i. split; [lia|]. replace (S (S i)) with (i + 2) by lia. auto.
Qed.

Lemma true_at_lt l i : true_at l i -> i < length l.
Proof. apply nth_lt. Qed.

(** * Wrapping *)
Local Open Scope Q_scope.

Lemma float_mod_range x y : 0 < y -> 0 <= float_mod x y < y.
Proof.
  intros H. unfold float_mod. pose proof (Qfloor_le (x / y)) as A.
  pose proof (Qlt_floor (x / y)) as B. rewrite inject_Z_plus in B. change (inject_Z 1) with 1 in B.
  set (k := inject_Z (Qfloor (x / y))) in *.
  assert (x == y * (x / y)) as E by (field; intros E; rewrite E in H; discriminate).
  assert (y * k <= y * (x / y)) by (apply Qmult_le_l; assumption).
  assert (y * (x / y) < y * (k + 1)) by (apply Qmult_lt_l; assumption).
  split; lra.
Qed.

Lemma wrap_range pi a : 0 < pi -> - pi <= wrap_angle pi a < pi.
Proof.
  intros H. unfold wrap_angle. pose proof (float_mod_range (a + pi) (2 * pi) ltac:(lra)). lra.
Qed.

Lemma wrap_same pi a : same_mod (2 * pi) (wrap_angle pi a) a.
Proof.
  unfold wrap_angle, float_mod, same_mod. exists (- Qfloor ((a + pi) / (2 * pi)))%Z.
  rewrite inject_Z_opp. ring.
Qed.

Lemma inject_small k : -1 < inject_Z k < 1 -> k = 0%Z.
Proof.
  intros (A & B). change (-1) with (inject_Z (-1)) in A. change 1 with (inject_Z 1) in B.
  rewrite <- Zlt_Qlt in A, B. lia.
Qed.

Lemma wrap_unique pi a b : 0 < pi -> - pi <= b < pi -> same_mod (2 * pi) b a -> wrap_angle pi a == b.
Proof.
  intros H Hb (k & Ek). pose proof (wrap_range pi a H) as Hw. destruct (wrap_same pi a) as (m & Em).
  assert (wrap_angle pi a - b == inject_Z (m - k) * (2 * pi)) as E.
  { unfold Z.sub. rewrite inject_Z_plus, inject_Z_opp, Ek, Em. ring. }
  assert (m - k = 0)%Z as E0.
  { apply inject_small. set (q := inject_Z (m - k)) in *.
    split.
    - apply Qnot_le_lt. intros L. assert (q * (2 * pi) <= -1 * (2 * pi)) by (apply Qmult_le_compat_r; lra). lra.
    - apply Qnot_le_lt. intros L. assert (1 * (2 * pi) <= q * (2 * pi)) by (apply Qmult_le_compat_r; lra). lra. }
  rewrite E0 in E. change (inject_Z 0) with 0 in E. lra.
Qed.

(** * Which features are numbers *)

Lemma central_diff_number t i j q :
  (exists a b, nth_error t j = Some (Some b) /\ nth_error t (S (S j)) = Some (Some a) /\ q = (a - b) / 2) ->
  i = S j -> nth_error (central_diff t None) i = Some (Some q).
Proof.
  intros (a & b & Hb & Ha & ->) ->. unfold central_diff.
  now rewrite (central_inner _ _ t j _ _ Hb Ha).
Qed.

Lemma central_diff_inv t i q : nth_error (central_diff t None) i = Some (Some q) ->
  exists j a b, i = S j /\ nth_error t j = Some (Some b) /\ nth_error t (S (S j)) = Some (Some a) /\
                q = (a - b) / 2.
Proof.
  unfold central_diff. intros H. apply central_cases in H.
  destruct H as [(_ & E)|[(_ & E)|(j & a & b & -> & Hb & Ha & E)]]; try discriminate.
  destruct a as [a|], b as [b|]; cbn [lift2] in E; try discriminate.
  injection E as ->. exists j, a, b. auto.
Qed.

Lemma map3_nth {A B C D} (f : A -> B -> C -> D) a b c i x y z :
  nth_error a i = Some x -> nth_error b i = Some y -> nth_error c i = Some z ->
  nth_error (map3 f a b c) i = Some (f x y z).
Proof.
  intros Ha Hb Hc. unfold map3. rewrite nth_error_map'.
  rewrite (nth_combine _ _ _ _ _ (nth_combine _ _ _ _ _ Ha Hb) Hc). reflexivity.
Qed.

Lemma map3_length {A B C D} (f : A -> B -> C -> D) a b c :
  length a = length b -> length a = length c -> length (map3 f a b c) = length a.
Proof. intros H1 H2. unfold map3. rewrite map_length, !combine_length. lia. Qed.

Lemma lift1_inv f a q : lift1 f a = Some q -> exists p, a = Some p /\ q = f p.
Proof. destruct a as [p|]; cbn; [intros H; injection H as <-; eauto|discriminate]. Qed.

Lemma lift3_inv f a b c q : lift3 f a b c = Some q ->
  exists x y z, a = Some x /\ b = Some y /\ c = Some z /\ q = f x y z.
Proof. destruct a, b, c; cbn; try discriminate. intros H. injection H as <-. eauto 8. Qed.

Section Features.
  Context (pi : Q) (norm : Q -> Q -> Q -> Q) (x y z h : list (option Q)) (dt : Q) (ft : features).
  Hypothesis Hok : compute_kinematic_features pi norm x y z h dt = Ok ft.

  Lemma feature_lengths_in : length x = length y /\ length x = length z.
  Proof using Hok.
    unfold compute_kinematic_features in Hok.
    destruct (Nat.eqb (length x) (length y) && Nat.eqb (length x) (length z))%bool eqn:E;
      [|discriminate].
    apply andb_prop in E. destruct E as (E1 & E2). apply Nat.eqb_eq in E1, E2. auto.
  Qed.

  Definition speed_list := map (lift1 (fun s => s / dt))
    (map3 (lift3 norm) (central_diff x None) (central_diff y None) (central_diff z None)).
  Definition dh_list := map (lift1 (fun d => wrap_angle pi (d * 2) / 2)) (central_diff h None).

  Lemma feature_fields :
    linear_speed ft = speed_list /\
    linear_accel ft = map (lift1 (fun s => s / dt)) (central_diff speed_list None) /\
    angular_speed ft = map (lift1 (fun d => d / dt)) dh_list /\
    angular_accel ft = map (lift1 (fun d => d / (dt * dt)))
       (map (lift1 (fun d => wrap_angle pi (d * 2) / 2)) (central_diff dh_list None)).
  Proof using Hok.
    unfold compute_kinematic_features in Hok. destruct (negb _); [discriminate|].
    cbv zeta in Hok. injection Hok as <-. cbn. repeat split.
  Qed.

  Lemma central_diff_length t : length (central_diff t None) = Nat.max 2 (length t).
  Proof. apply central_length. Qed.

  Lemma speed_list_length : length speed_list = Nat.max 2 (length x).
  Proof using Hok.
    destruct feature_lengths_in as (E1 & E2). unfold speed_list.
    rewrite map_length, map3_length; rewrite ?central_diff_length; lia.
  Qed.

  Lemma feature_lengths :
    length (linear_speed ft) = Nat.max 2 (length x) /\ length (linear_accel ft) = Nat.max 2 (length x) /\
    length (angular_speed ft) = Nat.max 2 (length h) /\ length (angular_accel ft) = Nat.max 2 (length h).
  Proof using Hok.
    destruct feature_fields as (-> & -> & -> & ->).
    rewrite ?map_length, ?central_diff_length. unfold dh_list.
    rewrite ?map_length, ?central_diff_length, speed_list_length. lia.
  Qed.

  Lemma speed_value j x0 x1 y0 y1 z0 z1 :
    nth_error x j = Some (Some x0) -> nth_error x (S (S j)) = Some (Some x1) ->
    nth_error y j = Some (Some y0) -> nth_error y (S (S j)) = Some (Some y1) ->
    nth_error z j = Some (Some z0) -> nth_error z (S (S j)) = Some (Some z1) ->
    nth_error (linear_speed ft) (S j) =
      Some (Some (norm ((x1 - x0) / 2) ((y1 - y0) / 2) ((z1 - z0) / 2) / dt)).
  Proof using Hok.
    intros. destruct feature_fields as (-> & _). unfold speed_list. rewrite nth_error_map'.
    rewrite (map3_nth _ _ _ _ _ (Some ((x1 - x0) / 2)) (Some ((y1 - y0) / 2)) (Some ((z1 - z0) / 2))).
    - reflexivity.
    - eapply central_diff_number; [|reflexivity]. eauto.
    - eapply central_diff_number; [|reflexivity]. eauto.
    - eapply central_diff_number; [|reflexivity]. eauto.
  Qed.

  Lemma accel_value j s0 s1 :
    nth_error (linear_speed ft) j = Some (Some s0) -> nth_error (linear_speed ft) (S (S j)) = Some (Some s1) ->
    nth_error (linear_accel ft) (S j) = Some (Some ((s1 - s0) / 2 / dt)).
  Proof using Hok.
    destruct feature_fields as (-> & -> & _). intros H0 H1. rewrite nth_error_map'.
    erewrite central_diff_number; [reflexivity| |reflexivity]. eauto.
  Qed.

  Lemma dh_value j h0 h1 :
    nth_error h j = Some (Some h0) -> nth_error h (S (S j)) = Some (Some h1) ->
    nth_error dh_list (S j) = Some (Some (wrap_angle pi ((h1 - h0) / 2 * 2) / 2)).
  Proof using.
    intros H0 H1. unfold dh_list. rewrite nth_error_map'.
    erewrite central_diff_number; [reflexivity| |reflexivity]. eauto.
  Qed.

  Lemma angular_value j h0 h1 :
    nth_error h j = Some (Some h0) -> nth_error h (S (S j)) = Some (Some h1) ->
    nth_error (angular_speed ft) (S j) = Some (Some (wrap_angle pi ((h1 - h0) / 2 * 2) / 2 / dt)).
  Proof using Hok.
    intros H0 H1. destruct feature_fields as (_ & _ & -> & _). rewrite nth_error_map'.
    now rewrite (dh_value j h0 h1 H0 H1).
  Qed.

  Lemma angular_accel_value j d0 d1 :
    nth_error dh_list j = Some (Some d0) -> nth_error dh_list (S (S j)) = Some (Some d1) ->
    nth_error (angular_accel ft) (S j) =
      Some (Some (wrap_angle pi ((d1 - d0) / 2 * 2) / 2 / (dt * dt))).
  Proof using Hok.
    intros H0 H1. destruct feature_fields as (_ & _ & _ & ->). rewrite !nth_error_map'.
    erewrite central_diff_number; [reflexivity| |reflexivity]. eauto.
  Qed.

  Lemma number_some l i v : numbers l -> nth_error l i = Some v -> exists q, nth_error l i = Some (Some q).
  Proof using. intros Hn H. specialize (Hn i v H). destruct v as [q|]; [eauto|contradiction]. Qed.

  Lemma numbers_nth l i : numbers l -> (i < length l)%nat -> exists q, nth_error l i = Some (Some q).
  Proof using. intros Hn H. destruct (nth_length l i H) as (v & Hv). eapply number_some; eauto. Qed.

  (** With numbers as input, speed is a number exactly inside. *)
  Lemma speed_number_iff i : numbers x -> numbers y -> numbers z ->
    ((exists q, nth_error (linear_speed ft) i = Some (Some q)) <-> (1 <= i /\ i + 1 < length x)%nat).
  Proof using Hok.
    intros Nx Ny Nz. destruct feature_lengths_in as (E1 & E2). split.
    - intros (q & H). destruct feature_fields as (E & _). rewrite E in H. unfold speed_list in H.
      rewrite nth_error_map' in H.
      destruct (nth_error (map3 _ _ _ _) i) as [v|] eqn:Ev; [|discriminate]. cbn in H.
      injection H as H. apply lift1_inv in H. destruct H as (p & -> & _).
      unfold map3 in Ev. rewrite nth_error_map' in Ev.
      destruct (nth_error (combine _ _) i) as [[[a b] c]|] eqn:Ec; [|discriminate]. cbn in Ev.
      injection Ev as Ev. apply lift3_inv in Ev. destruct Ev as (u & v & w & -> & _).
      assert (nth_error (central_diff x None) i = Some (Some u)) as Hx.
      { clear -Ec. revert Ec. generalize (central_diff x None) (central_diff y None) (central_diff z None).
        induction i as [|i IH]; intros [|a l] [|b' l'] [|c' l'']; cbn; try discriminate.
        - congruence.
        - apply IH. }
      apply central_diff_inv in Hx. destruct Hx as (j & a1 & b1 & -> & _ & Ha & _).
      apply nth_lt in Ha. lia.
    - intros (H1 & H2). destruct i as [|j]; [lia|].
      destruct (numbers_nth x j Nx) as (x0 & X0); [lia|]. destruct (numbers_nth x (S (S j)) Nx) as (x1 & X1); [lia|].
      destruct (numbers_nth y j Ny) as (y0 & Y0); [lia|]. destruct (numbers_nth y (S (S j)) Ny) as (y1 & Y1); [lia|].
      destruct (numbers_nth z j Nz) as (z0 & Z0); [lia|]. destruct (numbers_nth z (S (S j)) Nz) as (z1 & Z1); [lia|].
      eexists. eapply speed_value; eauto.
  Qed.

  Lemma accel_number_iff i : numbers x -> numbers y -> numbers z ->
    ((exists q, nth_error (linear_accel ft) i = Some (Some q)) <-> (2 <= i /\ i + 2 < length x)%nat).
  Proof using Hok.
    intros Nx Ny Nz. split.
    - intros (q & H). destruct feature_fields as (E & Ea & _). rewrite Ea in H. rewrite nth_error_map' in H.
      destruct (nth_error (central_diff speed_list None) i) as [v|] eqn:Ev; [|discriminate]. cbn in H.
      injection H as H. apply lift1_inv in H. destruct H as (p & -> & _).
      apply central_diff_inv in Ev. destruct Ev as (j & a & b & -> & Hb & Ha & _).
      rewrite <- E in Hb, Ha.
      pose proof (proj1 (speed_number_iff _ Nx Ny Nz) (ex_intro _ _ Hb)).
      pose proof (proj1 (speed_number_iff _ Nx Ny Nz) (ex_intro _ _ Ha)). lia.
    - intros (H1 & H2). destruct i as [|j]; [lia|].
      destruct (proj2 (speed_number_iff j Nx Ny Nz)) as (s0 & S0); [lia|].
      destruct (proj2 (speed_number_iff (S (S j)) Nx Ny Nz)) as (s1 & S1); [lia|].
      eexists. eapply accel_value; eauto.
  Qed.

  Lemma dh_number_iff i : numbers h ->
    ((exists q, nth_error dh_list i = Some (Some q)) <-> (1 <= i /\ i + 1 < length h)%nat).
  Proof using.
    intros Nh. split.
    - intros (q & H). unfold dh_list in H. rewrite nth_error_map' in H.
      destruct (nth_error (central_diff h None) i) as [v|] eqn:Ev; [|discriminate]. cbn in H.
      injection H as H. apply lift1_inv in H. destruct H as (p & -> & _).
      apply central_diff_inv in Ev. destruct Ev as (j & a & b & -> & _ & Ha & _). apply nth_lt in Ha. lia.
    - intros (H1 & H2). destruct i as [|j]; [lia|].
      destruct (numbers_nth h j Nh) as (x0 & X0); [lia|]. destruct (numbers_nth h (S (S j)) Nh) as (x1 & X1); [lia|].
      eexists. eapply dh_value; eauto.
  Qed.

  Lemma angular_number_iff i : numbers h ->
    ((exists q, nth_error (angular_speed ft) i = Some (Some q)) <-> (1 <= i /\ i + 1 < length h)%nat).
  Proof using Hok.
    intros Nh. rewrite <- (dh_number_iff i Nh). destruct feature_fields as (_ & _ & -> & _).
    rewrite nth_error_map'. split.
    - intros (q & H). destruct (nth_error dh_list i) as [v|]; [|discriminate]. cbn in H. injection H as H.
      apply lift1_inv in H. destruct H as (p & -> & _). eauto.
    - intros (q & ->). cbn. eauto.
  Qed.

  Lemma angular_accel_number_iff i : numbers h ->
    ((exists q, nth_error (angular_accel ft) i = Some (Some q)) <-> (2 <= i /\ i + 2 < length h)%nat).
  Proof using Hok.
    intros Nh. split.
    - intros (q & H). destruct feature_fields as (_ & _ & _ & E). rewrite E in H. rewrite !nth_error_map' in H.
      destruct (nth_error (central_diff dh_list None) i) as [v|] eqn:Ev; [|discriminate]. cbn in H.
      injection H as H. apply lift1_inv in H. destruct H as (p & H & _).
      apply lift1_inv in H. destruct H as (p' & -> & _).
      apply central_diff_inv in Ev. destruct Ev as (j & a & b & -> & Hb & Ha & _).
      pose proof (proj1 (dh_number_iff _ Nh) (ex_intro _ _ Hb)).
      pose proof (proj1 (dh_number_iff _ Nh) (ex_intro _ _ Ha)). lia.
    - intros (H1 & H2). destruct i as [|j]; [lia|].
      destruct (proj2 (dh_number_iff j Nh)) as (s0 & S0); [lia|].
      destruct (proj2 (dh_number_iff (S (S j)) Nh)) as (s1 & S1); [lia|].
      eexists. eapply angular_accel_value; eauto.
  Qed.
End Features.

Lemma features_total pi norm x y z h dt :
  (exists ft, compute_kinematic_features pi norm x y z h dt = Ok ft) <->
  length x = length y /\ length x = length z.
Proof.
  split.
  - intros (ft & H). eapply feature_lengths_in; eauto.
  - intros (E1 & E2). unfold compute_kinematic_features. rewrite <- E1, <- E2, Nat.eqb_refl. cbn. eauto.
Qed.

(** * Angular speed *)

Lemma div2_mul2 q : q / 2 * 2 == q.
Proof. field. Qed.

Lemma wrap_compat pi a b : 0 < pi -> a == b -> wrap_angle pi a == wrap_angle pi b.
Proof.
  intros H E. apply wrap_unique; [exact H|now apply wrap_range|].
  destruct (wrap_same pi b) as (k & Ek). exists k. now rewrite E.
Qed.

Lemma angular_step_spec pi h0 h1 : 0 < pi ->
  let d := wrap_angle pi ((h1 - h0) / 2 * 2) / 2 in
  - (pi / 2) <= d < pi / 2 /\ same_mod pi d ((h1 - h0) / 2).
Proof.
  intros H d. pose proof (wrap_range pi ((h1 - h0) / 2 * 2) H) as R.
  set (w := wrap_angle pi ((h1 - h0) / 2 * 2)) in *.
  assert (d == w * (1 # 2)) as Ed by (unfold d; field).
  assert (pi / 2 == pi * (1 # 2)) as Ep by field.
  split; [rewrite Ep, Ed; lra|].
  destruct (wrap_same pi ((h1 - h0) / 2 * 2)) as (k & Ek). fold w in Ek.
  exists k. rewrite Ed, Ek. field.
Qed.

(** A constant turn rate is measured exactly, however the headings are wrapped. *)
Lemma uniform_turn pi norm x y z h dt ft h0 w :
  0 < pi -> ~ dt == 0 -> - (pi / 2) <= w < pi / 2 ->
  compute_kinematic_features pi norm x y z h dt = Ok ft ->
  (forall i v, nth_error h i = Some v ->
     exists q, v = Some q /\ same_mod (2 * pi) q (h0 + inject_Z (Z.of_nat i) * w)) ->
  (forall i, (1 <= i)%nat -> (i + 1 < length h)%nat -> number_at (angular_speed ft) i (w / dt)) /\
  (forall i, (2 <= i)%nat -> (i + 2 < length h)%nat -> number_at (angular_accel ft) i 0).
Proof.
  intros Hpi Hdt Hw Hok Hh.
  assert (pi / 2 == pi * (1 # 2)) as Ep by field. rewrite Ep in Hw.
  assert (forall j, (S j + 1 < length h)%nat -> exists d, nth_error (dh_list pi h) (S j) = Some (Some d) /\ d == w) as D.
  { intros j Hj. destruct (nth_length h j) as (v0 & V0); [lia|].
    destruct (nth_length h (S (S j))) as (v1 & V1); [lia|].
    destruct (Hh _ _ V0) as (q0 & -> & k0 & E0). destruct (Hh _ _ V1) as (q1 & -> & k1 & E1).
    eexists. split; [apply (dh_value pi h j q0 q1 V0 V1)|].
    assert (wrap_angle pi ((q1 - q0) / 2 * 2) == 2 * w) as ->; [|field].
    apply wrap_unique; [exact Hpi|lra|]. exists (k0 - k1)%Z.
    unfold Z.sub. rewrite div2_mul2, E0, E1, !inject_Z_plus, inject_Z_opp.
    rewrite !Nat2Z.inj_succ. unfold Z.succ. rewrite !inject_Z_plus. change (inject_Z 1) with 1. ring. }
  split.
  - intros i H1 H2. destruct i as [|j]; [lia|]. destruct (D j H2) as (d & Hd & Ed).
    destruct (feature_fields _ _ _ _ _ _ _ _ Hok) as (_ & _ & E & _).
    exists (d / dt). split; [rewrite E, nth_error_map', Hd; reflexivity|]. now rewrite Ed.
  - intros i H1 H2. destruct i as [|[|j]]; [lia|lia|].
    destruct (D j) as (d0 & Hd0 & Ed0); [lia|]. destruct (D (S (S j))) as (d1 & Hd1 & Ed1); [lia|].
    eexists. split; [eapply angular_accel_value; eauto|].
    assert (wrap_angle pi ((d1 - d0) / 2 * 2) == 0) as ->.
    { apply wrap_unique; [exact Hpi|lra|]. exists 0%Z. rewrite div2_mul2, Ed0, Ed1.
      change (inject_Z 0) with 0. ring. }
    field. exact Hdt.
Qed.

(** * Dependence on valid steps only *)

Lemma agree_true valid l l' i : agree_on valid l l' -> true_at valid i -> nth_error l i = nth_error l' i.
Proof. intros (_ & H). apply H. Qed.

Lemma central_diff_agree t t' j : length t = length t' ->
  nth_error t j = nth_error t' j -> nth_error t (S (S j)) = nth_error t' (S (S j)) ->
  nth_error (central_diff t None) (S j) = nth_error (central_diff t' None) (S j).
Proof.
  intros L E0 E1. destruct (nth_error t (S (S j))) as [a|] eqn:Ea.
  - destruct (nth_length t j) as (b & Eb); [apply nth_lt in Ea; lia|].
    unfold central_diff. rewrite (central_inner _ _ t j a b Eb Ea).
    rewrite (central_inner _ _ t' j a b); congruence.
  - pose proof (proj1 (nth_error_None _ _) Ea) as H.
    assert (forall u : list (option Q), length u = length t ->
      nth_error (central_diff u None) (S j) = if Nat.ltb (S j) (Nat.max 2 (length t)) then Some None else None) as G.
    { intros u Lu. destruct (Nat.ltb (S j) (Nat.max 2 (length t))) eqn:E.
      - apply Nat.ltb_lt in E. replace (S j) with (Nat.max 2 (length u) - 1)%nat by lia. apply central_last.
      - apply Nat.ltb_ge in E. apply nth_error_None. rewrite central_diff_length, Lu. exact E. }
    rewrite !G; congruence.
Qed.

Lemma map3_agree {A B C D} (f : A -> B -> C -> D) a b c a' b' c' i :
  length a = length b -> length a = length c -> length a' = length a -> length b' = length a -> length c' = length a ->
  nth_error a i = nth_error a' i -> nth_error b i = nth_error b' i -> nth_error c i = nth_error c' i ->
  nth_error (map3 f a b c) i = nth_error (map3 f a' b' c') i.
Proof.
  intros L1 L2 L3 L4 L5 E1 E2 E3.
  destruct (nth_error a i) as [u|] eqn:Eu.
  - pose proof (nth_lt _ _ _ Eu) as H.
    destruct (nth_length b i) as (v & Ev); [lia|]. destruct (nth_length c i) as (w & Ew); [lia|].
    rewrite (map3_nth f a b c i u v w Eu Ev Ew).
    rewrite (map3_nth f a' b' c' i u v w); congruence.
  - apply nth_error_None in Eu.
    rewrite (proj2 (nth_error_None (map3 f a b c) i)) by (rewrite map3_length; lia).
    rewrite (proj2 (nth_error_None (map3 f a' b' c') i)) by (rewrite map3_length; lia). reflexivity.
Qed.

Lemma valid_steps_only pi norm valid speed accel x y z h x' y' z' h' dt ft ft' :
  compute_kinematic_validity valid = (speed, accel) ->
  agree_on valid x x' -> agree_on valid y y' -> agree_on valid z z' -> agree_on valid h h' ->
  compute_kinematic_features pi norm x y z h dt = Ok ft ->
  compute_kinematic_features pi norm x' y' z' h' dt = Ok ft' ->
  agree_on speed (linear_speed ft) (linear_speed ft') /\
  agree_on speed (angular_speed ft) (angular_speed ft') /\
  agree_on accel (linear_accel ft) (linear_accel ft') /\
  agree_on accel (angular_accel ft) (angular_accel ft').
Proof.
  intros Hv Ax Ay Az Ah Hok Hok'.
  destruct (validity_exact valid speed accel Hv) as (VS & VA).
  destruct (feature_fields _ _ _ _ _ _ _ _ Hok) as (F1 & F2 & F3 & F4).
  destruct (feature_fields _ _ _ _ _ _ _ _ Hok') as (F1' & F2' & F3' & F4').
  pose proof (feature_lengths _ _ _ _ _ _ _ _ Hok) as (L1 & L2 & L3 & L4).
  pose proof (feature_lengths _ _ _ _ _ _ _ _ Hok') as (L1' & L2' & L3' & L4').
  destruct (feature_lengths_in _ _ _ _ _ _ _ _ Hok) as (Ex & Ez).
  destruct (feature_lengths_in _ _ _ _ _ _ _ _ Hok') as (Ex' & Ez').
  pose proof Ax as (Lx & _). pose proof Ay as (Ly & _). pose proof Az as (Lz & _). pose proof Ah as (Lh & _).
  assert (forall j, true_at valid j -> true_at valid (S (S j)) ->
    nth_error (speed_list norm x y z dt) (S j) = nth_error (speed_list norm x' y' z' dt) (S j)) as S1.
  { intros j H0 H1. unfold speed_list. rewrite !nth_error_map'. f_equal.
    apply map3_agree; rewrite ?central_diff_length; try lia;
      apply central_diff_agree; try assumption; eapply agree_true; eassumption. }
  assert (forall j, true_at valid j -> true_at valid (S (S j)) ->
    nth_error (dh_list pi h) (S j) = nth_error (dh_list pi h') (S j)) as S2.
  { intros j H0 H1. unfold dh_list. rewrite !nth_error_map'. f_equal.
    apply central_diff_agree; try assumption; eapply agree_true; eassumption. }
  assert (length (speed_list norm x y z dt) = length (speed_list norm x' y' z' dt)) as Ls
    by (rewrite <- F1, <- F1', L1, L1'; lia).
  assert (length (dh_list pi h) = length (dh_list pi h')) as Ld
    by (unfold dh_list; rewrite !map_length, !central_diff_length; lia).
  split; [|split; [|split]]; (split; [lia|]); intros i Hi.
  - rewrite F1, F1'. apply VS in Hi. destruct Hi as (Hi & A & B).
    destruct i as [|j]; [lia|]. apply S1.
    + replace j with (S j - 1)%nat by lia. exact A.
    + replace (S (S j)) with (S j + 1)%nat by lia. exact B.
  - rewrite F3, F3', !nth_error_map'. f_equal. apply VS in Hi. destruct Hi as (Hi & A & B).
    destruct i as [|j]; [lia|]. apply S2.
    + replace j with (S j - 1)%nat by lia. exact A.
    + replace (S (S j)) with (S j + 1)%nat by lia. exact B.
  - rewrite F2, F2', !nth_error_map'. f_equal. apply VA in Hi. destruct Hi as (Hi & A & B & C).
    destruct i as [|[|j]]; [lia|lia|].
    replace (S (S j) - 2)%nat with j in A by lia. replace (S (S j) + 2)%nat with (S (S (S (S j)))) in C by lia.
    apply central_diff_agree; [exact Ls|apply S1; assumption|apply S1; assumption].
  - rewrite F4, F4', !nth_error_map'. do 2 f_equal. apply VA in Hi. destruct Hi as (Hi & A & B & C).
    destruct i as [|[|j]]; [lia|lia|].
    replace (S (S j) - 2)%nat with j in A by lia. replace (S (S j) + 2)%nat with (S (S (S (S j)))) in C by lia.
    apply central_diff_agree; [exact Ld|apply S2; assumption|apply S2; assumption].
Qed.

(** * Statements without the helpers of this file *)

Lemma angular_speed_spec pi norm x y z h dt ft j h0 h1 : 0 < pi -> ~ dt == 0 ->
  compute_kinematic_features pi norm x y z h dt = Ok ft ->
  nth_error h j = Some (Some h0) -> nth_error h (S (S j)) = Some (Some h1) ->
  exists w, number_at (angular_speed ft) (S j) w /\
    - (pi / 2) <= w * dt < pi / 2 /\ same_mod pi (w * dt) ((h1 - h0) / 2).
Proof.
  intros Hp Hdt Hok H0 H1. pose proof (angular_value _ _ _ _ _ _ _ _ Hok _ _ _ H0 H1) as E.
  pose proof (angular_step_spec pi h0 h1 Hp) as S. cbn zeta in S.
  set (d := wrap_angle pi ((h1 - h0) / 2 * 2) / 2) in *. destruct S as (R & (k & Ek)).
  exists (d / dt). assert (d / dt * dt == d) as Ed by (field; exact Hdt). split; [|split].
  - exists (d / dt). split; [exact E|reflexivity].
  - rewrite Ed. exact R.
  - exists k. rewrite Ed. exact Ek.
Qed.

Lemma angular_accel_spec pi norm x y z h dt ft j w0 w1 : 0 < pi -> ~ dt == 0 ->
  compute_kinematic_features pi norm x y z h dt = Ok ft ->
  nth_error (angular_speed ft) j = Some (Some w0) ->
  nth_error (angular_speed ft) (S (S j)) = Some (Some w1) ->
  exists a, number_at (angular_accel ft) (S j) a /\
    - (pi / 2) <= a * (dt * dt) < pi / 2 /\ same_mod pi (a * (dt * dt)) ((w1 * dt - w0 * dt) / 2).
Proof.
  intros Hp Hdt Hok H0 H1. pose proof (feature_fields _ _ _ _ _ _ _ _ Hok) as (_ & _ & F & _).
  rewrite F, nth_error_map' in H0, H1.
  destruct (nth_error (dh_list pi h) j) as [[d0|]|] eqn:D0; cbn in H0; try discriminate.
  destruct (nth_error (dh_list pi h) (S (S j))) as [[d1|]|] eqn:D1; cbn in H1; try discriminate.
  injection H0 as H0. injection H1 as H1. subst w0 w1.
  pose proof (angular_accel_value _ _ _ _ _ _ _ _ Hok _ _ _ D0 D1) as E.
  pose proof (angular_step_spec pi d0 d1 Hp) as S. cbn zeta in S.
  set (d := wrap_angle pi ((d1 - d0) / 2 * 2) / 2) in *. destruct S as (R & (k & Ek)).
  assert (d / (dt * dt) * (dt * dt) == d) as Ed by (field; exact Hdt).
  exists (d / (dt * dt)). split; [|split].
  - exists (d / (dt * dt)). split; [exact E|reflexivity].
  - rewrite Ed. exact R.
  - exists k. rewrite Ed, Ek. field. exact Hdt.
Qed.

(** A step marked valid has a number: the mask never lets a NaN through. *)
Lemma valid_is_number pi norm valid speed accel x y z h dt ft :
  compute_kinematic_validity valid = (speed, accel) ->
  (forall i, true_at valid i -> forall l, In l [x; y; z; h] -> exists q, nth_error l i = Some (Some q)) ->
  compute_kinematic_features pi norm x y z h dt = Ok ft ->
  (forall i, true_at speed i -> (exists q, nth_error (linear_speed ft) i = Some (Some q)) /\
                                (exists q, nth_error (angular_speed ft) i = Some (Some q))) /\
  (forall i, true_at accel i -> (exists q, nth_error (linear_accel ft) i = Some (Some q)) /\
                                (exists q, nth_error (angular_accel ft) i = Some (Some q))).
Proof.
  intros Hv Hn Hok. destruct (validity_exact valid speed accel Hv) as (VS & VA).
  assert (forall j, true_at valid j -> true_at valid (S (S j)) ->
    (exists q, nth_error (linear_speed ft) (S j) = Some (Some q)) /\
    (exists q, nth_error (dh_list pi h) (S j) = Some (Some q))) as K.
  { intros j V0 V2.
    destruct (Hn _ V0 x) as (x0 & X0); [cbn; auto|]. destruct (Hn _ V2 x) as (x1 & X1); [cbn; auto|].
    destruct (Hn _ V0 y) as (y0 & Y0); [cbn; auto|]. destruct (Hn _ V2 y) as (y1 & Y1); [cbn; auto|].
    destruct (Hn _ V0 z) as (z0 & Z0); [cbn; auto|]. destruct (Hn _ V2 z) as (z1 & Z1); [cbn; auto|].
    destruct (Hn _ V0 h) as (h0 & H0); [cbn; auto|]. destruct (Hn _ V2 h) as (h1 & H1); [cbn; auto|].
    split; eexists; [eapply speed_value; eauto|apply (dh_value pi h j h0 h1 H0 H1)]. }
  pose proof (feature_fields _ _ _ _ _ _ _ _ Hok) as (_ & _ & F & _).
  split; intros i Hi.
  - apply VS in Hi. destruct Hi as (Hi & V0 & V2). destruct i as [|j]; [lia|].
    replace (S j - 1)%nat with j in V0 by lia. replace (S j + 1)%nat with (S (S j)) in V2 by lia.
    destruct (K j V0 V2) as (E & (d & D)). split; [exact E|].
    rewrite F, nth_error_map', D. cbn. eauto.
  - apply VA in Hi. destruct Hi as (Hi & V0 & V2 & V4). destruct i as [|[|j]]; [lia|lia|].
    replace (S (S j) - 2)%nat with j in V0 by lia.
    replace (S (S j) + 2)%nat with (S (S (S (S j)))) in V4 by lia.
    destruct (K _ V0 V2) as ((s0 & S0) & (d0 & D0)). destruct (K _ V2 V4) as ((s1 & S1) & (d1 & D1)).
    split; eexists; [eapply accel_value; eauto|eapply angular_accel_value; eauto].
Qed.

Theorem displacement_zero (norm : Q -> Q -> Q -> Q) : (forall a b c, norm a b c == 0 <-> a == 0 /\ b == 0 /\ c == 0) ->
  forall x y z rx ry rz, displacement_error norm x y z rx ry rz == 0 <-> x == rx /\ y == ry /\ z == rz.
Proof.
  intros N x y z rx ry rz. unfold displacement_error. rewrite N.
  assert (forall a b, a - b == 0 <-> a == b) as D by (intros a b; split; intros H; Lqa.lra). rewrite !D. reflexivity.
Qed.
Theorem displacement_translated (norm : Q -> Q -> Q -> Q) : (forall a b c a' b' c', a == a' -> b == b' -> c == c' -> norm a b c == norm a' b' c') ->
  forall x y z rx ry rz dx dy dz, displacement_error norm (x + dx) (y + dy) (z + dz) (rx + dx) (ry + dy) (rz + dz) == displacement_error norm x y z rx ry rz.
Proof. intros N x y z rx ry rz dx dy dz. unfold displacement_error. apply N; ring. Qed.
