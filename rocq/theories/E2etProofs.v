(** Proofs about the end-to-end driving tutorial. *)
From Coq Require Import Reals Lra Lia.
From Verif Require Import Base ResultLib MonadLib ListLib E2etModel E2etSpec.
Open Scope list_scope.

(** * Cameras *)
Lemma named_some {I} c (images : list (Z * I)) : forall k i a, first_named c k images = Some (i, a) <-> exists j, i = (k + j)%nat /\ first_image images c j a.
Proof.
  induction images as [|[n b] images IH]; intros k i a; cbn [first_named].
  - split; [discriminate|]. intros ([|j] & _ & H & _); discriminate.
  - destruct (Z.eqb_spec n c) as [E|E].
    + split.
      * intros H. injection H as <- <-. exists O. split; [lia|]. split; [cbn; now rewrite E|]. intros j n' b' Hj. lia.
      * intros (j & -> & H1 & H2). destruct j as [|j]; [cbn in H1; injection H1 as _ <-; f_equal; f_equal; lia|].
        exfalso. apply (H2 O n b); [lia|reflexivity|exact E].
    + rewrite IH. split.
      * intros (j & -> & H1 & H2). exists (S j). split; [lia|]. split; [exact H1|]. intros [|j'] n' b' Hj Hn; [cbn in Hn; congruence|].
        apply (H2 j' n' b'); [lia|exact Hn].
      * intros (j & -> & H1 & H2). destruct j as [|j]; [cbn in H1; congruence|]. exists j. split; [lia|]. split; [exact H1|].
        intros j' n' b' Hj Hn. apply (H2 (S j') n' b'); [lia|exact Hn].
Qed.
Lemma named_none {I} c (images : list (Z * I)) : forall k, first_named c k images = None <-> forall n a, In (n, a) images -> n <> c.
Proof.
  induction images as [|[n b] images IH]; intros k; cbn [first_named].
  - split; [intros _ n a []|reflexivity].
  - destruct (Z.eqb_spec n c) as [E|E].
    + split; [discriminate|]. intros H. exfalso. apply (H n b); [now left|exact E].
    + rewrite IH. split; [intros H n' a [H'|H']; [injection H' as <- <-; exact E|now apply (H n' a)]|]. intros H n' a H'. apply (H n' a). now right.
Qed.
Definition pick {I C} (images : list (Z * I)) (cals : list (Z * C)) (acc : list I * list (Z * C)) (camera : Z) : result (list I * list (Z * C)) :=
    match first_named camera 0 images with
    | None => Ok acc
    | Some (index, image) =>
        match nth_error cals index with
        | None => Err IndexError
        | Some calibration => Ok (fst acc ++ [image], snd acc ++ [calibration])
        end
    end.
Lemma pick_loop {I C} (images : list (Z * I)) (cals : list (Z * C)) l : forall a0 c0 is cs,
  foldM (pick images cals) l (a0, c0) = Ok (is, cs) <-> exists is' cs', is = a0 ++ is' /\ cs = c0 ++ cs' /\ picked images cals l is' cs'.
Proof.
  induction l as [|c l IH]; intros a0 c0 is cs; cbn [foldM].
  - split.
    + intros H. injection H as <- <-. exists [], []. rewrite !app_nil_r. split; [reflexivity|]. split; [reflexivity|constructor].
    + intros (is' & cs' & -> & -> & H). inversion H; subst. now rewrite !app_nil_r.
  - unfold pick at 1. destruct (first_named c 0 images) as [[i a]|] eqn:E.
    + pose proof (proj1 (named_some c images 0 i a) E) as (j & Ej & F). cbn [Nat.add] in Ej. subst j.
      destruct (nth_error cals i) as [k|] eqn:Ek; cbn [bind].
      * cbn [fst snd]. rewrite IH. split.
        -- intros (is' & cs' & -> & -> & H). exists (a :: is'), (k :: cs'). rewrite <- !app_assoc. split; [reflexivity|]. split; [reflexivity|].
           now apply (Picked_present images cals c l is' cs' i a k).
        -- intros (is' & cs' & -> & -> & H). inversion H as [|c' l' is1 cs1 N P|c' l' is1 cs1 i1 a1 k1 F1 K1 P]; subst.
           ++ exfalso. destruct F as [F _]. apply nth_error_In in F. now apply (N c a F).
           ++ assert (E1 : first_named c 0 images = Some (i1, a1)) by (apply named_some; exists i1; split; [reflexivity|exact F1]).
              rewrite E in E1. injection E1 as <- <-. rewrite Ek in K1. injection K1 as <-. exists is1, cs1. rewrite <- !app_assoc. auto.
      * split; [discriminate|]. intros (is' & cs' & -> & -> & H). inversion H as [|c' l' is1 cs1 N P|c' l' is1 cs1 i1 a1 k1 F1 K1 P]; subst.
        -- exfalso. destruct F as [F _]. apply nth_error_In in F. now apply (N c a F).
        -- assert (E1 : first_named c 0 images = Some (i1, a1)) by (apply named_some; exists i1; split; [reflexivity|exact F1]).
           rewrite E in E1. injection E1 as <- <-. congruence.
    + cbn [bind]. rewrite IH. pose proof (proj1 (named_none c images 0) E) as N. split.
      * intros (is' & cs' & -> & -> & H). exists is', cs'. split; [reflexivity|]. split; [reflexivity|]. now apply Picked_absent.
      * intros (is' & cs' & -> & -> & H). inversion H as [|c' l' is1 cs1 N1 P|c' l' is1 cs1 i1 a1 k1 F1 K1 P]; subst; [exists is', cs'; auto|].
        exfalso. destruct F1 as [F1 _]. apply nth_error_In in F1. now apply (N c a1 F1).
Qed.
Lemma front_exact {I C} (images : list (Z * I)) (calibrations : list (Z * C)) is cs :
  return_front3_cameras images calibrations = Ok (is, cs) <-> picked images calibrations front_cameras is cs.
Proof.
  change (return_front3_cameras images calibrations) with (foldM (pick images calibrations) [2; 1; 3]%Z ([], [])). rewrite pick_loop. split.
  - intros (is' & cs' & -> & -> & H). exact H.
  - intros H. exists is, cs. auto.
Qed.
Lemma pick_error {I C} (images : list (Z * I)) (cals : list (Z * C)) l : forall acc e,
  foldM (pick images cals) l acc = Err e -> e = IndexError /\ exists c i a, In c l /\ first_image images c i a /\ nth_error cals i = None.
Proof.
  induction l as [|c l IH]; intros acc e; cbn [foldM]; [discriminate|]. unfold pick at 1. destruct (first_named c 0 images) as [[i a]|] eqn:E.
  - pose proof (proj1 (named_some c images 0 i a) E) as (j & Ej & F). cbn [Nat.add] in Ej. subst j.
    destruct (nth_error cals i) as [k|] eqn:Ek; cbn [bind].
    + intros H. apply IH in H as (-> & c' & i' & a' & H1 & H2). split; [reflexivity|]. exists c', i', a'. split; [now right|exact H2].
    + intros H. injection H as <-. split; [reflexivity|]. exists c, i, a. split; [now left|]. split; [exact F|exact Ek].
  - cbn [bind]. intros H. apply IH in H as (-> & c' & i' & a' & H1 & H2). split; [reflexivity|]. exists c', i', a'. split; [now right|exact H2].
Qed.
Lemma picked_found {I C} (images : list (Z * I)) (cals : list (Z * C)) l is cs c i a : picked images cals l is cs -> In c l -> first_image images c i a -> nth_error cals i <> None.
Proof.
  induction 1 as [|c' l is cs N P IH|c' l is cs i' a' k F K P IH]; intros H F'; [destruct H| |].
  - destruct H as [->|H]; [|now apply IH]. destruct F' as [F' _]. apply nth_error_In in F'. now destruct (N c a F').
  - destruct H as [->|H]; [|now apply IH].
    assert (E1 : first_named c 0 images = Some (i, a)) by (apply named_some; exists i; auto).
    assert (E2 : first_named c 0 images = Some (i', a')) by (apply named_some; exists i'; auto). rewrite E1 in E2. injection E2 as -> ->. congruence.
Qed.
Lemma front_error {I C} (images : list (Z * I)) (calibrations : list (Z * C)) :
  (forall e, return_front3_cameras images calibrations = Err e -> e = IndexError) /\
  (return_front3_cameras images calibrations = Err IndexError <->
   exists c i a, In c front_cameras /\ first_image images c i a /\ nth_error calibrations i = None).
Proof.
  change (return_front3_cameras images calibrations) with (foldM (pick images calibrations) front_cameras ([], [])). split.
  - intros e H. now apply pick_error in H as [H _].
  - split; [intros H; now apply pick_error in H as [_ H]|]. intros (c & i & a & H1 & H2 & H3).
    destruct (foldM (pick images calibrations) front_cameras ([], [])) as [[is cs]|e] eqn:E.
    + apply pick_loop in E as (is' & cs' & -> & -> & P). now destruct (picked_found images calibrations _ _ _ c i a P H1 H2).
    + apply pick_error in E as [-> _]. reflexivity.
Qed.
Definition shown {I} (images : list (Z * I)) (c : Z) : bool := existsb (fun p => (fst p =? c)%Z) images.
Lemma picked_names {I C} (images : list (Z * I)) (cals : list (Z * C)) l is cs : same_order images cals -> picked images cals l is cs ->
  map fst cs = filter (shown images) l.
Proof.
  intros S. induction 1 as [|c l is cs N P IH|c l is cs i a k F K P IH]; [reflexivity| |]; cbn [filter].
  - replace (shown images c) with false; [exact IH|]. symmetry. apply not_true_is_false. intros H. apply existsb_exists in H as ([n a] & H1 & H2).
    cbn in H2. apply Z.eqb_eq in H2. exact (N n a H1 H2).
  - replace (shown images c) with true.
    + cbn [map]. f_equal; [|exact IH]. destruct F as [F _]. destruct (S i c a F) as (k' & E). rewrite E in K. now injection K as <-.
    + symmetry. apply existsb_exists. exists (c, a). split; [destruct F as [F _]; now apply nth_error_In in F|]. apply Z.eqb_refl.
Qed.
Lemma front_paired {I C} (images : list (Z * I)) (calibrations : list (Z * C)) : same_order images calibrations ->
  exists is cs, return_front3_cameras images calibrations = Ok (is, cs) /\ length is = length cs /\
    map fst cs = filter (fun c => existsb (fun p => (fst p =? c)%Z) images) front_cameras.
Proof.
  intros S. destruct (return_front3_cameras images calibrations) as [[is cs]|e] eqn:E.
  - apply front_exact in E. exists is, cs. split; [reflexivity|]. split; [|exact (picked_names images calibrations _ is cs S E)].
    clear S. induction E; cbn [length]; congruence.
  - pose proof (proj1 (front_error images calibrations) e E) as ->. apply front_error in E as (c & i & a & _ & [F _] & N).
    destruct (S i c a F) as (k & K). congruence.
Qed.
Lemma front_paired_refuted : exists (images calibrations : list (Z * Z)) is cs,
  (forall c, In c (map fst images) <-> In c (map fst calibrations)) /\ NoDup (map fst images) /\ NoDup (map fst calibrations) /\
  return_front3_cameras images calibrations = Ok (is, cs) /\ is = [20; 10; 30]%Z /\ images = [(1, 10); (2, 20); (3, 30)]%Z /\ map fst cs = [1; 2; 3]%Z.
Proof.
  exists [(1, 10); (2, 20); (3, 30)]%Z, [(2, 0); (1, 0); (3, 0)]%Z. eexists. eexists. split; [intros c; cbn; tauto|].
  split; [repeat constructor; cbn; intuition discriminate|]. split; [repeat constructor; cbn; intuition discriminate|].
  split; [reflexivity|]. split; [reflexivity|]. split; reflexivity.
Qed.

(** * Files *)
Lemma ceil_bounds a b : (0 < b)%nat -> exists c, ceil_div a b = Ok c /\ (a <= c * b)%nat /\ forall d, (a <= d * b)%nat -> (c <= d)%nat.
Proof.
  intros H. unfold ceil_div. destruct (Nat.eqb_spec b 0); [lia|]. eexists. split; [reflexivity|].
  pose proof (Nat.div_mod (a + b - 1) b ltac:(lia)) as D. pose proof (Nat.mod_upper_bound (a + b - 1) b ltac:(lia)) as M. split; [nia|].
  intros d Hd. assert ((a + b - 1) / b < S d)%nat; [|lia]. apply Nat.div_lt_upper_bound; nia.
Qed.
Lemma slice_cover {A} (l : list A) per n : concat (map (fun i => slice l (i * per) ((i + 1) * per)) (seq 0 n)) = firstn (n * per) l.
Proof.
  induction n as [|n IH]; [reflexivity|]. rewrite seq_S, map_app, concat_app, IH. cbn [map concat]. rewrite app_nil_r. unfold slice. cbn [Nat.add].
  replace ((n + 1) * per - n * per)%nat with per by nia. replace (S n * per)%nat with (n * per + per)%nat by lia.
  generalize (n * per)%nat as k. intros k. clear IH n. revert l. induction k as [|k IH]; intros l; [reflexivity|]. destruct l as [|a l]; [now rewrite skipn_nil, !firstn_nil|].
  cbn [firstn skipn app Nat.add]. now rewrite IH.
Qed.
Lemma shards_exact {A} (predictions : list A) n : (0 < n)%nat -> exists per ss, shards predictions n = Ok ss /\ length ss = n /\ concat ss = predictions /\
  (length predictions <= per * n)%nat /\ (forall d, (length predictions <= d * n)%nat -> (per <= d)%nat) /\
  forall i s, nth_error ss i = Some s -> length s = Nat.min per (length predictions - i * per).
Proof.
  intros H. destruct (ceil_bounds (length predictions) n H) as (per & E & B1 & B2). exists per. unfold shards. rewrite E. cbn [bind]. eexists. split; [reflexivity|].
  rewrite map_length, seq_length. split; [reflexivity|]. rewrite slice_cover. split; [apply firstn_all2; lia|]. split; [exact B1|]. split; [exact B2|].
  intros i s Hs. rewrite nth_error_map' in Hs. destruct (nth_error (seq 0 n) i) as [j|] eqn:Ej; [|discriminate]. cbn in Hs. injection Hs as <-.
  assert (j = i).
  { assert (Hi : (i < n)%nat) by (rewrite <- (seq_length n 0); apply nth_error_Some; congruence). apply (nth_error_nth _ _ O) in Ej. rewrite seq_nth in Ej by exact Hi. lia. }
  subst j. unfold slice. rewrite firstn_length, skipn_length. f_equal. nia.
Qed.
Lemma shards_zero {A} (predictions : list A) : shards predictions 0 = Err RuntimeError.
Proof. reflexivity. Qed.
Lemma shards_empty_refuted : exists (predictions : list nat) n ss, (n < length predictions)%nat /\ shards predictions n = Ok ss /\ In [] ss.
Proof. exists [0; 1; 2; 3; 4]%nat, 4%nat. eexists. split; [cbn; lia|]. split; [reflexivity|]. cbn. auto. Qed.

(** * ADE *)
Open Scope R_scope.
Lemma distance_pos p q : 0 <= distance p q.
Proof. apply sqrt_pos. Qed.
Lemma distance_sq p q : distance p q * distance p q = (fst p - fst q) * (fst p - fst q) + (snd p - snd q) * (snd p - snd q).
Proof. apply sqrt_sqrt. apply Rplus_le_le_0_compat; apply Rle_0_sqr. Qed.
Lemma sum_numbers m : sum (map number m) = INR (length (filter (fun b : bool => b) m)).
Proof. induction m as [|[|] m IH]; cbn [map sum fold_right filter number]; [reflexivity| |]; fold (sum (map number m)); rewrite IH; [|lra]. cbn [length]. rewrite S_INR. lra. Qed.
Lemma distances_total ps qs m ds : distances ps qs m ds ->
  sum (map (fun p => fst p * number (snd p)) (combine (map (fun p => distance (fst p) (snd p)) (combine ps qs)) m)) = sum ds /\
  length ps = length qs /\ length qs = length m /\ length ds = length (filter (fun b : bool => b) m).
Proof.
  induction 1 as [|p q ps qs m ds d D0 D1 H IH|p q ps qs m ds H IH]; [repeat split| |]; destruct IH as (I1 & I2 & I3 & I4); cbn [combine map length filter fst snd number].
  - assert (E : distance p q = d).
    { assert (S : distance p q * distance p q = d * d) by (rewrite distance_sq; now rewrite D1). pose proof (distance_pos p q). nra. }
    unfold sum in *. cbn [fold_right fst snd number]. rewrite I1, E. rewrite I2, I3, I4. split; [lra|]. auto.
  - unfold sum in *. cbn [fold_right fst snd number]. rewrite I1. rewrite I2, I3, I4. split; [lra|]. auto.
Qed.
Lemma distances_exist ps : forall qs m, length ps = length qs -> length qs = length m -> exists ds, distances ps qs m ds.
Proof.
  induction ps as [|p ps IH]; intros [|q qs] [|b m] L1 L2; try discriminate; [exists []; constructor|]. cbn in L1, L2. injection L1 as L1. injection L2 as L2.
  destruct (IH qs m L1 L2) as (ds & H). destruct b; [|exists ds; now constructor]. exists (distance p q :: ds). constructor; [apply distance_pos|apply distance_sq|exact H].
Qed.
Lemma average_exact prediction observed mask : length prediction = length observed -> length observed = length mask ->
  exists ds x, distances prediction observed mask ds /\ average_distance prediction observed mask = Ok x /\ mean_of ds x.
Proof.
  intros L1 L2. destruct (distances_exist prediction observed mask L1 L2) as (ds & H). destruct (distances_total _ _ _ _ H) as (T & _ & _ & T4).
  exists ds. unfold average_distance, broadcast at 1. rewrite (proj2 (Nat.eqb_eq _ _) L1). cbn [bind].
  unfold broadcast. rewrite map_length, combine_length, L1, Nat.min_id, (proj2 (Nat.eqb_eq _ _) L2). cbn [bind]. eexists. split; [exact H|]. split; [reflexivity|].
  rewrite T. rewrite sum_numbers. rewrite <- T4. destruct ds as [|d ds].
  - left. split; [reflexivity|]. cbn. unfold Rdiv. ring.
  - right. split; [discriminate|]. assert (1 <= INR (length (d :: ds))) by (apply (le_INR 1); cbn [length]; lia).
    rewrite Rmax_left by lra. unfold sum. field. lra.
Qed.
Lemma lengths_exact prediction observed : average_distance prediction observed (repeat true (length observed)) = Err ValueError <->
  length prediction <> length observed /\ length prediction <> 1%nat /\ length observed <> 1%nat.
Proof.
  unfold average_distance. split.
  - intros H. unfold broadcast at 1 in H. destruct (Nat.eqb_spec (length prediction) (length observed)) as [E|E].
    + cbn [bind] in H. unfold broadcast in H. rewrite map_length, combine_length, repeat_length, E, Nat.min_id, Nat.eqb_refl in H. discriminate.
    + destruct prediction as [|p [|p' ps]].
      * destruct observed as [|q [|q' qs]]; [now destruct E|discriminate H|]. cbn. split; [exact E|]. split; discriminate.
      * cbn [bind] in H. unfold broadcast in H. rewrite map_length, repeat_length, Nat.eqb_refl in H. discriminate.
      * destruct observed as [|q [|q' qs]]; [cbn; split; [exact E|]; split; discriminate|discriminate H|]. split; [exact E|]. split; discriminate.
  - intros (N1 & N2 & N3). unfold broadcast at 1. rewrite (proj2 (Nat.eqb_neq _ _) N1).
    destruct prediction as [|p [|p' ps]]; [|now destruct N2|]; destruct observed as [|q [|q' qs]]; try reflexivity; try (now destruct N3); now destruct N1.
Qed.
Lemma repeat_map p (l : list waypoint) : map (distance p) l = map (fun r => distance (fst r) (snd r)) (combine (repeat p (length l)) l).
Proof. induction l as [|a l IH]; [reflexivity|]. cbn [length repeat combine map fst snd]. now rewrite IH. Qed.
Lemma single_waypoint p observed : observed <> [] ->
  average_distance [p] observed (repeat true (length observed)) = average_distance (repeat p (length observed)) observed (repeat true (length observed)).
Proof.
  intros N. unfold average_distance. assert (E : broadcast distance [p] observed = broadcast distance (repeat p (length observed)) observed).
  { unfold broadcast. rewrite repeat_length, Nat.eqb_refl. destruct observed as [|q [|q' qs]]; [now destruct N|reflexivity|]. cbn [length Nat.eqb].
    f_equal. exact (repeat_map p (q :: q' :: qs)). }
  now rewrite E.
Qed.
Lemma single_observed_refuted : exists prediction observed, average_distance prediction observed (repeat true (length observed)) = Ok 2 /\
  forall p, In p prediction -> distance p (0, 0) = 1 /\ observed = [(0, 0)].
Proof.
  assert (D : distance (1, 0) (0, 0) = 1) by (unfold distance; cbn [fst snd]; replace ((1 - 0) * (1 - 0) + (0 - 0) * (0 - 0)) with 1 by ring; apply sqrt_1).
  exists [(1, 0); (1, 0)], [(0, 0)]. split.
  - unfold average_distance, broadcast. cbn [length Nat.eqb map bind repeat number]. rewrite D. f_equal. unfold sum. cbn [fold_right]. rewrite Rplus_0_r, Rmax_left by lra. field.
  - intros p [<-|[<-|[]]]; auto.
Qed.

Lemma dict_rev l : forall d, fold_left (fun d p => set_entry d (fst p) (snd p)) l d = rev l ++ d :> list (Z * list waypoint).
Proof. induction l as [|[n a] l IH]; intros d; [reflexivity|]. cbn [fold_left rev fst snd]. rewrite IH. unfold set_entry. now rewrite <- app_assoc. Qed.
Lemma dict_loop ss : forall d, fold_left (fun d submission => fold_left (fun d p => set_entry d (fst p) (snd p)) submission d) ss d = rev (concat ss) ++ d :> list (Z * list waypoint).
Proof. induction ss as [|s ss IH]; intros d; [reflexivity|]. cbn [fold_left concat]. rewrite dict_rev, IH, rev_app_distr. now rewrite app_assoc. Qed.
Lemma dict_value ss : prediction_dict ss = rev (concat ss).
Proof. unfold prediction_dict. rewrite dict_loop. apply app_nil_r. Qed.
Lemma entry_last {A} (l : list (Z * A)) n a : entry (rev l) n = Some a <-> last_for n l a.
Proof.
  unfold entry. induction l as [|[m b] l IH] using rev_ind.
  - split; [discriminate|]. intros ([|i] & H & _); discriminate.
  - rewrite rev_app_distr. cbn [rev app find fst snd]. destruct (Z.eqb_spec m n) as [E|E].
    + subst m. split.
      * intros H. injection H as <-. exists (length l). rewrite nth_error_app2, Nat.sub_diag by lia. split; [reflexivity|]. intros j n' b' Hj Hn.
        assert (j < length (l ++ [(n, b)]))%nat by (apply nth_error_Some; congruence). rewrite app_length in H. cbn in H. lia.
      * intros (i & H1 & H2). destruct (Nat.lt_trichotomy i (length l)) as [L|[L|L]].
        -- exfalso. apply (H2 (length l) n b L); [|reflexivity]. now rewrite nth_error_app2, Nat.sub_diag by lia.
        -- subst i. rewrite nth_error_app2, Nat.sub_diag in H1 by lia. cbn in H1. now injection H1 as <-.
        -- assert (i < length (l ++ [(n, b)]))%nat by (apply nth_error_Some; congruence). rewrite app_length in H. cbn in H. lia.
    + rewrite IH. split.
      * intros (i & H1 & H2). assert (Li : (i < length l)%nat) by (apply nth_error_Some; congruence). exists i. rewrite nth_error_app1 by exact Li. split; [exact H1|].
        intros j n' b' Hj Hn. destruct (Nat.lt_ge_cases j (length l)) as [L|L]; [rewrite nth_error_app1 in Hn by exact L; now apply (H2 j n' b')|].
        rewrite nth_error_app2 in Hn by exact L. destruct (j - length l)%nat as [|k]; [cbn in Hn; congruence|destruct k; discriminate].
      * intros (i & H1 & H2). destruct (Nat.lt_ge_cases i (length l)) as [L|L].
        -- rewrite nth_error_app1 in H1 by exact L. exists i. split; [exact H1|]. intros j n' b' Hj Hn. apply (H2 j n' b' Hj).
           rewrite nth_error_app1; [exact Hn|]. apply nth_error_Some. congruence.
        -- rewrite nth_error_app2 in H1 by exact L. destruct (i - length l)%nat as [|k]; [cbn in H1; congruence|destruct k; discriminate].
Qed.
Lemma ade_exact gt submissions l : ade_list gt submissions = Ok l <->
  Forall2 (fun g x => exists p, last_for (fst g) (concat submissions) p /\ average_distance p (snd g) (repeat true (length (snd g))) = Ok x) gt l.
Proof.
  unfold ade_list. rewrite dict_value.
  assert (E : forall g x, match entry (rev (concat submissions)) (fst g) with None => Err ValueError | Some p => average_distance p (snd g) (repeat true (length (snd g))) end = Ok x <->
            exists p, last_for (fst g) (concat submissions) p /\ average_distance p (snd g) (repeat true (length (snd g))) = Ok x).
  { intros g x. split.
    - destruct (entry (rev (concat submissions)) (fst g)) as [p|] eqn:E; [|discriminate]. intros H. exists p. split; [now apply entry_last|exact H].
    - intros (p & H1 & H2). apply entry_last in H1. now rewrite H1. }
  revert l. induction gt as [|g gt IH]; intros l; cbn [mapM].
  - split; [intros H; injection H as <-; constructor|intros H; now inversion H].
  - split.
    + intros H. apply bind_inv in H as (x & Hx & H). apply bind_inv in H as (l' & Hl & H). injection H as <-. constructor; [now apply E|now apply IH].
    + intros H. inversion H as [|g' x gt' l' Hx Hl]; subst. apply E in Hx. rewrite Hx. cbn [bind]. apply IH in Hl. rewrite Hl. reflexivity.
Qed.
Lemma ade_shards gt predictions n ss : shards predictions n = Ok ss -> ade_list gt ss = ade_list gt [predictions].
Proof.
  intros H. unfold ade_list. rewrite !dict_value. destruct n as [|n]; [discriminate|].
  destruct (shards_exact predictions (S n) ltac:(lia)) as (per & ss' & E & _ & C & _). rewrite H in E. injection E as <-. rewrite C. cbn [concat]. now rewrite app_nil_r.
Qed.
Lemma mean_ade_value l : (mean_ade l = None <-> l = []) /\ forall x, mean_ade l = Some x -> mean_of l x.
Proof.
  destruct l as [|a l]; cbn [mean_ade]; (split; [split; congruence|]); [discriminate|]. intros x H. injection H as <-. right. split; [discriminate|].
  assert (1 <= INR (length (a :: l))) by (apply (le_INR 1); cbn [length]; lia). fold (sum (a :: l)). unfold Rdiv. rewrite Rmult_assoc, Rinv_l by lra. apply Rmult_1_r.
Qed.

(** * Ratings *)
Lemma rated_iff f : rated f = true <-> has_ratings f.
Proof.
  unfold rated, has_ratings. destruct (preference_scores f) as [|s l]; [split; [discriminate|intros (s & l & H & _); discriminate]|].
  destruct (Req_EM_T s (-1)) as [E|E]; cbn [negb]; (split; [intros H|intros (s' & l' & H & N)]).
  - discriminate. - injection H as <- <-. contradiction. - exists s, l. auto. - reflexivity.
Qed.
Lemma label_exact frames : forall data f d, find_label data frames = (d, Some f) <->
  d = f /\ exists i, nth_error frames i = Some f /\ has_ratings f /\ forall j g, (j < i)%nat -> nth_error frames j = Some g -> ~ has_ratings g.
Proof.
  induction frames as [|g frames IH]; intros data f d; cbn [find_label].
  - split; [discriminate|]. intros (_ & [|i] & H & _); discriminate.
  - destruct (rated g) eqn:E.
    + apply rated_iff in E. split.
      * intros H. injection H as <- <-. split; [reflexivity|]. exists O. split; [reflexivity|]. split; [exact E|]. intros j g' Hj. lia.
      * intros (-> & i & H1 & H2 & H3). destruct i as [|i]; [cbn in H1; now injection H1 as <-|]. exfalso. apply (H3 O g); [lia|reflexivity|exact E].
    + assert (N : ~ has_ratings g) by (intros C; apply rated_iff in C; congruence). rewrite IH. split; intros (Hd & i & H1 & H2 & H3); (split; [exact Hd|]).
      * exists (S i). split; [exact H1|]. split; [exact H2|]. intros [|j] g' Hj Hg; [cbn in Hg; congruence|]. apply (H3 j g'); [lia|exact Hg].
      * destruct i as [|i]; [cbn in H1; congruence|]. exists i. split; [exact H1|]. split; [exact H2|]. intros j g' Hj Hg. apply (H3 (S j) g'); [lia|exact Hg].
Qed.
Lemma label_none frames : forall data d, find_label data frames = (d, None) -> forall g, In g frames -> ~ has_ratings g.
Proof.
  induction frames as [|g frames IH]; intros data d; cbn [find_label]; [intros _ g []|]. destruct (rated g) eqn:E; [discriminate|].
  intros H g' [<-|Hg]; [intros C; apply rated_iff in C; congruence|]. exact (IH g d H g' Hg).
Qed.
Lemma speed_exact f v : last_speed f = Ok v <-> speed f v.
Proof.
  unfold last_speed, speed. split.
  - destruct (rev (past_velocity f)) as [|w l] eqn:E; [discriminate|]. intros H. injection H as <-. exists (rev l), w.
    split; [rewrite <- (rev_involutive (past_velocity f)), E; reflexivity|]. split; [apply sqrt_pos|]. apply sqrt_sqrt. apply Rplus_le_le_0_compat; apply Rle_0_sqr.
  - intros (l & w & E & H1 & H2). rewrite E, rev_app_distr. cbn [rev app]. f_equal. rewrite <- H2. now apply sqrt_square.
Qed.
Lemma label_speed data frames d f v : find_label data frames = (d, Some f) -> speed f v -> initial_speeds d [f] = Ok [v].
Proof.
  intros H S. apply label_exact in H as [-> _]. apply speed_exact in S. unfold initial_speeds. cbn [mapM]. rewrite S. reflexivity.
Qed.
Lemma speed_refuted : exists data a b va vb, a <> b /\ has_ratings a /\ has_ratings b /\ speed a va /\ speed b vb /\ va <> vb /\
  In data [a; b] /\ exists l, initial_speeds data [a; b] = Ok l /\ l <> [va; vb].
Proof.
  exists (Frame [1] [(2, 0)]), (Frame [1] [(1, 0)]), (Frame [1] [(2, 0)]), 1, 2.
  split; [intros H; injection H; lra|]. split; [exists 1, []; split; [reflexivity|lra]|]. split; [exists 1, []; split; [reflexivity|lra]|].
  split; [exists [], (1, 0); split; [reflexivity|]; cbn; split; lra|]. split; [exists [], (2, 0); split; [reflexivity|]; cbn; split; lra|].
  split; [lra|]. split; [right; now left|]. exists [2; 2]. split; [|intros H; injection H; lra].
  assert (E : last_speed (Frame [1] [(2, 0)]) = Ok 2) by (apply speed_exact; exists [], (2, 0); split; [reflexivity|]; cbn; split; lra).
  unfold initial_speeds. cbn [mapM]. rewrite E. reflexivity.
Qed.
