From Coq Require Import Permutation Sorted.
From Verif Require Import Base ResultLib ListLib HungarianModel HungarianSpec HungarianProofs MatcherModel MatcherSpec.
Open Scope Z_scope.

(** ** Extending a partial injection to a permutation *)

Definition somes (mu : list (option nat)) : list nat :=
  flat_map (fun o => match o with Some j => [j] | None => [] end) mu.
Fixpoint fill (mu : list (option nat)) (free : list nat) : list nat :=
  match mu with
  | [] => []
  | Some j :: mu' => j :: fill mu' free
  | None :: mu' => match free with f :: free' => f :: fill mu' free' | [] => [] end
  end.

Lemma somes_length mu : (length (somes mu) + count_none mu = length mu)%nat.
Proof.
  unfold count_none. induction mu as [|[j|] mu IH]; simpl; [reflexivity| |]; unfold somes in *; lia.
Qed.

Lemma fill_perm mu : forall free, length free = count_none mu ->
  Permutation (fill mu free) (somes mu ++ free).
Proof.
  unfold count_none. induction mu as [|[j|] mu IH]; intros free Hf; simpl in *.
  - destruct free; [constructor|simpl in Hf; lia].
  - constructor. now apply IH.
  - destruct free as [|f free]; simpl in Hf; [lia|].
    apply Permutation_cons_app. apply IH. lia.
Qed.

Lemma fill_nth mu : forall free i j, length free = count_none mu ->
  nth i mu None = Some j -> nth i (fill mu free) 0%nat = j.
Proof.
  unfold count_none. induction mu as [|[a|] mu IH]; intros free i j Hf E; simpl in *.
  - destruct i; discriminate.
  - destruct i as [|i]; simpl in *; [congruence|now apply IH].
  - destruct free as [|f free]; simpl in Hf; [lia|].
    destruct i as [|i]; simpl in *; [discriminate|]. apply IH; [lia|exact E].
Qed.

Lemma in_somes mu j : In j (somes mu) <-> exists i, nth i mu None = Some j.
Proof.
  unfold somes. rewrite in_flat_map. split.
  - intros ([a|] & Ho & Hj); [|destruct Hj]. destruct Hj as [<-|[]].
    apply (In_nth _ _ None) in Ho as (i & _ & E). eauto.
  - intros (i & E). exists (Some j). split; [|now left].
    destruct (Nat.lt_ge_cases i (length mu)) as [Hl|Hl].
    + rewrite <- E. now apply nth_In.
    + rewrite nth_overflow in E by exact Hl. discriminate.
Qed.

Lemma somes_nodup mu :
  (forall i i' j, nth i mu None = Some j -> nth i' mu None = Some j -> i = i') -> NoDup (somes mu).
Proof.
  induction mu as [|[a|] mu IH]; intros H; simpl.
  - constructor.
  - constructor.
    + intros Hin. apply in_somes in Hin as (i & E).
      specialize (H 0%nat (S i) a eq_refl E). lia.
    + apply IH. intros i i' j E E'. specialize (H (S i) (S i') j E E'). lia.
  - apply IH. intros i i' j E E'. specialize (H (S i) (S i') j E E'). lia.
Qed.

Lemma perm_extension n mu :
  length mu = n ->
  (forall i j, nth i mu None = Some j -> (j < n)%nat) ->
  (forall i i' j, nth i mu None = Some j -> nth i' mu None = Some j -> i = i') ->
  exists sigma, assignment n sigma /\ forall i j, nth i mu None = Some j -> nth i sigma 0%nat = j.
Proof.
  intros Hl Hb Hinj.
  set (free := filter (fun j => negb (mem j (somes mu))) (seq 0 n)).
  pose proof (somes_nodup mu Hinj) as Hnd.
  assert (HP : Permutation (somes mu ++ free) (seq 0 n)).
  { apply NoDup_Permutation.
    - apply nodup_app.
      + exact Hnd.
      + apply NoDup_filter, seq_NoDup.
      + intros x Hx Hf. apply filter_In in Hf as [_ Hf].
        apply mem_In in Hx. rewrite Hx in Hf. discriminate.
    - apply seq_NoDup.
    - intros x. rewrite in_app_iff. unfold free. rewrite filter_In. split.
      + intros [Hx|[Hx _]]; [|exact Hx]. apply in_somes in Hx as (i & E). apply in_seq.
        specialize (Hb i x E). lia.
      + intros Hx. destruct (mem x (somes mu)) eqn:E; [left; now apply mem_In|right; auto]. }
  assert (Hfl : length free = count_none mu).
  { pose proof (Permutation_length HP) as HL. rewrite app_length, seq_length in HL.
    pose proof (somes_length mu). lia. }
  exists (fill mu free). split.
  - unfold assignment. rewrite (fill_perm mu free Hfl). exact HP.
  - intros i j E. now apply fill_nth.
Qed.

(** ** Pure core of HungarianMatcher::Match *)
Section Pure.
Variables np ng : nat.
Variable canb : nat -> nat -> bool.
Variable wt : nat -> nat -> Z.
Hypothesis Hwt : forall i j, (i < np)%nat -> (j < ng)%nat -> 0 <= wt i j <= kMaxIoU.

Definition okp (i j : nat) : Prop := canb i j = true.
Definition pw (i j : nat) : Z :=
  if (Nat.ltb i np && Nat.ltb j ng && canb i j)%bool then wt i j else 0.

Lemma pw_bounds i j : 0 <= pw i j <= kMaxIoU.
Proof.
  unfold pw. destruct (Nat.ltb_spec i np); destruct (Nat.ltb_spec j ng); cbn [andb];
    try (unfold kMaxIoU; lia).
  destruct (canb i j); [|unfold kMaxIoU; lia]. now apply Hwt.
Qed.

(** The pairs that are reported for a permutation. *)
Definition expected (sigma : list nat) (i : nat) : option nat :=
  let j := nth i sigma 0%nat in
  if (Nat.ltb j ng && canb i j)%bool then Some j else None.

Definition pstep (sigma : list nat) (pg : list (option nat) * list (option nat)) (i : nat) :=
  let j := nth i sigma 0%nat in
  if Nat.ltb j ng then
    (upd (fst pg) i (if canb i j then Some j else None),
     upd (snd pg) j (if canb i j then Some i else None))
  else (upd (fst pg) i None, snd pg).

Lemma report_pure sigma n : assignment n sigma -> (np <= n)%nat ->
  let r := fold_left (pstep sigma) (seq 0 np) (repeat None np, repeat None ng) in
  length (fst r) = np /\ length (snd r) = ng /\
  (forall i, nth i (fst r) None = if Nat.ltb i np then expected sigma i else None) /\
  (forall i j, nth j (snd r) None = Some i <-> (i < np)%nat /\ expected sigma i = Some j).
Proof.
  intros HA Hn.
  assert (Hls : length sigma = n) by (rewrite (Permutation_length HA); apply seq_length).
  assert (Hnd : NoDup sigma) by (apply (Permutation_NoDup (Permutation_sym HA)), seq_NoDup).
  assert (Hgen : forall k, (k <= np)%nat ->
    let r := fold_left (pstep sigma) (seq 0 k) (repeat None np, repeat None ng) in
    length (fst r) = np /\ length (snd r) = ng /\
    (forall i, nth i (fst r) None = if Nat.ltb i k then expected sigma i else None) /\
    (forall i j, nth j (snd r) None = Some i <-> (i < k)%nat /\ expected sigma i = Some j)).
  { induction k as [|k IH]; intros Hk.
    - cbn. rewrite !repeat_length. repeat split.
      + intros i. apply nth_repeat_none.
      + rewrite nth_repeat_none in H. discriminate.
      + rewrite nth_repeat_none in H. discriminate.
      + intros [H _]. lia.
    - rewrite seq_S, fold_left_app. cbn [fold_left Nat.add].
      destruct (IH ltac:(lia)) as (L1 & L2 & H1 & H2).
      set (r := fold_left (pstep sigma) (seq 0 k) _) in *. clearbody r.
      unfold pstep. set (j := nth k sigma 0%nat).
      assert (HE : expected sigma k = if Nat.ltb j ng then (if canb k j then Some j else None) else None).
      { unfold expected. fold j. destruct (Nat.ltb j ng); reflexivity. }
      assert (HF : forall o, o = expected sigma k ->
        forall i, nth i (upd (fst r) k o) None = if Nat.ltb i (S k) then expected sigma i else None).
      { intros o -> i. destruct (Nat.eq_dec i k) as [->|Hne].
        - rewrite nth_upd_eq by lia. replace (Nat.ltb k (S k)) with true by (symmetry; apply Nat.ltb_lt; lia).
          reflexivity.
        - rewrite nth_upd_neq by congruence. rewrite H1.
          destruct (Nat.ltb_spec i k); destruct (Nat.ltb_spec i (S k)); try lia; reflexivity. }
      destruct (Nat.ltb_spec j ng) as [Hj|Hj]; cbn [fst snd]; rewrite !upd_length.
      + split; [exact L1|]. split; [exact L2|]. split; [apply HF; now rewrite HE|].
        intros i j'. destruct (Nat.eq_dec j' j) as [->|Hne].
        * rewrite nth_upd_eq by lia. split.
          -- destruct (canb k j) eqn:Ec; [|discriminate]. intros [= <-]. split; [lia|exact HE].
          -- intros [Hi Ei]. assert (Eij : nth i sigma 0%nat = j).
             { unfold expected in Ei. destruct (Nat.ltb (nth i sigma 0%nat) ng && canb i (nth i sigma 0%nat))%bool;
               congruence. }
             assert (i = k).
             { apply (proj1 (NoDup_nth sigma 0%nat) Hnd); try lia. }
             subst i. rewrite HE in Ei. now destruct (canb k j).
        * rewrite nth_upd_neq by congruence. rewrite H2. split.
          -- intros [Hi Ei]. split; [lia|exact Ei].
          -- intros [Hi Ei]. split; [|exact Ei].
             destruct (Nat.eq_dec i k) as [->|Hik]; [|lia].
             exfalso. rewrite HE in Ei. destruct (canb k j); congruence.
      + split; [exact L1|]. split; [exact L2|]. split; [apply HF; now rewrite HE|].
        intros i j'. rewrite H2. split.
        * intros [Hi Ei]. split; [lia|exact Ei].
        * intros [Hi Ei]. split; [|exact Ei].
          destruct (Nat.eq_dec i k) as [->|Hik]; [|lia]. congruence. }
  exact (Hgen np (le_n np)).
Qed.

Lemma Zsum_app l l' : Zsum (l ++ l') = Zsum l + Zsum l'.
Proof. unfold Zsum. induction l as [|a l IH]; simpl; lia. Qed.

Lemma Zsum_zero {A} (f : A -> Z) l : (forall x, In x l -> f x = 0) -> Zsum (map f l) = 0.
Proof.
  unfold Zsum. induction l as [|a l IH]; intros H; simpl; [reflexivity|].
  rewrite (H a (or_introl eq_refl)), IH; [reflexivity|]. intros x Hx. apply H. now right.
Qed.

Lemma total_of_perm n e sigma :
  (np <= n)%nat -> (ng <= n)%nat ->
  (forall i j, (i < n)%nat -> (j < n)%nat -> nth (i * n + j)%nat e 0 = pw i j) ->
  assignment n sigma ->
  total_weight n e sigma =
  Zsum (map (fun i => match expected sigma i with Some j => wt i j | None => 0 end) (seq 0 np)).
Proof.
  intros Hn1 Hn2 He HA. unfold total_weight.
  replace (seq 0 n) with (seq 0 np ++ seq (0 + np) (n - np))
    by (rewrite <- seq_app; f_equal; lia).
  rewrite map_app, Zsum_app.
  rewrite (Zsum_zero _ (seq (0 + np) (n - np))).
  - rewrite Z.add_0_r. apply Zsum_map_ext. intros i Hi. apply in_seq in Hi.
    pose proof (assignment_bound n sigma i HA ltac:(lia)).
    rewrite He by lia. unfold pw, expected.
    destruct (Nat.ltb_spec i np); [|lia]. cbn [andb].
    destruct (Nat.ltb (nth i sigma 0%nat) ng && canb i (nth i sigma 0%nat))%bool; reflexivity.
  - intros i Hi. apply in_seq in Hi. pose proof (assignment_bound n sigma i HA ltac:(lia)).
    rewrite He by lia. unfold pw. destruct (Nat.ltb_spec i np); [lia|reflexivity].
Qed.

Lemma hungarian_pure n e :
  (0 < n)%nat -> (np <= n)%nat -> (ng <= n)%nat -> length e = (n * n)%nat ->
  (forall i j, (i < n)%nat -> (j < n)%nat -> nth (i * n + j)%nat e 0 = pw i j) ->
  exists sigma lx ly pm gm,
    hungarian n e = Ok (map Some sigma, lx, ly) /\ assignment n sigma /\
    fold_left (pstep sigma) (seq 0 np) (repeat None np, repeat None ng) = (pm, gm) /\
    mutually_inverse np ng pm gm /\ valid_assignment np ng okp pm /\
    (forall mu, valid_assignment np ng okp mu ->
       assignment_weight np wt mu <= assignment_weight np wt pm).
Proof.
  intros Hn0 Hn1 Hn2 Hl He.
  destruct (hungarian_main_list n e Hn0 Hl) as (sigma & lx & ly & E & [HA Hmax] & _).
  { apply Forall_forall. intros z Hz. apply (In_nth _ _ 0) in Hz as (k & Hk & <-).
    rewrite Hl in Hk.
    replace k with ((k / n) * n + k mod n)%nat by (pose proof (Nat.div_mod k n ltac:(lia)); lia).
    rewrite He.
    - pose proof (pw_bounds (k / n) (k mod n)). unfold kMaxIoU in *. lia.
    - apply Nat.div_lt_upper_bound; lia.
    - apply Nat.mod_upper_bound. lia. }
  pose proof (report_pure sigma n HA Hn1) as HR.
  set (r := fold_left _ _ _) in HR. destruct r as [pm gm] eqn:Er. cbn [fst snd] in HR.
  destruct HR as (L1 & L2 & H1 & H2).
  assert (Hnd : NoDup sigma) by (apply (Permutation_NoDup (Permutation_sym HA)), seq_NoDup).
  assert (Hls : length sigma = n) by (rewrite (Permutation_length HA); apply seq_length).
  assert (Hfwd : forall i j, nth i pm None = Some j ->
    (i < np)%nat /\ (j < ng)%nat /\ canb i j = true /\ nth i sigma 0%nat = j).
  { intros i j Eij. rewrite H1 in Eij. destruct (Nat.ltb_spec i np) as [Hi|Hi]; [|discriminate].
    unfold expected in Eij.
    destruct (Nat.ltb_spec (nth i sigma 0%nat) ng) as [Hj|Hj]; cbn [andb] in Eij; [|discriminate].
    destruct (canb i (nth i sigma 0%nat)) eqn:Ec; [|discriminate]. injection Eij as <-. auto. }
  exists sigma, lx, ly, pm, gm. split; [exact E|]. split; [exact HA|]. split; [exact Er|]. split; [|split].
  - split; [exact L1|]. split; [exact L2|]. intros i j. rewrite H2, H1. split.
    + intros Eij. destruct (Nat.ltb_spec i np); [auto|discriminate].
    + intros [Hi Ei]. destruct (Nat.ltb_spec i np); [exact Ei|lia].
  - split; [exact L1|]. split.
    + intros i j Eij. destruct (Hfwd i j Eij) as (? & ? & ? & _). unfold okp. auto.
    + intros i i' j Ei Ei'. destruct (Hfwd _ _ Ei) as (? & _ & _ & Es). destruct (Hfwd _ _ Ei') as (? & _ & _ & Es').
      apply (proj1 (NoDup_nth sigma 0%nat) Hnd); lia.
  - intros mu (M1 & M2 & M3).
    assert (Hpad : forall i j, nth i (mu ++ repeat None (n - np)) None = Some j -> nth i mu None = Some j).
    { intros i j Eij. destruct (Nat.lt_ge_cases i (length mu)) as [Hi|Hi].
      - now rewrite app_nth1 in Eij.
      - rewrite app_nth2, nth_repeat_none in Eij by exact Hi. discriminate. }
    destruct (perm_extension n (mu ++ repeat None (n - np))) as (tau & Htau & Hext).
    { rewrite app_length, repeat_length. lia. }
    { intros i j Eij. apply Hpad in Eij. destruct (M2 i j Eij) as (_ & ? & _). lia. }
    { intros i i' j Ei Ei'. apply Hpad in Ei. apply Hpad in Ei'. exact (M3 i i' j Ei Ei'). }
    apply (Z.le_trans _ (total_weight n e tau)).
    + rewrite (total_of_perm n e tau Hn1 Hn2 He Htau). unfold assignment_weight.
      apply Zsum_map_le. intros i Hi. apply in_seq in Hi.
      destruct (nth i mu None) as [j|] eqn:Ei.
      * destruct (M2 i j Ei) as (_ & Hj & Hc). unfold okp in Hc.
        assert (Et : nth i tau 0%nat = j) by (apply Hext; rewrite app_nth1 by lia; exact Ei).
        unfold expected. rewrite Et, Hc. replace (Nat.ltb j ng) with true by (symmetry; now apply Nat.ltb_lt).
        cbn [andb]. lia.
      * unfold expected. destruct (Nat.ltb_spec (nth i tau 0%nat) ng) as [Hj|Hj]; cbn [andb]; [|lia].
        destruct (canb i (nth i tau 0%nat)); [|lia]. apply Hwt; lia.
    + apply (Z.le_trans _ (total_weight n e sigma)); [now apply Hmax|].
      rewrite (total_of_perm n e sigma Hn1 Hn2 He HA). unfold assignment_weight.
      apply Zsum_map_le. intros i Hi. apply in_seq in Hi. rewrite H1.
      destruct (Nat.ltb_spec i np); [|lia]. reflexivity.
Qed.
End Pure.

(** ** The API functions on admissible data *)
Section Api.
Context {box : Type}.
Variable cfg : config box.
Variable fr : frame box.
Hypothesis Hfr : frame_ok cfg fr.

Definition allowedb (p g : object box) : bool :=
  Qle_bool (nth (otype p) (thresholds cfg) 0%Q) (pair_iou cfg p g) && negb (Qeq_bool (pair_affinity cfg p g) 0).

Lemma allowedb_spec p g : allowedb p g = true <-> allowed cfg p g.
Proof.
  unfold allowedb, allowed. rewrite andb_true_iff, Qle_bool_iff, negb_true_iff.
  split; intros [H1 H2]; split; auto.
  - intros E. apply Qeq_bool_iff in E. congruence.
  - destruct (Qeq_bool (pair_affinity cfg p g) 0) eqn:E; [|reflexivity].
    apply Qeq_bool_iff in E. contradiction.
Qed.

Lemma nth_result_ok {A} (l : list A) i e a : nth_error l i = Some a -> nth_result l i e = Ok a.
Proof. unfold nth_result. now intros ->. Qed.

Lemma check_unit_ok q : (0 <= q <= 1)%Q -> check_unit q = Ok q.
Proof.
  intros [H1 H2]. unfold check_unit.
  now rewrite (proj2 (Qle_bool_iff _ _) H1), (proj2 (Qle_bool_iff _ _) H2).
Qed.

Lemma pair_iou_unit p g : In p (preds fr) -> In g (gts fr) -> (0 <= pair_iou cfg p g <= 1)%Q.
Proof.
  intros Hp Hg. unfold pair_iou. destruct (Nat.eqb_spec (otype p) (otype g)) as [E|E].
  - now apply (proj1 (proj2 Hfr)).
  - split; [apply Qle_refl|]. discriminate.
Qed.

Lemma pair_affinity_unit p g : In p (preds fr) -> In g (gts fr) -> (0 <= pair_affinity cfg p g <= 1)%Q.
Proof.
  intros Hp Hg. unfold pair_affinity. destruct (affinity_fn cfg) as [f|] eqn:Ef.
  - destruct (Nat.eqb_spec (otype p) (otype g)) as [E|E].
    + now apply (proj2 (proj2 Hfr)).
    + split; [apply Qle_refl|discriminate].
  - split; [discriminate|apply Qle_refl].
Qed.

Lemma iou_ok p g po go :
  nth_error (preds fr) p = Some po -> nth_error (gts fr) g = Some go ->
  iou box cfg fr p g = Ok (pair_iou cfg po go).
Proof.
  intros Ep Eg. unfold iou. rewrite (nth_result_ok _ _ _ _ Ep), (nth_result_ok _ _ _ _ Eg). cbn [bind].
  fold (pair_iou cfg po go). apply check_unit_ok.
  apply pair_iou_unit; eapply nth_error_In; eassumption.
Qed.

Lemma affinity_ok p g po go :
  nth_error (preds fr) p = Some po -> nth_error (gts fr) g = Some go ->
  affinity box cfg fr p g = Ok (pair_affinity cfg po go).
Proof.
  intros Ep Eg. unfold affinity. rewrite (nth_result_ok _ _ _ _ Ep), (nth_result_ok _ _ _ _ Eg). cbn [bind].
  pose proof (pair_affinity_unit po go (nth_error_In _ _ Ep) (nth_error_In _ _ Eg)) as HU.
  unfold pair_affinity in *. destruct (affinity_fn cfg) as [f|]; [|reflexivity].
  destruct (Nat.eqb (otype po) (otype go)); [|reflexivity]. now apply check_unit_ok.
Qed.

Lemma can_match_ok p g po go :
  nth_error (preds fr) p = Some po -> nth_error (gts fr) g = Some go ->
  can_match box cfg fr p g = Ok (allowedb po go).
Proof.
  intros Ep Eg. unfold can_match. rewrite (nth_result_ok _ _ _ _ Ep). cbn [bind].
  destruct (proj1 Hfr po (nth_error_In _ _ Ep)) as [T1 T2].
  destruct (Nat.eqb_spec (otype po) 0) as [E|_]; [lia|].
  rewrite (iou_ok _ _ _ _ Ep Eg), (affinity_ok _ _ _ _ Ep Eg). cbn [bind].
  rewrite (nth_result_ok _ _ _ (nth (otype po) (thresholds cfg) 0%Q) (nth_error_nth' _ _ T2)). cbn [bind].
  unfold allowedb, Qlt_bool. rewrite negb_involutive.
  destruct (affinity_fn cfg) as [f|] eqn:Ef.
  - destruct (Qeq_bool (pair_affinity cfg po go) 0); cbn [negb]; [now rewrite andb_false_r|].
    now rewrite andb_true_r.
  - unfold pair_affinity. rewrite Ef. cbn. now rewrite andb_true_r.
Qed.

Lemma round_away_nonneg q : (0 <= q)%Q -> round_half_away q = Qfloor (q + (1#2)).
Proof. intros H. unfold round_half_away. now rewrite (proj2 (Qle_bool_iff _ _) H). Qed.

Lemma Qmult_unit a b : (0 <= a <= 1 -> 0 <= b <= 1 -> 0 <= a * b <= 1)%Q.
Proof.
  intros [A1 A2] [B1 B2]. split.
  - now apply Qmult_le_0_compat.
  - apply (Qle_trans _ (1 * b)); [now apply Qmult_le_compat_r|]. now rewrite Qmult_1_l.
Qed.

Lemma quantized_ok v w : (0 <= v)%Q -> (v == w)%Q ->
  quantized_weight v = Qfloor (w * 1000000 + (1#2)).
Proof.
  intros H E. unfold quantized_weight. rewrite round_away_nonneg.
  - apply Qfloor_comp. rewrite E. reflexivity.
  - apply Qmult_le_0_compat; [exact H|discriminate].
Qed.

Lemma matching_weight_ok p g po go :
  nth_error (preds fr) p = Some po -> nth_error (gts fr) g = Some go ->
  matching_weight box cfg fr p g = Ok (objective cfg po go).
Proof.
  intros Ep Eg. unfold matching_weight.
  rewrite (iou_ok _ _ _ _ Ep Eg), (affinity_ok _ _ _ _ Ep Eg). cbn [bind].
  pose proof (pair_iou_unit po go (nth_error_In _ _ Ep) (nth_error_In _ _ Eg)) as HU.
  pose proof (pair_affinity_unit po go (nth_error_In _ _ Ep) (nth_error_In _ _ Eg)) as HV.
  unfold objective. destruct (affinity_fn cfg) as [f|] eqn:Ef; f_equal.
  - apply quantized_ok; [apply Qmult_unit; assumption|reflexivity].
  - apply quantized_ok; [apply HU|]. unfold pair_affinity. rewrite Ef. ring.
Qed.

Lemma objective_bounds po go : In po (preds fr) -> In go (gts fr) ->
  0 <= objective cfg po go <= kMaxIoU.
Proof.
  intros Hp Hg.
  pose proof (Qmult_unit _ _ (pair_iou_unit po go Hp Hg) (pair_affinity_unit po go Hp Hg)) as [H1 H2].
  unfold objective. split.
  - change 0 with (Qfloor (inject_Z 0)). apply Qfloor_resp_le.
    apply (Qle_trans _ (0 * 1000000 + (1#2))); [discriminate|].
    apply Qplus_le_l. apply Qmult_le_compat_r; [exact H1|discriminate].
  - change kMaxIoU with (Qfloor (1 * 1000000 + (1#2))). apply Qfloor_resp_le.
    apply Qplus_le_l. apply Qmult_le_compat_r; [exact H2|discriminate].
Qed.

Variables psub gsub : list nat.
Hypothesis Hps : subset_ok (preds fr) psub.
Hypothesis Hgs : subset_ok (gts fr) gsub.

Lemma subset_nth (l : list (object box)) sub i : subset_ok l sub -> (i < length sub)%nat ->
  exists k o, nth_error sub i = Some k /\ nth_error l k = Some o /\ In o l.
Proof.
  intros Hs Hi. destruct (nth_error sub i) as [k|] eqn:Ek.
  2:{ apply nth_error_None in Ek. lia. }
  assert (Hk : (k < length l)%nat).
  { unfold subset_ok in Hs. rewrite Forall_forall in Hs. apply Hs. eapply nth_error_In; eassumption. }
  destruct (nth_error l k) as [o|] eqn:Eo.
  2:{ apply nth_error_None in Eo. lia. }
  exists k, o. repeat split; auto. eapply nth_error_In; eassumption.
Qed.

Definition canb (i j : nat) : bool :=
  match selected (preds fr) psub i, selected (gts fr) gsub j with
  | Some p, Some g => allowedb p g
  | _, _ => false
  end.
Notation wt := (pair_weight cfg fr psub gsub).

Lemma wt_bounds i j : 0 <= wt i j <= kMaxIoU.
Proof.
  unfold pair_weight, selected. destruct (nth_error psub i) as [k|]; [|unfold kMaxIoU; lia].
  destruct (nth_error (preds fr) k) as [p|] eqn:Ep; [|unfold kMaxIoU; lia].
  destruct (nth_error gsub j) as [k'|]; [|unfold kMaxIoU; lia].
  destruct (nth_error (gts fr) k') as [g|] eqn:Eg; [|unfold kMaxIoU; lia].
  apply objective_bounds; eapply nth_error_In; eassumption.
Qed.

Lemma edge_weight_ok i j :
  edge_weight box cfg fr psub gsub i j = Ok (pw (length psub) (length gsub) canb wt i j).
Proof.
  unfold edge_weight, pw.
  destruct (Nat.ltb_spec i (length psub)) as [Hi|Hi].
  2:{ destruct (nth_error psub i) eqn:E; [|reflexivity].
      assert (nth_error psub i <> None) by congruence. apply nth_error_Some in H. lia. }
  destruct (Nat.ltb_spec j (length gsub)) as [Hj|Hj]; cbn [andb].
  2:{ destruct (nth_error psub i); [|reflexivity]. destruct (nth_error gsub j) eqn:E; [|reflexivity].
      assert (nth_error gsub j <> None) by congruence. apply nth_error_Some in H. lia. }
  destruct (subset_nth _ _ i Hps Hi) as (p & po & Ep & Epo & _).
  destruct (subset_nth _ _ j Hgs Hj) as (g & go & Eg & Ego & _).
  rewrite Ep, Eg, (can_match_ok _ _ _ _ Epo Ego). cbn [bind].
  unfold canb, pair_weight, selected. rewrite Ep, Eg, Epo, Ego.
  destruct (allowedb po go); [|reflexivity]. apply matching_weight_ok; assumption.
Qed.

Lemma edges_ok n :
  exists e, edges box cfg fr psub gsub n = Ok e /\ length e = (n * n)%nat /\
    (forall i j, (i < n)%nat -> (j < n)%nat ->
       nth (i * n + j)%nat e 0 = pw (length psub) (length gsub) canb wt i j).
Proof.
  unfold edges.
  rewrite (mapM_ok _ (fun i => map (pw (length psub) (length gsub) canb wt i) (seq 0 n))).
  2:{ intros i _. apply mapM_ok. intros j _. apply edge_weight_ok. }
  cbn [bind]. eexists. split; [reflexivity|].
  assert (HF : Forall (fun r => length r = n)
    (map (fun i => map (pw (length psub) (length gsub) canb wt i) (seq 0 n)) (seq 0 n))).
  { apply Forall_forall. intros r Hr. apply in_map_iff in Hr as (i & <- & _).
    now rewrite map_length, seq_length. }
  split.
  - rewrite (concat_length_const n _ HF), map_length, seq_length. reflexivity.
  - intros i j Hi Hj. rewrite (nth_concat n _ 0 HF) by (rewrite ?map_length, ?seq_length; lia).
    rewrite nth_map_seq by exact Hi. now rewrite nth_map_seq.
Qed.

Lemma report_ok sigma n pg i :
  assignment n sigma -> (length psub <= n)%nat -> (i < length psub)%nat ->
  report box cfg fr psub gsub (map Some sigma) pg i = Ok (pstep (length gsub) canb sigma pg i).
Proof.
  intros HA Hn Hi. unfold report, pstep.
  assert (Hls : length sigma = n) by (rewrite (Permutation_length HA); apply seq_length).
  rewrite (nth_map Some sigma i 0%nat) by lia.
  set (j := nth i sigma 0%nat).
  destruct (Nat.ltb_spec j (length gsub)) as [Hj|Hj].
  - destruct (subset_nth _ _ i Hps Hi) as (p & po & Ep & Epo & _).
    destruct (subset_nth _ _ j Hgs Hj) as (g & go & Eg & Ego & _).
    rewrite Eg, (nth_result_ok _ _ _ _ Ep). cbn [bind].
    rewrite (can_match_ok _ _ _ _ Epo Ego). cbn [bind].
    unfold canb, selected. now rewrite Ep, Eg, Epo, Ego.
  - now rewrite (proj2 (nth_error_None gsub j) Hj).
Qed.

Notation ok_pair := (pair_ok cfg fr psub gsub).

Lemma canb_spec i j : canb i j = true <-> ok_pair i j.
Proof.
  unfold canb, pair_ok. split.
  - destruct (selected (preds fr) psub i) as [p|]; [|discriminate].
    destruct (selected (gts fr) gsub j) as [g|]; [|discriminate].
    intros H. exists p, g. repeat split; apply allowedb_spec in H; apply H.
  - intros (p & g & -> & -> & H). now apply allowedb_spec.
Qed.

Lemma valid_assignment_iff np ng (P R : nat -> nat -> Prop) mu :
  (forall i j, P i j <-> R i j) -> valid_assignment np ng P mu <-> valid_assignment np ng R mu.
Proof.
  intros HPR. unfold valid_assignment. split; intros (H1 & H2 & H3); repeat split; auto;
    try (now apply (H2 i j)); apply HPR; now apply (H2 i j).
Qed.

Lemma hungarian_match_correct :
  exists pm gm, hungarian_match box cfg fr psub gsub = Ok (pm, gm) /\
    mutually_inverse (length psub) (length gsub) pm gm /\
    valid_assignment (length psub) (length gsub) ok_pair pm /\
    (forall mu, valid_assignment (length psub) (length gsub) ok_pair mu ->
       assignment_weight (length psub) wt mu <= assignment_weight (length psub) wt pm).
Proof.
  unfold hungarian_match.
  destruct (Nat.eqb_spec (length psub) 0) as [E0|E0]; [|destruct (Nat.eqb_spec (length gsub) 0) as [E1|E1]]; cbn [orb].
  - eexists _, _. split; [reflexivity|]. rewrite E0. cbn [repeat]. split; [|split].
    + split; [reflexivity|]. split; [apply repeat_length|]. intros i j. rewrite nth_repeat_none.
      destruct i; simpl; split; discriminate.
    + split; [reflexivity|]. split; intros [|i]; simpl; discriminate.
    + intros mu _. reflexivity.
  - eexists _, _. split; [reflexivity|]. rewrite E1. cbn [repeat]. split; [|split].
    + split; [apply repeat_length|]. split; [reflexivity|]. intros i j. rewrite nth_repeat_none.
      destruct j; simpl; split; discriminate.
    + split; [apply repeat_length|]. split; intros i; intros; rewrite nth_repeat_none in *; discriminate.
    + intros mu (M1 & M2 & _). unfold assignment_weight. apply Zsum_map_le. intros i Hi.
      rewrite nth_repeat_none. destruct (nth i mu None) as [j|] eqn:Ei; [|lia].
      destruct (M2 i j Ei) as (_ & ? & _). lia.
  - set (n := Nat.max (length psub) (length gsub)).
    destruct (edges_ok n) as (e & Ee & Le & He). rewrite Ee. cbn [bind].
    destruct (hungarian_pure (length psub) (length gsub) canb wt (fun i j _ _ => wt_bounds i j) n e)
      as (sigma & lx & ly & pm & gm & Eh & HA & Ef & HI & HV & HM); try lia; try assumption.
    rewrite Eh. cbn [bind].
    rewrite (foldM_ok _ (pstep (length gsub) canb sigma)).
    2:{ intros s i Hi. apply in_seq in Hi. apply (report_ok sigma n); [exact HA|lia|lia]. }
    rewrite Ef. exists pm, gm. split; [reflexivity|]. split; [exact HI|]. split.
    + apply (valid_assignment_iff _ _ _ _ pm canb_spec). exact HV.
    + intros mu Hmu. apply HM. now apply (valid_assignment_iff _ _ _ _ mu canb_spec).
Qed.
End Api.

Lemma unknown_type_fatal (box : Type) (cfg : config box) (fr : frame box) p ps g gs o :
  nth_error (preds fr) p = Some o -> otype o = 0%nat ->
  hungarian_match box cfg fr (p :: ps) (g :: gs) = Err CheckFailed.
Proof.
  intros H E. unfold hungarian_match. cbn [length Nat.eqb orb Nat.max].
  unfold edges. cbn [seq mapM]. unfold edge_weight at 1. cbn [nth_error].
  unfold can_match at 1. unfold nth_result. rewrite H. cbn [bind]. rewrite E. reflexivity.
Qed.
