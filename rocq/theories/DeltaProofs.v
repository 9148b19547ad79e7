From Coq Require Import Qabs Lqa Permutation.
From Verif Require Import Base NdArray NdArrayProofs DeltaModel DeltaSpec.
Open Scope nat_scope.

(** ** Run length coding *)

Fixpoint changes (off prev : nat) (x : list nat) : list nat :=
  match x with
  | [] => []
  | b :: x' => if Nat.eqb b prev then changes (S off) prev x' else off :: changes (S off) b x'
  end.

Lemma filter_map_S (f : nat -> bool) l :
  filter f (map S l) = map S (filter (fun i => f (S i)) l).
Proof.
  induction l as [|a l IH]; simpl; [reflexivity|]. destruct (f (S a)); simpl; now rewrite IH.
Qed.

Lemma changes_shift off prev x : changes (S off) prev x = map S (changes off prev x).
Proof.
  revert off prev. induction x as [|b x IH]; intros off prev; simpl; [reflexivity|].
  destruct (Nat.eqb b prev); simpl; now rewrite IH.
Qed.

Lemma starts_changes a x :
  map S (filter (fun i => negb (Nat.eqb (nth (S i) (a :: x) 0) (nth i (a :: x) 0)))
           (seq 0 (length x))) = changes 1 a x.
Proof.
  revert a. induction x as [|b x IH]; intros a; [reflexivity|].
  cbn [length seq]. rewrite <- seq_shift. cbn [filter].
  change (nth 1 (a :: b :: x) 0) with b. change (nth 0 (a :: b :: x) 0) with a.
  rewrite filter_map_S.
  change (fun i => negb (Nat.eqb (nth (S (S i)) (a :: b :: x) 0) (nth (S i) (a :: b :: x) 0)))
    with (fun i => negb (Nat.eqb (nth (S i) (b :: x) 0) (nth i (b :: x) 0))).
  rewrite IH. cbn [changes].
  destruct (Nat.eqb_spec b a) as [->|Hne]; cbn [negb map]; now rewrite (changes_shift 1).
Qed.

Lemma run_starts_changes a x : run_starts (a :: x) = 0 :: changes 1 a x.
Proof.
  unfold run_starts. cbn [length]. rewrite Nat.sub_0_r || replace (S (length x) - 1) with (length x) by lia.
  now rewrite starts_changes.
Qed.

Lemma diffs_cons2 a b t : diffs (a :: b :: t) = (b - a) :: diffs (b :: t).
Proof. reflexivity. Qed.

Lemma decode_changes x : forall s off prev,
  s <= off -> (prev = 0 \/ prev = 1) -> binary x ->
  rldecode_from prev (diffs (s :: changes off prev x ++ [off + length x]))
  = repeat prev (off - s) ++ x.
Proof.
  induction x as [|b x IH]; intros s off prev Hs Hp Hb.
  - cbn [changes app length]. rewrite Nat.add_0_r. simpl. now rewrite !app_nil_r.
  - inversion Hb as [|b' x' Hb0 Hb1]; subst. cbn [changes length].
    replace (off + S (length x)) with (S off + length x) by lia.
    destruct (Nat.eqb_spec b prev) as [->|Hne].
    + rewrite IH by (assumption || lia).
      replace (S off - s) with ((off - s) + 1) by lia.
      rewrite repeat_app, <- app_assoc. reflexivity.
    + cbn [app]. rewrite diffs_cons2. cbn [rldecode_from]. f_equal.
      replace (1 - prev) with b by lia.
      rewrite IH by (assumption || lia).
      replace (S off - off) with 1 by lia. reflexivity.
Qed.

Lemma rle_roundtrip x lengths :
  binary x -> rlencode x = Ok lengths -> rldecode lengths = x.
Proof.
  intros Hb He. destruct x as [|a x]; [discriminate|].
  unfold rlencode in He. cbn [length] in He. rewrite run_starts_changes in He. cbn [app] in He.
  apply Ok_inj in He. subst lengths. unfold rldecode.
  inversion Hb as [|a' x' Ha Hx]; subst.
  pose proof (decode_changes x 0 1 a ltac:(lia) Ha Hx) as E.
  change (1 + length x) with (S (length x)) in E. change (repeat a (1 - 0) ++ x) with (a :: x) in E.
  destruct (Nat.eqb_spec a 0) as [->|Hne].
  - cbn [rldecode_from repeat app]. exact E.
  - replace a with 1 in * by lia. exact E.
Qed.

Lemma rlencode_total x : x <> [] -> exists lengths, rlencode x = Ok lengths.
Proof. intros H. destruct x as [|a x]; [congruence|]. eexists. reflexivity. Qed.

Lemma rlencode_empty : rlencode [] = Err IndexError.
Proof. reflexivity. Qed.

Lemma decode_length cur ls : length (rldecode_from cur ls) = fold_right Nat.add 0 ls.
Proof.
  revert cur. induction ls as [|l ls IH]; intros cur; simpl; [reflexivity|].
  now rewrite app_length, repeat_length, IH.
Qed.

Lemma diffs_changes_pos x : forall off prev s,
  s < off -> Forall (fun l => 0 < l) (diffs (s :: changes off prev x ++ [off + length x])).
Proof.
  induction x as [|b x IH]; intros off prev s Hs.
  - cbn [changes app length diffs]. constructor; [lia|constructor].
  - cbn [changes length]. replace (off + S (length x)) with (S off + length x) by lia.
    destruct (Nat.eqb b prev).
    + apply IH. lia.
    + cbn [app]. rewrite diffs_cons2. constructor; [lia|]. apply IH. lia.
Qed.

Lemma rlencode_canonical x lengths : rlencode x = Ok lengths -> canonical_runs lengths.
Proof.
  intros He. destruct x as [|a x]; [discriminate|].
  unfold rlencode in He. cbn [length] in He. rewrite run_starts_changes in He. cbn [app] in He.
  apply Ok_inj in He. subst lengths.
  pose proof (diffs_changes_pos x 1 a 0 ltac:(lia)) as Hp.
  change (1 + length x) with (S (length x)) in Hp.
  set (ds := diffs _) in *.
  assert (Hd : ds <> []).
  { unfold ds. destruct (changes 1 a x ++ [S (length x)]) as [|y t] eqn:E;
      [destruct (changes 1 a x); discriminate|]. rewrite diffs_cons2. discriminate. }
  clearbody ds. destruct (Nat.eqb a 0).
  - destruct ds as [|d0 ds']; [congruence|]. exact Hp.
  - destruct ds as [|d0 [|d1 ds']]; [congruence| |]; inversion Hp; subst; assumption.
Qed.

Lemma rldecode_binary cur ls : (cur = 0 \/ cur = 1) -> binary (rldecode_from cur ls).
Proof.
  revert cur. induction ls as [|l ls IH]; intros cur Hc; cbn [rldecode_from]; [constructor|].
  apply Forall_app. split.
  - apply Forall_forall. intros y Hy. apply repeat_spec in Hy. now subst.
  - apply IH. lia.
Qed.

Lemma repeat_prefix_inj (a : nat) n m (u v : list nat) :
  repeat a n ++ u = repeat a m ++ v -> hd_error u <> Some a -> hd_error v <> Some a -> n = m /\ u = v.
Proof.
  revert m. induction n as [|n IH]; intros [|m] H Hu Hv; simpl in H.
  - auto.
  - subst u. simpl in Hu. congruence.
  - subst v. simpl in Hv. congruence.
  - injection H as H. destruct (IH m H Hu Hv). auto.
Qed.

Lemma rldecode_hd cur ls :
  (cur = 0 \/ cur = 1) -> Forall (fun l => 0 < l) ls ->
  hd_error (rldecode_from (1 - cur) ls) <> Some cur.
Proof.
  intros Hc Hf. destruct Hf as [|l ls Hl Hf]; cbn [rldecode_from]; [discriminate|].
  destruct l; [lia|]. cbn [repeat app hd_error]. intros E. assert (1 - cur = cur) by congruence. lia.
Qed.

Lemma rldecode_inj_pos ls : forall ls' cur,
  (cur = 0 \/ cur = 1) ->
  Forall (fun l => 0 < l) ls -> Forall (fun l => 0 < l) ls' ->
  rldecode_from cur ls = rldecode_from cur ls' -> ls = ls'.
Proof.
  induction ls as [|l ls IH]; intros [|l' ls'] cur Hc Hf Hf' E.
  - reflexivity.
  - inversion Hf'; subst. simpl in E. destruct l'; [lia|discriminate].
  - inversion Hf; subst. simpl in E. destruct l; [lia|discriminate].
  - inversion Hf; inversion Hf'; subst. cbn [rldecode_from] in E.
    apply repeat_prefix_inj in E as [-> E]; [| now apply rldecode_hd | now apply rldecode_hd].
    f_equal. apply (IH ls' (1 - cur)); (assumption || lia).
Qed.

Lemma rldecode_inj ls ls' :
  canonical_runs ls -> canonical_runs ls' -> rldecode ls = rldecode ls' -> ls = ls'.
Proof.
  unfold rldecode. intros H H' E.
  assert (Ht : forall l, canonical_runs l -> exists a t, l = a :: t /\ Forall (fun l => 0 < l) t).
  { intros l Hl. destruct l as [|a [|b t]]; [contradiction| |]; eexists _, _; split; try reflexivity; auto. }
  destruct (Ht ls H) as (a & t & -> & Hf). destruct (Ht ls' H') as (a' & t' & -> & Hf').
  cbn [rldecode_from] in E. apply repeat_prefix_inj in E as [-> E];
    [| apply (rldecode_hd 1); auto | apply (rldecode_hd 1); auto].
  f_equal. apply (rldecode_inj_pos t t' 0); auto.
Qed.

Lemma rle_bijection ls :
  canonical_runs ls -> rlencode (rldecode ls) = Ok ls.
Proof.
  intros Hc.
  assert (Hne : rldecode ls <> []).
  { unfold rldecode. destruct ls as [|a [|b t]]; simpl in *; [contradiction| |].
    - destruct a; [lia|discriminate].
    - inversion Hc; subst. destruct a; [|discriminate]. destruct b; [lia|discriminate]. }
  destruct (rlencode_total _ Hne) as [ls' E].
  rewrite E. f_equal. apply rldecode_inj.
  - now apply rlencode_canonical in E.
  - exact Hc.
  - apply (rle_roundtrip (rldecode ls) ls'); [|exact E]. apply rldecode_binary. now right.
Qed.

Lemma rlencode_spec x :
  binary x -> x <> [] ->
  exists lengths, rlencode x = Ok lengths /\ rldecode lengths = x /\
    canonical_runs lengths /\ fold_right Nat.add 0 lengths = length x.
Proof.
  intros Hb Hne. destruct (rlencode_total x Hne) as [ls E]. exists ls.
  pose proof (rle_roundtrip _ _ Hb E) as Hd. repeat split; try assumption.
  - now apply rlencode_canonical in E.
  - rewrite <- Hd. unfold rldecode. now rewrite decode_length.
Qed.

(** ** Residuals *)

Lemma cumsum_delta_from p l : cumsum_from p (delta_from p l) = l.
Proof.
  revert p. induction l as [|a l IH]; intros p; simpl; [reflexivity|].
  replace (p + (a - p))%Z with a by lia. now rewrite IH.
Qed.

Lemma cumsum_delta l : cumsum (delta l) = l.
Proof.
  destruct l as [|a l]; [reflexivity|]. unfold cumsum, delta. simpl. now rewrite cumsum_delta_from.
Qed.

Definition bit (v : Z) : nat := if Z.eqb v 0 then 0 else 1.

Lemma fill_mask_values l : fill (map bit l) (filter (fun v => negb (Z.eqb v 0)) l) = l.
Proof.
  induction l as [|v l IH]; [reflexivity|].
  cbn [map filter]. unfold bit at 1. destruct (Z.eqb_spec v 0) as [->|Hne]; cbn [negb fill]; now rewrite IH.
Qed.

Lemma mask_count l :
  length (filter (fun b => Nat.ltb 0 b) (map bit l))
  = length (filter (fun v => negb (Z.eqb v 0)) l).
Proof.
  induction l as [|v l IH]; [reflexivity|].
  cbn [map filter]. unfold bit at 1. destruct (Z.eqb_spec v 0) as [->|Hne]; cbn [negb Nat.ltb Nat.leb filter length];
    [exact IH | now rewrite <- IH].
Qed.

Lemma bit_binary l : binary (map bit l).
Proof.
  apply Forall_forall. intros b Hb. apply in_map_iff in Hb as (v & <- & _).
  unfold bit. destruct (Z.eqb v 0); auto.
Qed.

(** ** Transposition *)

Lemma perm_pair_201 : is_perm_pair 3 [2; 0; 1] [1; 2; 0].
Proof.
  repeat split; try (intros i Hi; destruct i as [|[|[|i]]]; simpl; lia);
    destruct i as [|[|[|i]]]; simpl; lia.
Qed.

Lemma channel_major_back (x : image Z) :
  well_shaped x ->
  transpose 0%Z [chans x; rows x; cols x] [1; 2; 0] (channel_major x) = pixels x.
Proof.
  intros Hw. unfold channel_major, shape_of.
  apply (transpose_inverse 0%Z 3 [rows x; cols x; chans x] [2; 0; 1] [1; 2; 0]).
  - exact perm_pair_201.
  - reflexivity.
  - reflexivity.
  - reflexivity.
  - rewrite Hw. simpl. lia.
Qed.

Lemma channel_major_length (x : image Z) :
  length (channel_major x) = chans x * rows x * cols x.
Proof. unfold channel_major. rewrite transpose_length. simpl. lia. Qed.

Lemma quantize_shape ps x : well_shaped x -> well_shaped (quantize ps x).
Proof. unfold well_shaped. simpl. now rewrite tabulate_length. Qed.

(** ** Rounding *)

Lemma round_half_even_spec q : nearest_even q (round_half_even q).
Proof.
  unfold round_half_even, nearest_even.
  pose proof (Qfloor_le q) as H1. pose proof (Qlt_floor q) as H2.
  set (f := Qfloor q) in *.
  assert (E1 : (inject_Z (f + 1) == inject_Z f + 1)%Q) by (rewrite inject_Z_plus; reflexivity).
  rewrite E1 in H2.
  destruct (Qcompare_spec (q - inject_Z f) (1#2)) as [He|Hl|Hg].
  - right. destruct (Z.even f) eqn:Ev.
    + split; [|exact Ev]. rewrite He. reflexivity.
    + split; [|rewrite Z.even_add, Ev; reflexivity].
      rewrite E1. setoid_replace (q - (inject_Z f + 1))%Q with (- (1#2))%Q by lra. reflexivity.
  - left. rewrite Qabs_pos by lra. exact Hl.
  - left. rewrite Qabs_neg by (rewrite E1; lra). rewrite E1. lra.
Qed.

Lemma round_half_even_int z q : (q == inject_Z z)%Q -> round_half_even q = z.
Proof.
  intros E. unfold round_half_even. rewrite (Qfloor_comp _ _ E), Qfloor_Z.
  assert (H : (q - inject_Z z ?= 1 # 2)%Q = Lt).
  { apply (proj1 (Qlt_alt _ _)). rewrite E. lra. }
  now rewrite H.
Qed.

Lemma round_error q : (Qabs (q - inject_Z (round_half_even q)) <= 1#2)%Q.
Proof.
  destruct (round_half_even_spec q) as [H|[H _]]; lra.
Qed.

(** ** The codec *)

Lemma check_precision_ok arg c :
  admissible arg c ->
  exists ps, check_precision arg c = Ok ps /\ length ps = c /\
    forall ch, ch < c -> nth ch ps 1%Q = asked_precision arg ch.
Proof.
  assert (Hb : forall p, (0 < p)%Q -> Qle_bool p 0 = false).
  { intros p Hp. destruct (Qle_bool p 0) eqn:E; [|reflexivity].
    apply Qle_bool_iff in E. lra. }
  destruct arg as [p|ps]; simpl; intros H.
  - rewrite Hb by exact H. eexists. split; [reflexivity|]. split; [apply repeat_length|].
    intros ch Hch. rewrite (nth_indep _ 1%Q p) by (rewrite repeat_length; exact Hch). apply nth_repeat.
  - destruct H as [Hl Hf]. rewrite Hl, Nat.eqb_refl. simpl.
    replace (existsb (fun p => Qle_bool p 0) ps) with false.
    + eexists. split; [reflexivity|]. auto.
    + symmetry. clear Hl. induction Hf as [|p ps Hp Hf IH]; [reflexivity|].
      simpl. now rewrite Hb, IH.
Qed.

Lemma check_precision_err arg c :
  ~ admissible arg c -> check_precision arg c = Err ValueError.
Proof.
  destruct arg as [p|ps]; simpl; intros H.
  - destruct (Qle_bool p 0) eqn:E; [reflexivity|].
    exfalso. apply H. apply Qnot_le_lt. intros Hc. apply Qle_bool_iff in Hc. congruence.
  - destruct (Nat.eqb_spec (length ps) c) as [Hl|Hl]; [|reflexivity]. simpl.
    destruct (existsb (fun p => Qle_bool p 0) ps) eqn:E; [reflexivity|].
    exfalso. apply H. split; [exact Hl|]. apply Forall_forall. intros p Hp.
    apply Qnot_le_lt. intros Hc. apply Qle_bool_iff in Hc.
    assert (existsb (fun p => Qle_bool p 0) ps = true) by (apply existsb_exists; eauto). congruence.
Qed.

Definition small_dims {A} (x : image A) : Prop :=
  (Z.of_nat (rows x) <= 65535 /\ Z.of_nat (cols x) <= 65535 /\ Z.of_nat (chans x) <= 65535)%Z.

Lemma dims_check {A} (x : image A) :
  existsb (fun dim => Z.ltb (2 ^ 16 - 1) (Z.of_nat dim)) (shape_of x) = false <-> small_dims x.
Proof.
  unfold small_dims, shape_of. cbn [existsb]. change (2 ^ 16 - 1)%Z with 65535%Z. lia.
Qed.

Lemma codec_roundtrip f32 (x : image Q) arg :
  well_shaped x -> pixels x <> [] -> small_dims x -> admissible arg (chans x) ->
  exists msg x' y,
    compress f32 x arg = Ok (msg, x') /\ decompress msg = Ok y /\
    rows y = rows x /\ cols y = cols x /\ chans y = chans x /\ well_shaped y /\
    (forall k, k < length (pixels x) ->
      nth k (pixels y) 0%Q =
      (inject_Z (round_half_even (nth k (pixels x) 0%Q / asked_precision arg (k mod chans x)))
       * f32 (asked_precision arg (k mod chans x)))%Q) /\
    (forall k, k < length (pixels x) ->
      nth k (pixels x') 0%Q =
      inject_Z (round_half_even (nth k (pixels x) 0%Q / asked_precision arg (k mod chans x)))).
Proof.
  intros Hw Hne Hd Ha.
  destruct (check_precision_ok _ _ Ha) as (ps & Eps & Lps & Nps).
  assert (Hlen0 : 0 < length (pixels x)) by (destruct (pixels x); [congruence|simpl; lia]).
  assert (Hc0 : chans x <> 0) by (rewrite Hw in Hlen0; lia).
  set (xr := quantize ps x).
  assert (Hwr : well_shaped xr) by (now apply quantize_shape).
  assert (Hlr : length (pixels xr) = length (pixels x)) by (unfold xr; simpl; apply tabulate_length).
  assert (Hcm : length (channel_major xr) = length (pixels x)).
  { rewrite channel_major_length. rewrite <- Hlr. red in Hwr. rewrite Hwr. lia. }
  assert (Hmne : map bit (channel_major xr) <> []).
  { intros E. apply (f_equal (@length _)) in E. rewrite map_length, Hcm in E. simpl in E. lia. }
  destruct (rlencode_spec _ (bit_binary (channel_major xr)) Hmne) as (ls & Els & Dls & _ & _).
  unfold compress. rewrite Eps. cbn [bind]. fold xr.
  unfold compute_mask. fold bit. rewrite Els. cbn [bind].
  unfold compute_metadata. rewrite (proj2 (dims_check x) Hd). cbn [bind fst snd].
  eexists _, _, _. split; [reflexivity|].
  unfold decompress. cbn [meta_shape mask residual meta_precision shape_of].
  rewrite Dls. unfold compute_residual. rewrite cumsum_delta.
  unfold assign_masked. rewrite <- mask_count, Nat.eqb_refl, fill_mask_values. cbn [bind].
  rewrite channel_major_length.
  change (rows xr) with (rows x). change (cols xr) with (cols x). change (chans xr) with (chans x).
  rewrite Nat.eqb_refl. cbn [negb]. rewrite map_length, Lps.
  replace (Nat.ltb (chans x) (chans x)) with false by (symmetry; apply Nat.ltb_irrefl).
  pose proof (channel_major_back xr Hwr) as Hback.
  change (rows xr) with (rows x) in Hback. change (cols xr) with (cols x) in Hback.
  change (chans xr) with (chans x) in Hback. rewrite Hback.
  split; [reflexivity|]. cbn [rows cols chans pixels].
  repeat split.
  - unfold well_shaped. cbn [rows cols chans pixels]. rewrite tabulate_length. exact Hwr.
  - intros k Hk. rewrite nth_tabulate by lia.
    assert (Hm : k mod chans x < chans x) by (now apply Nat.mod_upper_bound).
    unfold xr at 1. simpl. rewrite nth_tabulate by exact Hk. rewrite Nps by exact Hm.
    rewrite (nth_indep _ 1%Q (f32 1%Q)) by (rewrite map_length; lia).
    rewrite map_nth, Nps by exact Hm. reflexivity.
  - intros k Hk.
    assert (Hm : k mod chans x < chans x) by (now apply Nat.mod_upper_bound).
    rewrite (nth_indep _ 0%Q (inject_Z 0)) by (rewrite map_length; lia).
    rewrite map_nth. unfold xr. simpl. rewrite nth_tabulate by exact Hk. now rewrite Nps.
Qed.

Lemma pixel_position {A} (x : image A) i j ch :
  i < rows x -> j < cols x -> ch < chans x ->
  (i * cols x + j) * chans x + ch < rows x * cols x * chans x /\
  ((i * cols x + j) * chans x + ch) mod chans x = ch.
Proof.
  intros Hi Hj Hc. split.
  - assert (i * cols x + j < rows x * cols x) by nia. nia.
  - rewrite Nat.add_comm, Nat.mod_add by lia. now apply Nat.mod_small.
Qed.

Lemma codec_roundtrip_pixels f32 (x : image Q) arg :
  well_shaped x -> pixels x <> [] -> small_dims x -> admissible arg (chans x) ->
  exists msg x' y,
    compress f32 x arg = Ok (msg, x') /\ decompress msg = Ok y /\
    rows y = rows x /\ cols y = cols x /\ chans y = chans x /\ well_shaped y /\
    (forall i j ch, i < rows x -> j < cols x -> ch < chans x ->
      exists n, nearest_even (pixel 0%Q x i j ch / asked_precision arg ch) n /\
        pixel 0%Q y i j ch = (inject_Z n * f32 (asked_precision arg ch))%Q).
Proof.
  intros Hw Hne Hd Ha.
  destruct (codec_roundtrip f32 x arg Hw Hne Hd Ha) as (msg & x' & y & E1 & E2 & E3 & E4 & E5 & E6 & E7 & _).
  exists msg, x', y. repeat (split; [assumption|]).
  intros i j ch Hi Hj Hc. destruct (pixel_position x i j ch Hi Hj Hc) as [Hp Hm].
  eexists. split; [apply round_half_even_spec|].
  unfold pixel. rewrite E4, E5, E7 by (rewrite Hw; exact Hp). now rewrite Hm.
Qed.

Lemma codec_error_bound f32 (x : image Q) arg :
  (forall ch, ch < chans x -> (f32 (asked_precision arg ch) == asked_precision arg ch)%Q) ->
  well_shaped x -> pixels x <> [] -> small_dims x -> admissible arg (chans x) ->
  exists msg x' y,
    compress f32 x arg = Ok (msg, x') /\ decompress msg = Ok y /\
    forall i j ch, i < rows x -> j < cols x -> ch < chans x ->
      (Qabs (pixel 0%Q x i j ch - pixel 0%Q y i j ch) <= asked_precision arg ch / 2)%Q.
Proof.
  intros Hf Hw Hne Hd Ha.
  destruct (codec_roundtrip_pixels f32 x arg Hw Hne Hd Ha) as (msg & x' & y & E1 & E2 & _ & _ & _ & _ & E7).
  exists msg, x', y. repeat (split; [assumption|]).
  intros i j ch Hi Hj Hc. destruct (E7 i j ch Hi Hj Hc) as (n & Hn & ->).
  rewrite Hf by exact Hc.
  assert (Hp : (0 < asked_precision arg ch)%Q).
  { destruct arg as [p|ps]; simpl in *; [exact Ha|]. destruct Ha as [Hl Hfa].
    rewrite Forall_forall in Hfa. apply Hfa. apply nth_In. lia. }
  set (p := asked_precision arg ch) in *. set (v := pixel 0%Q x i j ch) in *.
  assert (Hb : (Qabs (v / p - inject_Z n) <= 1#2)%Q) by (destruct Hn as [Hn|[Hn _]]; lra).
  setoid_replace (v - inject_Z n * p)%Q with ((v / p - inject_Z n) * p)%Q by (field; lra).
  rewrite Qabs_Qmult, (Qabs_pos p) by lra.
  apply (Qle_trans _ ((1#2) * p)); [apply Qmult_le_compat_r; lra|].
  unfold Qdiv. setoid_replace (p * / 2)%Q with ((1#2) * p)%Q by (field). lra.
Qed.

(** An image all of whose values are multiples of the precision is returned unchanged. *)
Lemma codec_idempotent f32 (x : image Q) arg :
  (forall ch, ch < chans x -> (f32 (asked_precision arg ch) == asked_precision arg ch)%Q) ->
  well_shaped x -> pixels x <> [] -> small_dims x -> admissible arg (chans x) ->
  (forall i j ch, i < rows x -> j < cols x -> ch < chans x ->
     exists z, (pixel 0%Q x i j ch == inject_Z z * asked_precision arg ch)%Q) ->
  exists msg x' y,
    compress f32 x arg = Ok (msg, x') /\ decompress msg = Ok y /\
    forall i j ch, i < rows x -> j < cols x -> ch < chans x ->
      (pixel 0%Q y i j ch == pixel 0%Q x i j ch)%Q.
Proof.
  intros Hf Hw Hne Hd Ha Hm.
  destruct (codec_roundtrip f32 x arg Hw Hne Hd Ha) as (msg & x' & y & E1 & E2 & E3 & E4 & E5 & E6 & E7 & _).
  exists msg, x', y. repeat (split; [assumption|]).
  intros i j ch Hi Hj Hc. destruct (pixel_position x i j ch Hi Hj Hc) as [Hp Hmod].
  destruct (Hm i j ch Hi Hj Hc) as [z Hz].
  assert (Hpos : (0 < asked_precision arg ch)%Q).
  { destruct arg as [p|ps]; simpl in *; [exact Ha|]. destruct Ha as [Hl Hfa].
    rewrite Forall_forall in Hfa. apply Hfa. apply nth_In. lia. }
  unfold pixel at 1. rewrite E4, E5, E7 by (rewrite Hw; exact Hp). rewrite Hmod.
  fold (pixel 0%Q x i j ch).
  rewrite (round_half_even_int z).
  - rewrite Hz, Hf by exact Hc. reflexivity.
  - rewrite Hz. field. lra.
Qed.

Lemma compress_rejects f32 (x : image Q) arg :
  ~ admissible arg (chans x) -> compress f32 x arg = Err ValueError.
Proof. intros H. unfold compress. now rewrite check_precision_err. Qed.

Lemma compress_rejects_large f32 (x : image Q) arg :
  well_shaped x -> pixels x <> [] -> admissible arg (chans x) -> ~ small_dims x ->
  compress f32 x arg = Err ValueError.
Proof.
  intros Hw Hne Ha Hd.
  destruct (check_precision_ok _ _ Ha) as (ps & Eps & _ & _).
  unfold compress. rewrite Eps. cbn [bind]. unfold compute_mask.
  set (xr := quantize ps x).
  assert (Hmne : map (fun v => if Z.eqb v 0 then 0 else 1) (channel_major xr) <> []).
  { intros E. apply (f_equal (@length _)) in E. rewrite map_length, channel_major_length in E.
    change (chans xr) with (chans x) in E. change (rows xr) with (rows x) in E.
    change (cols xr) with (cols x) in E. red in Hw. simpl in E.
    destruct (pixels x); [congruence|]. simpl in Hw. nia. }
  destruct (rlencode_total _ Hmne) as [ls ->]. cbn [bind].
  unfold compute_metadata.
  destruct (existsb _ (shape_of x)) eqn:E; [reflexivity|].
  exfalso. apply Hd. now apply dims_check.
Qed.

(** compress overwrites the caller's array. *)
Lemma compress_mutates_input f32 :
  exists (x : image Q) arg msg x',
    well_shaped x /\ admissible arg (chans x) /\ compress f32 x arg = Ok (msg, x') /\
    ~ (forall k, (nth k (pixels x') 0 == nth k (pixels x) 0)%Q).
Proof.
  exists {| rows := 1; cols := 1; chans := 1; pixels := [(5#1)%Q] |}, (OneNumber (1#2)).
  eexists _, _. split; [reflexivity|]. split; [reflexivity|]. split; [reflexivity|].
  intros H. specialize (H 0%nat). vm_compute in H. discriminate.
Qed.
