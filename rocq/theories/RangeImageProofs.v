From Coq Require Import Lqa.
From Verif Require Import Base ResultLib MonadLib ListLib DeltaSpec DeltaProofs RangeImageModel RangeImageSpec.
Open Scope Z_scope.

(** ** Packing *)
Lemma unit_pos : (0 < range_to_meters)%Q.
Proof. reflexivity. Qed.

Lemma floor_steps x : (0 <= x)%Q -> steps x (Qfloor (x / range_to_meters)).
Proof.
  intros Hx. unfold steps. change resolution with range_to_meters.
  pose proof (Qfloor_le (x / range_to_meters)) as H1.
  pose proof (Qlt_floor (x / range_to_meters)) as H2.
  set (k := Qfloor (x / range_to_meters)) in *.
  pose proof unit_pos as Hu.
  assert (E : (x / range_to_meters * range_to_meters == x)%Q) by (field; intro; discriminate).
  split.
  - rewrite <- E at 1. apply Qmult_le_compat_r; [exact H1|apply Qlt_le_weak, Hu].
  - rewrite <- E at 1. apply Qmult_lt_compat_r; [exact Hu|exact H2].
Qed.

Lemma steps_unique x k k' : steps x k -> steps x k' -> k = k'.
Proof.
  unfold steps. change resolution with range_to_meters. intros [A B] [C D].
  assert (H1 : (inject_Z k * range_to_meters < inject_Z (k' + 1) * range_to_meters)%Q) by lra.
  assert (H2 : (inject_Z k' * range_to_meters < inject_Z (k + 1) * range_to_meters)%Q) by lra.
  rewrite Qmult_lt_r in H1 by exact unit_pos. rewrite Qmult_lt_r in H2 by exact unit_pos.
  rewrite <- Zlt_Qlt in H1, H2. lia.
Qed.

Lemma qle_false a b : Qle_bool a b = false <-> (b < a)%Q.
Proof.
  rewrite <- not_true_iff_false, Qle_bool_iff. split; [apply Qnot_le_lt|apply Qlt_not_le].
Qed.

Lemma encode_meters_ok bits x k : encode_meters bits x = Ok k <->
  (0 <= x)%Q /\ (x <= inject_Z (2 ^ bits - 1) * range_to_meters)%Q /\ k = Qfloor (x / range_to_meters).
Proof.
  unfold encode_meters, trunc. pose proof unit_pos as Hu.
  assert (H0 : Qle_bool 0 (x / range_to_meters) = true <-> (0 <= x)%Q).
  { rewrite Qle_bool_iff. split; intros H.
    - apply (Qmult_le_compat_r _ _ range_to_meters) in H; [|apply Qlt_le_weak, Hu].
      assert (E : (x / range_to_meters * range_to_meters == x)%Q) by (field; intro; discriminate).
      rewrite E in H. lra.
    - apply Qle_shift_div_l; [exact Hu|lra]. }
  assert (H1 : forall m, Qle_bool (x / range_to_meters) (inject_Z m) = true <-> (x <= inject_Z m * range_to_meters)%Q).
  { intros m. rewrite Qle_bool_iff. split; intros H.
    - apply (Qmult_le_compat_r _ _ range_to_meters) in H; [|apply Qlt_le_weak, Hu].
      assert (E : (x / range_to_meters * range_to_meters == x)%Q) by (field; intro; discriminate).
      rewrite E in H. exact H.
    - apply Qle_shift_div_r; [exact Hu|exact H]. }
  specialize (H1 (2 ^ bits - 1)).
  destruct (Qle_bool 0 (x / range_to_meters)) eqn:E0; cbn [negb].
  - destruct (Qle_bool (x / range_to_meters) (inject_Z (2 ^ bits - 1))) eqn:E1; cbn [negb].
    + split; [intros H; apply Ok_inj in H; subst k; repeat split; tauto|].
      intros (_ & _ & ->). reflexivity.
    + split; [discriminate|]. intros (_ & H & _). apply (proj2 H1) in H. discriminate.
  - split; [discriminate|]. intros (H & _ & _). apply (proj2 H0) in H. discriminate.
Qed.

Lemma encode_meters_range bits x k : 0 <= bits -> encode_meters bits x = Ok k -> 0 <= k <= 2 ^ bits - 1.
Proof.
  intros Hb H. apply encode_meters_ok in H. destruct H as (H0 & H1 & ->).
  pose proof (floor_steps x H0) as [A B]. change resolution with range_to_meters in *.
  set (k := Qfloor (x / range_to_meters)) in *. pose proof unit_pos as Hu. split.
  - assert (H : (0 * range_to_meters < inject_Z (k + 1) * range_to_meters)%Q) by lra.
    rewrite Qmult_lt_r in H by exact Hu. change 0%Q with (inject_Z 0) in H. rewrite <- Zlt_Qlt in H. lia.
  - assert (H : (inject_Z k * range_to_meters <= inject_Z (2 ^ bits - 1) * range_to_meters)%Q) by lra.
    rewrite Qmult_le_r in H by exact Hu. rewrite <- Zle_Qle in H. exact H.
Qed.

Lemma land_ones_mod a n : 0 <= n -> Z.land a (2 ^ n - 1) = a mod 2 ^ n.
Proof. intros Hn. rewrite <- Z.land_ones by exact Hn. f_equal. rewrite Z.ones_equiv. lia. Qed.

Lemma lor_add hi lo n : 0 <= n -> 0 <= lo < 2 ^ n -> Z.lor (hi * 2 ^ n) lo = hi * 2 ^ n + lo.
Proof.
  intros Hn Hl.
  assert (E : Z.land (hi * 2 ^ n) lo = 0).
  { apply Z.bits_inj'. intros k Hk. rewrite Z.land_spec, Z.bits_0.
    destruct (Z.lt_ge_cases k n) as [Hkn|Hkn].
    - rewrite Z.mul_pow2_bits_low by exact Hkn. reflexivity.
    - destruct (Z.eq_dec lo 0) as [->|Hne]; [rewrite Z.bits_0; apply andb_false_r|].
      assert (Hlog : Z.log2 lo < k).
      { apply Z.log2_lt_pow2; [lia|]. apply Z.lt_le_trans with (2 ^ n); [lia|]. apply Z.pow_le_mono_r; lia. }
      rewrite (Z.bits_above_log2 lo k) by lia.
      apply andb_false_r. }
  symmetry. rewrite Z.add_nocarry_lxor by exact E. apply Z.lxor_lor. exact E.
Qed.

Lemma intensity_code b : 0 <= b < 2 ^ 32 -> encode_intensity b = b / 65536.
Proof.
  intros Hb. unfold encode_intensity. change 65535 with (2 ^ 16 - 1).
  rewrite land_ones_mod, Z.shiftr_div_pow2 by lia. change (2 ^ 16) with 65536.
  apply Z.mod_small. split; [apply Z.div_pos; lia|]. apply Z.div_lt_upper_bound; [lia|]. change (65536 * 65536) with (2 ^ 32). lia.
Qed.

Definition pack (k v : Z) : Z := k * 65536 + v.

Lemma encode_ok r b e v : 0 <= b < 2 ^ 32 -> encode_lidar_feature (r, b, e) = Ok v <->
  (0 <= r)%Q /\ (r <= inject_Z 65535 * range_to_meters)%Q /\
  (0 <= e)%Q /\ (e <= inject_Z 255 * range_to_meters)%Q /\
  v = (Qfloor (r / range_to_meters), pack (Qfloor (r / range_to_meters)) (b / 65536),
       pack (Qfloor (r / range_to_meters)) (Qfloor (e / range_to_meters))).
Proof.
  intros Hb. unfold encode_lidar_feature.
  assert (P : forall k w, 0 <= k <= 2 ^ 16 - 1 -> 0 <= w <= 65535 ->
    Z.lor (Z.land (Z.shiftl k 16) (2 ^ 32 - 1)) w = pack k w).
  { intros k w Hk Hw. rewrite land_ones_mod by lia. rewrite Z.shiftl_mul_pow2 by lia.
    rewrite Z.mod_small by (change (2 ^ 32) with (2 ^ 16 * 2 ^ 16); change (2 ^ 16) with 65536 in *; lia).
    unfold pack. apply lor_add; [lia|]. change (2 ^ 16) with 65536. lia. }
  assert (Hi : 0 <= b / 65536 <= 65535).
  { split; [apply Z.div_pos; lia|]. apply Z.lt_succ_r. apply Z.div_lt_upper_bound; [lia|].
    change (65536 * Z.succ 65535) with (2 ^ 32). lia. }
  rewrite intensity_code by exact Hb. split.
  - intros H. dbind H er Er. dbind H ee Ee. apply Ok_inj in H. subst v.
    pose proof (encode_meters_range 16 r er ltac:(lia) Er) as Rr.
    pose proof (encode_meters_range 8 e ee ltac:(lia) Ee) as Re.
    apply encode_meters_ok in Er. apply encode_meters_ok in Ee.
    destruct Er as (R0 & R1 & ->). destruct Ee as (E0 & E1 & ->).
    change (2 ^ 8 - 1) with 255 in *. change (2 ^ 16 - 1) with 65535 in R1.
    split; [exact R0|]. split; [exact R1|]. split; [exact E0|]. split; [exact E1|]. rewrite !P by lia. reflexivity.
  - intros (R0 & R1 & E0 & E1 & ->).
    assert (Er : encode_meters 16 r = Ok (Qfloor (r / range_to_meters))) by (apply encode_meters_ok; split; [exact R0|split; [exact R1|reflexivity]]).
    assert (Ee : encode_meters 8 e = Ok (Qfloor (e / range_to_meters))) by (apply encode_meters_ok; split; [exact E0|split; [exact E1|reflexivity]]).
    pose proof (encode_meters_range 16 r _ ltac:(lia) Er) as Rr.
    pose proof (encode_meters_range 8 e _ ltac:(lia) Ee) as Re.
    change (2 ^ 8 - 1) with 255 in *.
    rewrite Er, Ee. cbn [bind]. rewrite !P by lia. reflexivity.
Qed.

Lemma encode_defined r b e :
  is_ok (encode_lidar_feature (r, b, e)) = true <->
  (0 <= r <= inject_Z 65535 * resolution)%Q /\ (0 <= e <= inject_Z 255 * resolution)%Q.
Proof.
  change resolution with range_to_meters. unfold encode_lidar_feature.
  assert (H : forall bits x, (0 <= x <= inject_Z (2 ^ bits - 1) * range_to_meters)%Q <-> exists k, encode_meters bits x = Ok k).
  { intros bits x. split.
    - intros [A B]. exists (Qfloor (x / range_to_meters)). apply encode_meters_ok. auto.
    - intros [k Hk]. apply encode_meters_ok in Hk. tauto. }
  change 65535 with (2 ^ 16 - 1). change 255 with (2 ^ 8 - 1). rewrite !H. split.
  - destruct (encode_meters 16 r) as [k|]; cbn [bind is_ok]; [|discriminate].
    destruct (encode_meters 8 e) as [k'|]; cbn [bind is_ok]; [|discriminate]. intros _. split; eauto.
  - intros [[k Hk] [k' Hk']]. rewrite Hk, Hk'. reflexivity.
Qed.

Lemma pack_low k v : 0 <= v < 65536 -> Z.land (pack k v) 65535 = v.
Proof.
  intros Hv. change 65535 with (2 ^ 16 - 1). rewrite land_ones_mod by lia. change (2 ^ 16) with 65536.
  unfold pack. rewrite Z.add_comm, Z.mod_add by lia. apply Z.mod_small. lia.
Qed.
Lemma pack_low8 k v : 0 <= v < 256 -> Z.land (pack k v) 255 = v.
Proof.
  intros Hv. change 255 with (2 ^ 8 - 1). rewrite land_ones_mod by lia. change (2 ^ 8) with 256.
  unfold pack. replace (k * 65536 + v) with (v + (k * 256) * 256) by lia. rewrite Z.mod_add by lia. apply Z.mod_small. lia.
Qed.
Lemma decode_intensity_code v : 0 <= v < 65536 -> decode_intensity v = v * 65536.
Proof.
  intros Hv. unfold decode_intensity. rewrite land_ones_mod, Z.shiftl_mul_pow2 by lia.
  change (2 ^ 16) with 65536. apply Z.mod_small. change (2 ^ 32) with (65536 * 65536). lia.
Qed.

Lemma decode_packed k i e : 0 <= i < 65536 -> 0 <= e < 256 ->
  decode_lidar_feature (k, pack k i, pack k e) = (decode_meters k, i * 65536, decode_meters e).
Proof.
  intros Hi He. unfold decode_lidar_feature. rewrite pack_low, pack_low8, decode_intensity_code by assumption. reflexivity.
Qed.

Lemma byte_code e : (0 <= e)%Q -> (e <= inject_Z 255 * range_to_meters)%Q -> 0 <= Qfloor (e / range_to_meters) < 256.
Proof.
  intros A B. pose proof (encode_meters_range 8 e (Qfloor (e / range_to_meters)) ltac:(lia)) as H.
  change (2 ^ 8 - 1) with 255 in H. cut (0 <= Qfloor (e / range_to_meters) <= 255); [lia|].
  apply H. apply encode_meters_ok. auto.
Qed.
Lemma short_code b : 0 <= b < 2 ^ 32 -> 0 <= b / 65536 < 65536.
Proof.
  intros Hb. split; [apply Z.div_pos; lia|]. apply Z.div_lt_upper_bound; [lia|].
  change (65536 * 65536) with (2 ^ 32). lia.
Qed.

Lemma round_trip r b e v : 0 <= b < 2 ^ 32 -> encode_lidar_feature (r, b, e) = Ok v ->
  exists kr ke, steps r kr /\ steps e ke /\
    decode_lidar_feature v = ((inject_Z kr * resolution)%Q, b - b mod 65536, (inject_Z ke * resolution)%Q).
Proof.
  intros Hb H. apply (encode_ok _ _ _ _ Hb) in H. destruct H as (R0 & R1 & E0 & E1 & ->).
  exists (Qfloor (r / range_to_meters)), (Qfloor (e / range_to_meters)).
  split; [now apply floor_steps|]. split; [now apply floor_steps|].
  rewrite decode_packed; [|now apply short_code|now apply byte_code].
  rewrite (Z.div_mod b 65536) at 2 by lia. unfold decode_meters. change resolution with range_to_meters.
  f_equal. f_equal. lia.
Qed.

Lemma packed_order p p' v v' : 0 <= snd (fst p) < 2 ^ 32 -> 0 <= snd (fst p') < 2 ^ 32 ->
  encode_lidar_feature p = Ok v -> encode_lidar_feature p' = Ok v' ->
  exists k k', steps (fst (fst p)) k /\ steps (fst (fst p')) k' /\
    fst (fst v) = k /\ fst (fst v') = k' /\
    (k < k' -> snd (fst v) < snd (fst v') /\ snd v < snd v') /\
    (snd (fst v) < snd (fst v') -> k <= k') /\ (snd v < snd v' -> k <= k').
Proof.
  destruct p as [[r b] e], p' as [[r' b'] e']. cbn [fst snd]. intros Hb Hb' H H'.
  apply (encode_ok _ _ _ _ Hb) in H. destruct H as (R0 & R1 & E0 & E1 & ->).
  apply (encode_ok _ _ _ _ Hb') in H'. destruct H' as (R0' & R1' & E0' & E1' & ->). cbn [fst snd].
  pose proof (short_code b Hb). pose proof (short_code b' Hb').
  pose proof (byte_code e E0 E1). pose proof (byte_code e' E0' E1').
  exists (Qfloor (r / range_to_meters)), (Qfloor (r' / range_to_meters)).
  split; [apply floor_steps; assumption|]. split; [apply floor_steps; assumption|].
  unfold pack. repeat split; try reflexivity; lia.
Qed.

(** ** Scattering *)
Lemma unique_fold l : forall acc, NoDup acc ->
  let keys := fold_left (fun keys x => if existsb (Z.eqb x) keys then keys else keys ++ [x]) l acc in
  NoDup keys /\ forall x, In x keys <-> In x acc \/ In x l.
Proof.
  induction l as [|a l IH]; intros acc Hn; cbn [fold_left].
  - split; [exact Hn|]. intros x. cbn [In]. tauto.
  - destruct (existsb (Z.eqb a) acc) eqn:E.
    + destruct (IH acc Hn) as [N I]. split; [exact N|]. intros x. rewrite I.
      apply existsb_exists in E. destruct E as (y & Hy & Ey). apply Z.eqb_eq in Ey. subst y.
      cbn [In]. split; [tauto|]. intros [H|[<-|H]]; tauto.
    + assert (Hn' : NoDup (acc ++ [a])).
      { apply nodup_app; [exact Hn|constructor; [intros []|constructor]|].
        intros x Hx [<-|[]]. rewrite <- not_true_iff_false in E. apply E. apply existsb_exists.
        exists a. split; [exact Hx|apply Z.eqb_refl]. }
      destruct (IH _ Hn') as [N I]. split; [exact N|]. intros x. rewrite I, in_app_iff. cbn [In]. tauto.
Qed.

Lemma unique_keys_spec l : NoDup (unique_keys l) /\ forall x, In x (unique_keys l) <-> In x l.
Proof.
  destruct (unique_fold l [] (NoDup_nil _)) as [N I]. split; [exact N|].
  intros x. unfold unique_keys. rewrite I. cbn [In]. tauto.
Qed.

Lemma index_of_nth l : NoDup l -> forall k x, In x l -> (k < length l)%nat ->
  (Nat.eqb (index_of x l) k = true <-> x = nth k l 0).
Proof.
  induction 1 as [|y l Hy Hn IH]; intros k x Hx Hk; [destruct Hx|].
  cbn [index_of]. cbn [length] in Hk. destruct (Z.eqb_spec x y) as [->|Hne].
  - destruct k as [|k]; cbn [nth Nat.eqb]; [tauto|]. split; [discriminate|].
    intros ->. exfalso. apply Hy. apply nth_In. lia.
  - destruct Hx as [->|Hx]; [congruence|]. destruct k as [|k]; cbn [nth Nat.eqb].
    + split; [discriminate|congruence].
    + apply IH; [exact Hx|lia].
Qed.

Lemma map_nth_keys {A} (G : Z -> A) keys : map G keys = map (fun s => G (nth s keys 0)) (seq 0 (length keys)).
Proof.
  induction keys as [|k l IH]; [reflexivity|].
  cbn [length seq map nth]. f_equal. rewrite <- seq_shift, map_map, IH. apply map_ext. intros a. reflexivity.
Qed.

Lemma combine_maps {A B C} (f : A -> B) (g : A -> C) l : combine (map f l) (map g l) = map (fun a => (f a, g a)) l.
Proof. induction l as [|a l IH]; [reflexivity|]. cbn [map combine]. now rewrite IH. Qed.

Lemma filter_pair {V} (value : list V) (codes : list Z) (f : Z -> nat) k e :
  (forall x, In x codes -> (Nat.eqb (f x) k = true <-> x = e)) ->
  map fst (filter (fun vi => Nat.eqb (snd vi) k) (combine value (map f codes))) =
  map fst (filter (fun vi => snd vi =? e) (combine value codes)).
Proof.
  revert value. induction codes as [|c codes IH]; intros [|v value] H; cbn [map combine filter]; try reflexivity.
  cbn [snd]. assert (E : Nat.eqb (f c) k = (c =? e)).
  { specialize (H c (or_introl eq_refl)). destruct (Z.eqb_spec c e) as [He|He].
    - now apply H. - destruct (Nat.eqb (f c) k) eqn:Ek; [|reflexivity]. exfalso. apply He. now apply H. }
  rewrite E. assert (IH' := IH value (fun x Hx => H x (or_intror Hx))).
  destruct (c =? e); cbn [map]; [f_equal|]; exact IH'.
Qed.

Lemma filter_swap {V} (value : list V) (index : list (Z * Z)) w e :
  map fst (filter (fun vi => snd vi =? e) (combine value (map (fun rc => fst rc * w + snd rc) index))) =
  at_flat w index value e.
Proof.
  unfold at_flat. revert value. induction index as [|[r c] index IH]; intros [|v value]; cbn [map combine filter]; try reflexivity.
  cbn [fst snd]. destruct (r * w + c =? e); cbn [map]; [f_equal|]; apply IH.
Qed.

Lemma update_length {V} (l : list V) k f : length (update l k f) = length l.
Proof. revert k. induction l as [|v l IH]; intros [|k]; cbn [update length]; auto. Qed.
Lemma nth_update {V} (l : list V) k f p d : nth p (update l k f) d =
  if Nat.eqb p k then (if Nat.ltb p (length l) then f (nth p l d) else d) else nth p l d.
Proof.
  revert k p. induction l as [|v l IH]; intros [|k] [|p]; cbn [update nth length]; try reflexivity.
  - now destruct (Nat.eqb (S p) (S k)).
  - rewrite IH. cbn [Nat.eqb]. destruct (Nat.eqb p k); [|reflexivity].
    change (Nat.ltb (S p) (S (length l))) with (Nat.ltb p (length l)). reflexivity.
Qed.

Lemma at_flat_nil {V} w index (value : list V) p : length index = length value ->
  (at_flat w index value p = [] <-> ~ In p (map (fun rc => fst rc * w + snd rc) index)).
Proof.
  unfold at_flat. revert value. induction index as [|[r c] index IH]; intros [|v value] Hl; try discriminate Hl.
  - cbn. tauto.
  - cbn [combine filter map fst snd In]. injection Hl as Hl. specialize (IH value Hl).
    destruct (Z.eqb_spec (r * w + c) p) as [E|E]; cbn [map].
    + split; [discriminate|]. intros H. exfalso. apply H. now left.
    + rewrite IH. tauto.
Qed.

Section ScatterProofs.
Context {V : Type}.
Variables (zero : V) (add : V -> V -> V) (pool : list V -> V).

Definition put (N : Z) (G : Z -> V) (image : list V) (e : Z) : result (list V) :=
  if (0 <=? e) && (e <? N) then Ok (update image (Z.to_nat e) (fun old => add old (G e))) else Err IndexError.

Lemma scatter_as_put h w index (value : list V) : 0 < w ->
  scatter_nd_with_pool zero add pool h w index value =
  foldM (put (h * w) (fun e => pool (at_flat w index value e)))
    (unique_keys (map (fun rc => fst rc * w + snd rc) index)) (repeat zero (Z.to_nat (h * w))).
Proof.
  intros Hw. unfold scatter_nd_with_pool, scatter_nd.
  set (codes := map (fun rc => fst rc * w + snd rc) index).
  destruct (unique_keys_spec codes) as [N I]. set (keys := unique_keys codes) in *.
  assert (E : segment pool value (map (fun x => index_of x keys) codes) (length keys) =
              map (fun e => pool (at_flat w index value e)) keys).
  { rewrite (map_nth_keys (fun e => pool (at_flat w index value e)) keys). unfold segment, tabulate. apply map_ext_in. intros s Hs. apply in_seq in Hs.
    f_equal. rewrite <- filter_swap. apply filter_pair. intros x Hx. apply index_of_nth; [exact N|now apply I|lia]. }
  rewrite E, combine_maps. generalize (repeat zero (Z.to_nat (h * w))). clear N I E.
  induction keys as [|e keys IH]; intros image; [reflexivity|].
  cbn [map foldM]. unfold put at 1. cbn [fst snd].
  assert (B : (0 <=? e / w) && (e / w <? h) && (0 <=? e mod w) && (e mod w <? w) = (0 <=? e) && (e <? h * w)).
  { pose proof (Z.mod_pos_bound e w Hw) as Hm. pose proof (Z.div_mod e w ltac:(lia)) as Hd.
    apply eq_true_iff_eq. rewrite !andb_true_iff, !Z.leb_le, !Z.ltb_lt. split.
    - intros (((A & B) & _) & _). split; [nia|]. nia.
    - intros [A B]. repeat split; try lia; [apply Z.div_pos; lia|]. apply Z.div_lt_upper_bound; lia. }
  rewrite B. destruct ((0 <=? e) && (e <? h * w)); cbn [bind]; [|reflexivity].
  replace (e / w * w + e mod w) with e by (pose proof (Z.div_mod e w ltac:(lia)); lia). apply IH.
Qed.

Hypothesis add_zero : forall v, add zero v = v.

Lemma put_ok N G keys image im : foldM (put N G) keys image = Ok im -> forall e, In e keys -> 0 <= e < N.
Proof using. clear add_zero pool zero.
  revert image. induction keys as [|k keys IH]; intros image H e He; [destruct He|].
  cbn [foldM] in H. dbind H im1 E. unfold put in E.
  destruct ((0 <=? k) && (k <? N)) eqn:B; [|discriminate].
  destruct He as [<-|He]; [lia|]. exact (IH _ H e He).
Qed.

Lemma put_all N G keys : forall image, NoDup keys -> length image = Z.to_nat N ->
  (forall e, In e keys -> 0 <= e < N) ->
  (forall e, In e keys -> nth (Z.to_nat e) image zero = zero) ->
  exists im, foldM (put N G) keys image = Ok im /\ length im = length image /\
    forall p, 0 <= p < N -> (In p keys -> nth (Z.to_nat p) im zero = G p) /\
      (~ In p keys -> nth (Z.to_nat p) im zero = nth (Z.to_nat p) image zero).
Proof using add_zero. clear pool.
  induction keys as [|k keys IH]; intros image Hn Hl Hr Hz.
  - exists image. split; [reflexivity|]. split; [reflexivity|]. intros p Hp. split; [intros []|reflexivity].
  - inversion Hn as [|? ? Hk Hn']; subst. cbn [foldM]. unfold put at 1.
    pose proof (Hr k (or_introl eq_refl)) as Rk.
    replace ((0 <=? k) && (k <? N)) with true by lia. cbn [bind].
    set (image' := update image (Z.to_nat k) (fun old => add old (G k))).
    assert (L' : length image' = length image) by apply update_length.
    destruct (IH image' Hn' ltac:(rewrite L'; exact Hl) (fun e He => Hr e (or_intror He))) as (im & F & Lm & Hp).
    { intros e He. unfold image'. rewrite nth_update.
      destruct (Nat.eqb_spec (Z.to_nat e) (Z.to_nat k)) as [Ek|Ek].
      - exfalso. pose proof (Hr e (or_intror He)). assert (e = k) by lia. congruence.
      - apply Hz. now right. }
    exists im. split; [exact F|]. split; [congruence|]. intros p Rp. destruct (Hp p Rp) as [P1 P2].
    assert (Hi : nth (Z.to_nat p) image' zero = if p =? k then G k else nth (Z.to_nat p) image zero).
    { unfold image'. rewrite nth_update. destruct (Z.eqb_spec p k) as [->|Hne].
      - rewrite Nat.eqb_refl. replace (Nat.ltb _ _) with true by (symmetry; apply Nat.ltb_lt; lia).
        rewrite Hz by now left. apply add_zero.
      - replace (Nat.eqb _ _) with false by (symmetry; apply Nat.eqb_neq; lia). reflexivity. }
    split.
    + intros [->|Hin]; [|auto]. destruct (in_dec Z.eq_dec p keys) as [Hin|Hin]; [auto|].
      rewrite P2 by exact Hin. rewrite Hi, Z.eqb_refl. reflexivity.
    + intros Hni. rewrite P2 by (intros H; apply Hni; now right). rewrite Hi.
      destruct (Z.eqb_spec p k) as [->|]; [|reflexivity]. exfalso. apply Hni. now left.
Qed.

Theorem scatter_flat h w index (value : list V) : 0 <= h -> 0 < w -> length index = length value ->
  match scatter_nd_with_pool zero add pool h w index value with
  | Ok im => (forall rc, In rc index -> 0 <= fst rc * w + snd rc < h * w) /\
      length im = Z.to_nat (h * w) /\
      forall p, 0 <= p < h * w -> nth (Z.to_nat p) im zero =
        match at_flat w index value p with [] => zero | l => pool l end
  | Err _ => exists rc, In rc index /\ ~ 0 <= fst rc * w + snd rc < h * w
  end.
Proof using add_zero.
  intros Hh Hw Hl. rewrite scatter_as_put by exact Hw.
  set (codes := map (fun rc => fst rc * w + snd rc) index).
  destruct (unique_keys_spec codes) as [Nk Ik]. set (keys := unique_keys codes) in *.
  set (G := fun e => pool (at_flat w index value e)).
  assert (Hc : forall e, In e codes <-> exists rc, In rc index /\ fst rc * w + snd rc = e).
  { intros e. unfold codes. rewrite in_map_iff. split; intros (rc & A & B); exists rc; auto. }
  destruct (foldM (put (h * w) G) keys (repeat zero (Z.to_nat (h * w)))) as [im|x] eqn:F.
  - assert (Hr := put_ok _ _ _ _ _ F).
    destruct (put_all (h * w) G keys (repeat zero (Z.to_nat (h * w))) Nk (repeat_length _ _) Hr) as (im' & F' & L & P).
    { intros e _. apply nth_repeat. }
    rewrite F in F'. apply Ok_inj in F'. subst im'. rewrite repeat_length in L.
    split; [|split; [exact L|]].
    + intros rc Hrc. apply Hr. apply Ik, Hc. eauto.
    + intros p Hp. destruct (P p Hp) as [P1 P2].
      pose proof (at_flat_nil w index value p Hl) as Hnil.
      destruct (at_flat w index value p) as [|v l] eqn:Ea.
      * rewrite P2; [apply nth_repeat|]. rewrite Ik. now apply Hnil.
      * rewrite P1; [unfold G; now rewrite Ea|]. apply Ik. destruct (in_dec Z.eq_dec p codes) as [H|H]; [exact H|].
        exfalso. apply Hnil in H. discriminate.
  - destruct (Forall_Exists_dec (fun rc => 0 <= fst rc * w + snd rc < h * w)
       ltac:(intros rc; destruct (Z_le_dec 0 (fst rc * w + snd rc)); [destruct (Z_lt_dec (fst rc * w + snd rc) (h * w))|]; [left|right|right]; lia) index) as [A|E].
    + exfalso. rewrite Forall_forall in A.
      destruct (put_all (h * w) G keys (repeat zero (Z.to_nat (h * w))) Nk (repeat_length _ _)) as (im' & F' & _).
      { intros e He. apply Ik, Hc in He. destruct He as (rc & Hrc & <-). now apply A. }
      { intros e _. apply nth_repeat. }
      congruence.
    + apply Exists_exists in E. exact E.
Qed.
End ScatterProofs.

Lemma at_flat_pixel {V} h w index (value : list V) r c : Forall (in_image h w) index -> 0 <= c < w ->
  at_flat w index value (r * w + c) = at_pixel index value (r, c).
Proof.
  intros HF Hc. unfold at_flat, at_pixel. f_equal. revert value.
  induction HF as [|[r' c'] index Hi HF IH]; intros [|v value]; cbn [combine filter]; try reflexivity.
  cbn [fst snd]. destruct Hi as [_ Hi]. cbn [snd] in Hi.
  replace (r' * w + c' =? r * w + c) with ((r' =? r) && (c' =? c)); [now rewrite (IH value)|].
  apply eq_true_iff_eq. rewrite andb_true_iff, !Z.eqb_eq. split; [intros [-> ->]; lia|].
  intros H. assert (r' = r) by nia. lia.
Qed.

Theorem scatter_pixels {V} (zero : V) add pool h w index (value : list V) :
  (forall v, add zero v = v) -> 0 <= h -> 0 < w -> length index = length value -> Forall (in_image h w) index ->
  exists im, scatter_nd_with_pool zero add pool h w index value = Ok im /\ length im = Z.to_nat (h * w) /\
    forall r c, in_image h w (r, c) -> nth (Z.to_nat (r * w + c)) im zero =
      match at_pixel index value (r, c) with [] => zero | l => pool l end.
Proof.
  intros Hz Hh Hw Hl HF. pose proof (scatter_flat zero add pool Hz h w index value Hh Hw Hl) as H.
  destruct (scatter_nd_with_pool zero add pool h w index value) as [im|x].
  - destruct H as (_ & L & P). exists im. split; [reflexivity|]. split; [exact L|].
    intros r c [Hr Hc]. cbn [fst snd] in Hr, Hc. rewrite P by nia. rewrite (at_flat_pixel h) by assumption. reflexivity.
  - exfalso. destruct H as (rc & Hin & Hn). rewrite Forall_forall in HF. destruct (HF rc Hin) as [A B]. apply Hn. nia.
Qed.

(** ** The image of a point cloud *)
Lemma fold_min_least l : forall a, least (fold_left Z.min l a) (a :: l).
Proof.
  induction l as [|b l IH]; intros a; cbn [fold_left].
  - split; [now left|]. intros y [<-|[]]. lia.
  - destruct (IH (Z.min a b)) as [H1 H2]. split.
    + destruct H1 as [H1|H1]; [|right; now right]. rewrite <- H1.
      destruct (Z.min_spec a b) as [[_ ->]|[_ ->]]; [now left|right; now left].
    + assert (Hm : fold_left Z.min l (Z.min a b) <= Z.min a b) by (apply H2; now left).
      intros y [<-|[<-|Hy]]; [lia|lia|]. apply H2. now right.
Qed.

Lemma fold_min3 l : forall a, fold_left min3 l a =
  (fold_left Z.min (map (fun v => fst (fst v)) l) (fst (fst a)),
   fold_left Z.min (map (fun v => snd (fst v)) l) (snd (fst a)),
   fold_left Z.min (map snd l) (snd a)).
Proof.
  induction l as [|[[b1 b2] b3] l IH]; intros [[a1 a2] a3]; cbn [fold_left map]; [reflexivity|].
  rewrite IH. reflexivity.
Qed.

Lemma pool_min3_least l : l <> [] -> exists m1 m2 m3, pool_min3 l = (m1, m2, m3) /\
  least m1 (map (fun v => fst (fst v)) l) /\ least m2 (map (fun v => snd (fst v)) l) /\ least m3 (map snd l).
Proof.
  destruct l as [|a l]; [congruence|]. intros _. cbn [pool_min3]. rewrite fold_min3.
  do 3 eexists. split; [reflexivity|]. cbn [map]. repeat split; apply fold_min_least.
Qed.

Lemma at_pixel_Forall2 {V W} (R : V -> W -> Prop) index rc l l' : Forall2 R l l' ->
  Forall2 R (at_pixel index l rc) (at_pixel index l' rc).
Proof.
  intros H. unfold at_pixel. revert index. induction H as [|v v' l l' Hv H IH]; intros [|i index]; cbn [combine filter]; try constructor.
  cbn [fst]. destruct (_ && _); cbn [map]; [constructor; [exact Hv|]|]; apply IH.
Qed.

Lemma Forall2_firstn {A B} (R : A -> B -> Prop) n l l' : Forall2 R l l' -> Forall2 R (firstn n l) (firstn n l').
Proof.
  intros H. revert n. induction H as [|a b l l' Hab H IH]; intros [|n]; rewrite ?firstn_nil, ?firstn_O, ?firstn_cons; constructor; auto.
Qed.

Lemma forall2_in_r {A B} (R : A -> B -> Prop) l l' : Forall2 R l l' -> forall b, In b l' -> exists a, In a l /\ R a b.
Proof.
  induction 1 as [|a b l l' Hab H IH]; intros y Hy; [destruct Hy|].
  destruct Hy as [<-|Hy]; [exists a; split; [now left|exact Hab]|].
  destruct (IH y Hy) as (x & Hx & Hr). exists x. split; [now right|exact Hr].
Qed.
Lemma forall2_in_l {A B} (R : A -> B -> Prop) l l' : Forall2 R l l' -> forall a, In a l -> exists b, In b l' /\ R a b.
Proof.
  induction 1 as [|a b l l' Hab H IH]; intros y Hy; [destruct Hy|].
  destruct Hy as [<-|Hy]; [exists b; split; [now left|exact Hab]|].
  destruct (IH y Hy) as (x & Hx & Hr). exists x. split; [now right|exact Hr].
Qed.

Definition frange (p : Q * Z * Q) : Q := fst (fst p).
Definition fint (p : Q * Z * Q) : Z := snd (fst p).
Definition felong (p : Q * Z * Q) : Q := snd p.
Definition kr (p : Q * Z * Q) : Z := Qfloor (frange p / range_to_meters).
Definition ke (p : Q * Z * Q) : Z := Qfloor (felong p / range_to_meters).
Definition kb (p : Q * Z * Q) : Z := fint p / 65536.
Definition encodable (p : Q * Z * Q) : Prop :=
  (0 <= frange p)%Q /\ 0 <= fint p < 2 ^ 32 /\ (0 <= felong p)%Q /\ (felong p <= inject_Z 255 * range_to_meters)%Q.

Lemma pixel_features pts (vals : list (Z * Z * Z)) : pts <> [] ->
  Forall2 (fun p v => encodable p /\ v = (kr p, pack (kr p) (kb p), pack (kr p) (ke p))) pts vals ->
  exists k b e, decode_lidar_feature (pool_min3 vals) = (decode_meters k, b * 65536, decode_meters e) /\
    least k (map kr pts) /\
    least b (map kb (filter (fun p => kr p =? k) pts)) /\
    least e (map ke (filter (fun p => kr p =? k) pts)).
Proof.
  intros Hne HF.
  assert (Hv : vals <> []) by (destruct HF; [congruence|discriminate]).
  destruct (pool_min3_least vals Hv) as (m1 & m2 & m3 & E & L1 & L2 & L3). rewrite E.
  assert (Ev : vals = map (fun p => (kr p, pack (kr p) (kb p), pack (kr p) (ke p))) pts).
  { clear - HF. induction HF as [|p v l l' [_ ->] HF IH]; [reflexivity|]. cbn [map]. now rewrite IH. }
  assert (Hen : forall p, In p pts -> encodable p).
  { intros p Hp. destruct (forall2_in_l _ _ _ HF p Hp) as (v & _ & H & _). exact H. }
  rewrite Ev in L1, L2, L3. rewrite map_map in L1, L2, L3. cbn [fst snd] in L1, L2, L3.
  change (map (fun x => kr x) pts) with (map kr pts) in L1.
  assert (Hb : forall p, In p pts -> 0 <= kb p < 65536).
  { intros p Hp. apply short_code. apply (Hen p Hp). }
  assert (Hel : forall p, In p pts -> 0 <= ke p < 256).
  { intros p Hp. destruct (Hen p Hp) as (_ & _ & A & B). apply byte_code; assumption. }
  assert (K : forall (f : Q * Z * Q -> Z) m, (forall p, In p pts -> 0 <= f p < 65536) ->
    least m (map (fun p => pack (kr p) (f p)) pts) ->
    exists b, m = pack m1 b /\ least b (map f (filter (fun p => kr p =? m1) pts))).
  { intros f m Hf [Hin Hle]. apply in_map_iff in Hin. destruct Hin as (p & Ep & Hp).
    destruct L1 as [H1 H1']. apply in_map_iff in H1. destruct H1 as (q & Eq & Hq).
    assert (Kp : kr p = m1).
    { assert (A : m1 <= kr p) by (apply H1', in_map, Hp).
      assert (B : m <= pack (kr q) (f q)) by (apply (Hle _); apply (in_map (fun p => pack (kr p) (f p)) pts q Hq)).
      pose proof (Hf p Hp). pose proof (Hf q Hq). unfold pack in *. lia. }
    exists (f p). split; [rewrite <- Ep, Kp; reflexivity|]. split.
    - apply in_map. apply filter_In. split; [exact Hp|]. now apply Z.eqb_eq.
    - intros y Hy. apply in_map_iff in Hy. destruct Hy as (p' & <- & Hp'). apply filter_In in Hp'.
      destruct Hp' as [Hp' Ek]. apply Z.eqb_eq in Ek.
      assert (B : m <= pack (kr p') (f p')) by (apply Hle; apply (in_map (fun p => pack (kr p) (f p)) pts p' Hp')).
      unfold pack in *. lia. }
  destruct (K kb m2 Hb L2) as (b & -> & Lb).
  destruct (K ke m3 ltac:(intros p Hp; pose proof (Hel p Hp); lia) L3) as (e & -> & Le).
  exists m1, b, e. split; [|auto].
  apply decode_packed.
  - destruct Lb as [Hin _]. apply in_map_iff in Hin. destruct Hin as (p & <- & Hp). apply filter_In in Hp. now apply Hb.
  - destruct Le as [Hin _]. apply in_map_iff in Hin. destruct Hin as (p & <- & Hp). apply filter_In in Hp. now apply Hel.
Qed.

Lemma steps_kr p k : (0 <= frange p)%Q -> (steps (frange p) k <-> kr p = k).
Proof.
  intros H. pose proof (floor_steps _ H) as S. fold (kr p) in S. split; [|intros <-; exact S].
  intros S'. exact (steps_unique _ _ _ S S').
Qed.

Lemma decode_zero : decode_lidar_feature (0, 0, 0) = ((inject_Z 0 * resolution)%Q, 0, (inject_Z 0 * resolution)%Q).
Proof. reflexivity. Qed.

Theorem build_image_pixels h w index feature n im :
  0 <= h -> 0 < w -> length index = length feature -> Forall (in_image h w) (firstn n index) ->
  (forall p, In p feature -> 0 <= snd (fst p) < 2 ^ 32) ->
  build_image h w index feature n = Ok im ->
  length im = Z.to_nat (h * w) /\
  forall r c d, in_image h w (r, c) ->
    let pts := at_pixel (firstn n index) (firstn n feature) (r, c) in
    let px := nth (Z.to_nat (r * w + c)) im d in
    (pts = [] -> px = ((inject_Z 0 * resolution)%Q, 0, (inject_Z 0 * resolution)%Q)) /\
    (pts <> [] -> exists k b e,
       px = ((inject_Z k * resolution)%Q, b * 65536, (inject_Z e * resolution)%Q) /\
       (forall p, In p pts -> (inject_Z k * resolution <= fst (fst p))%Q) /\
       (exists p, In p pts /\ steps (fst (fst p)) k /\ snd (fst p) / 65536 = b) /\
       (exists p, In p pts /\ steps (fst (fst p)) k /\ steps (snd p) e) /\
       (forall p, In p pts -> steps (fst (fst p)) k -> b <= snd (fst p) / 65536 /\ (inject_Z e * resolution <= snd p)%Q)).
Proof.
  intros Hh Hw Hl HF Hint H. unfold build_image in H. dbind H vs Ev. dbind H img Ei. apply Ok_inj in H. subst im.
  unfold encode_lidar_features in Ev. apply mapM_inv in Ev.
  assert (Lv : length vs = length feature) by (symmetry; exact (forall2_length _ _ _ Ev)).
  destruct (scatter_pixels (0, 0, 0) add3 pool_min3 h w (firstn n index) (firstn n vs)) as (im' & E' & L & P); try assumption.
  { intros [[a b] c]. reflexivity. }
  { rewrite !firstn_length. lia. }
  rewrite Ei in E'. apply Ok_inj in E'. subst im'.
  split; [rewrite map_length; exact L|]. intros r c d Hrc pts px.
  assert (Epx : px = decode_lidar_feature (nth (Z.to_nat (r * w + c)) img (0, 0, 0))).
  { unfold px. rewrite (ListLib.nth_map _ _ _ (0, 0, 0)); [reflexivity|]. rewrite L. destruct Hrc as [A B]. cbn [fst snd] in A, B. nia. }
  rewrite (P r c Hrc) in Epx. clear P.
  assert (F : Forall2 (fun p v => encodable p /\ v = (kr p, pack (kr p) (kb p), pack (kr p) (ke p)))
                pts (at_pixel (firstn n index) (firstn n vs) (r, c))).
  { apply at_pixel_Forall2, Forall2_firstn.
    assert (G : forall l l', (forall p, In p l -> 0 <= snd (fst p) < 2 ^ 32) -> Forall2 (fun a b => encode_lidar_feature a = Ok b) l l' ->
      Forall2 (fun p v => encodable p /\ v = (kr p, pack (kr p) (kb p), pack (kr p) (ke p))) l l').
    { clear. intros l l' Hi F. induction F as [|p v l l' Hp F IH]; constructor.
      - destruct p as [[a b] e]. pose proof (Hi _ (or_introl eq_refl)) as Hb. cbn [fst snd] in Hb.
        apply (encode_ok a b e v Hb) in Hp. destruct Hp as (A & B & C & D & ->).
        split; [|reflexivity]. unfold encodable, frange, fint, felong. cbn [fst snd]. auto.
      - apply IH. intros q Hq. apply Hi. now right. }
    apply G; assumption. }
  split.
  - intros Hn. rewrite Hn in F. assert (Hv : at_pixel (firstn n index) (firstn n vs) (r, c) = []) by (inversion F; reflexivity). rewrite Hv in Epx. exact Epx.
  - intros Hn. destruct (pixel_features pts _ Hn F) as (k & b & e & D & Lk & Lb & Le).
    assert (Hen : forall p, In p pts -> encodable p).
    { intros p Hp. destruct (forall2_in_l _ _ _ F p Hp) as (v & _ & H & _). exact H. }
    exists k, b, e. split.
    { rewrite Epx. destruct (at_pixel (firstn n index) (firstn n vs) (r, c)) as [|v l]; [inversion F; congruence|].
      rewrite D. reflexivity. }
    split; [|split; [|split]].
    + intros p Hp. destruct Lk as [_ Lk]. pose proof (Lk _ (in_map kr _ _ Hp)) as Hk.
      destruct (Hen p Hp) as (A & _). pose proof (floor_steps _ A) as [S _]. fold (kr p) in S.
      apply Qle_trans with (inject_Z (kr p) * resolution)%Q; [|exact S].
      apply Qmult_le_compat_r; [rewrite <- Zle_Qle; exact Hk|discriminate].
    + destruct Lb as [Hin _]. apply in_map_iff in Hin. destruct Hin as (p & Ep & Hp). apply filter_In in Hp.
      destruct Hp as [Hp Ek]. apply Z.eqb_eq in Ek. exists p. split; [exact Hp|]. split; [|exact Ep].
      apply steps_kr; [apply (Hen p Hp)|exact Ek].
    + destruct Le as [Hin _]. apply in_map_iff in Hin. destruct Hin as (p & Ep & Hp). apply filter_In in Hp.
      destruct Hp as [Hp Ek]. apply Z.eqb_eq in Ek. exists p. split; [exact Hp|]. split.
      * apply steps_kr; [apply (Hen p Hp)|exact Ek].
      * rewrite <- Ep. apply floor_steps. apply (Hen p Hp).
    + intros p Hp Hs. destruct (Hen p Hp) as (A & _ & B & _). apply steps_kr in Hs; [|exact A].
      assert (Hf : In p (filter (fun p => kr p =? k) pts)) by (apply filter_In; split; [exact Hp|now apply Z.eqb_eq]).
      split; [apply Lb, (in_map kb _ _ Hf)|].
      destruct Le as [_ Le]. pose proof (Le _ (in_map ke _ _ Hf)) as H. pose proof (floor_steps _ B) as [S _]. fold (ke p) in S.
      apply Qle_trans with (inject_Z (ke p) * resolution)%Q; [|exact S].
      apply Qmult_le_compat_r; [rewrite <- Zle_Qle; exact H|discriminate].
Qed.

Theorem build_image_nearest h w index feature n im :
  0 <= h -> 0 < w -> length index = length feature -> Forall (in_image h w) (firstn n index) ->
  (forall p, In p feature -> 0 <= snd (fst p) < 2 ^ 32) ->
  build_image h w index feature n = Ok im ->
  forall r c d p, in_image h w (r, c) ->
    In p (at_pixel (firstn n index) (firstn n feature) (r, c)) ->
    (forall q, In q (at_pixel (firstn n index) (firstn n feature) (r, c)) ->
       q = p \/ (fst (fst p) + resolution <= fst (fst q))%Q) ->
    exists k e, steps (fst (fst p)) k /\ steps (snd p) e /\
      nth (Z.to_nat (r * w + c)) im d =
        ((inject_Z k * resolution)%Q, snd (fst p) / 65536 * 65536, (inject_Z e * resolution)%Q).
Proof.
  intros Hh Hw Hl HF Hint H r c d p Hrc Hp Hsep.
  destruct (build_image_pixels h w index feature n im Hh Hw Hl HF Hint H) as [_ P].
  destruct (P r c d Hrc) as [_ Q]. destruct Q as (k & b & e & E & Hk & (p1 & I1 & S1 & B1) & (p2 & I2 & S2 & E2) & _).
  { intros Hn. rewrite Hn in Hp. destruct Hp. }
  assert (U : forall q, In q (at_pixel (firstn n index) (firstn n feature) (r, c)) -> steps (fst (fst q)) k -> q = p).
  { intros q Hq [_ S]. destruct (Hsep q Hq) as [->|Hd]; [reflexivity|exfalso].
    pose proof (Hk p Hp) as A. rewrite inject_Z_plus in S.
    assert (X : ((inject_Z k + inject_Z 1) * resolution == inject_Z k * resolution + resolution)%Q) by (change (inject_Z 1) with 1%Q; ring).
    rewrite X in S. lra. }
  pose proof (U p1 I1 S1) as ->. pose proof (U p2 I2 S2) as ->.
  exists k, e. split; [exact S1|]. split; [exact E2|]. rewrite E, B1. reflexivity.
Qed.

Lemma mapM_is_ok {A B} (f : A -> result B) l : is_ok (mapM f l) = forallb (fun a => is_ok (f a)) l.
Proof.
  induction l as [|a l IH]; [reflexivity|]. cbn [mapM forallb]. destruct (f a); cbn [bind is_ok andb]; [|reflexivity].
  rewrite <- IH. destruct (mapM f l); reflexivity.
Qed.

Theorem build_image_defined h w index feature n :
  0 <= h -> 0 < w -> length index = length feature -> Forall (in_image h w) (firstn n index) ->
  (is_ok (build_image h w index feature n) = true <->
   forall p, In p feature -> (0 <= fst (fst p) <= inject_Z 65535 * resolution)%Q /\ (0 <= snd p <= inject_Z 255 * resolution)%Q).
Proof.
  intros Hh Hw Hl HF. unfold build_image, encode_lidar_features.
  assert (A : is_ok (mapM encode_lidar_feature feature) = true <-> forall p, In p feature -> (0 <= fst (fst p) <= inject_Z 65535 * resolution)%Q /\ (0 <= snd p <= inject_Z 255 * resolution)%Q).
  { rewrite mapM_is_ok, forallb_forall. split; intros H [[r b] e] Hp; cbn [fst snd].
    - apply (encode_defined r b e). now apply H. - apply encode_defined. exact (H _ Hp). }
  rewrite <- A. clear A. destruct (mapM encode_lidar_feature feature) as [value|] eqn:Ev; cbn [bind is_ok]; [|tauto].
  apply mapM_length in Ev.
  destruct (scatter_pixels (0, 0, 0) add3 pool_min3 h w (firstn n index) (firstn n value)) as (im' & E' & _); try assumption.
  { intros [[a b] c]. reflexivity. } { rewrite !firstn_length. lia. }
  rewrite E'. cbn [bind is_ok]. tauto.
Qed.

Theorem mixed_features : exists index feature im,
  build_image 1 1 index feature (length index) = Ok im /\
  length index = length feature /\ Forall (in_image 1 1) index /\
  ~ In (nth 0 im (0%Q, 0, 0%Q)) (map decode_lidar_feature (match encode_lidar_features feature with Ok l => l | Err _ => [] end)).
Proof.
  exists [(0, 0); (0, 0)], [(1%Q, 65536, 1%Q); (1%Q, 131072, 0%Q)].
  destruct (build_image 1 1 [(0, 0); (0, 0)] [(1%Q, 65536, 1%Q); (1%Q, 131072, 0%Q)] (length [(0, 0); (0, 0)])) as [im|] eqn:E.
  - exists im. split; [reflexivity|]. vm_compute in E. apply Ok_inj in E. subst im.
    split; [reflexivity|]. split; [repeat constructor; cbn; lia|].
    vm_compute. intros [H|[H|[]]]; discriminate H.
  - vm_compute in E. discriminate E.
Qed.

(** ** Azimuth to column *)
Lemma round_bounds q : (q - (1 # 2) <= inject_Z (round_half_even q) <= q + (1 # 2))%Q.
Proof. pose proof (round_error q) as H. apply Qabs_Qle_condition in H. lra. Qed.

Lemma round_tie q z : (q == inject_Z z + (1 # 2))%Q -> round_half_even q = if Z.even z then z else z + 1.
Proof.
  intros E. pose proof (round_bounds q) as [A B]. destruct (round_half_even_spec q) as [H|[_ Hev]].
  - exfalso. set (k := round_half_even q) in *. apply Qabs_Qlt_condition in H. destruct H as [H1 H2].
    rewrite E in H1, H2. assert (X : (inject_Z z < inject_Z k)%Q) by lra. assert (Y : (inject_Z k < inject_Z z + 1)%Q) by lra.
    change 1%Q with (inject_Z 1) in Y. rewrite <- inject_Z_plus in Y. rewrite <- Zlt_Qlt in X, Y. lia.
  - set (k := round_half_even q) in *. rewrite E in A, B.
    assert (X : (inject_Z z <= inject_Z k)%Q) by lra. assert (Y : (inject_Z k <= inject_Z z + 1)%Q) by lra.
    change 1%Q with (inject_Z 1) in Y. rewrite <- inject_Z_plus in Y. rewrite <- Zle_Qle in X, Y.
    assert (K : k = z \/ k = z + 1) by lia. destruct K as [K|K]; rewrite K in *.
    + now rewrite Hev.
    + rewrite Z.even_add in Hev. destruct (Z.even z); [discriminate|reflexivity].
Qed.

Lemma round_mono q q' : (q <= q')%Q -> round_half_even q <= round_half_even q'.
Proof.
  intros H. destruct (Z.le_gt_cases (round_half_even q) (round_half_even q')) as [L|G]; [exact L|exfalso].
  pose proof (round_bounds q) as [A B]. pose proof (round_bounds q') as [A' B'].
  assert (Hz : round_half_even q' + 1 <= round_half_even q) by lia.
  rewrite Zle_Qle in Hz. rewrite inject_Z_plus in Hz. change (inject_Z 1) with 1%Q in Hz.
  assert (E : (q == q')%Q) by lra.
  assert (E2 : (q' == inject_Z (round_half_even q') + (1 # 2))%Q) by lra.
  pose proof (round_tie _ _ E2) as T'. rewrite E2 in E. pose proof (round_tie _ _ E) as T. rewrite T in G. rewrite <- T' in G. lia.
Qed.

Section Column.
Variables (pi : Q) (w : Z).
Hypothesis Hpi : (0 < pi)%Q.
Hypothesis Hw : 0 < w.

Let u (az : Q) : Q := ((az + pi) / (2 * pi))%Q.
Let x (az : Q) : Q := (inject_Z w - 1 + (1 # 2) - u az * inject_Z w)%Q.

Lemma wq : (0 < inject_Z w)%Q.
Proof. change 0%Q with (inject_Z 0). rewrite <- Zlt_Qlt. exact Hw. Qed.

Lemma u_az az : (u az * (2 * pi) == az + pi)%Q.
Proof. unfold u. field. lra. Qed.

Lemma x_az az : ((inject_Z w - (1 # 2) - x az) * (2 * pi) == (az + pi) * inject_Z w)%Q.
Proof. unfold x. transitivity (u az * (2 * pi) * inject_Z w)%Q; [ring|]. now rewrite u_az. Qed.

Lemma u_bounds az : (- pi <= az <= pi)%Q -> (0 <= u az <= 1)%Q.
Proof.
  intros [A B]. unfold u. split.
  - apply Qle_shift_div_l; lra. - apply Qle_shift_div_r; lra.
Qed.

Lemma column_inside az : (- pi < az <= pi)%Q -> 0 <= column pi w az < w.
Proof.
  intros [A B]. unfold column. fold (u az). fold (x az). pose proof wq as Wq.
  assert (U : (0 < u az <= 1)%Q) by (unfold u; split; [apply Qlt_shift_div_l; lra|apply Qle_shift_div_r; lra]).
  assert (X : (- (1 # 2) <= x az < inject_Z w - (1 # 2))%Q).
  { unfold x. split.
    - assert (u az * inject_Z w <= 1 * inject_Z w)%Q by (apply Qmult_le_compat_r; lra). lra.
    - assert (0 < u az * inject_Z w)%Q by (apply Qmult_lt_0_compat; lra). lra. }
  clearbody x. pose proof (round_bounds (x az)) as [R1 R2]. set (k := round_half_even (x az)) in *. split.
  - assert (Hk : (inject_Z (-1) <= inject_Z k)%Q) by (change (inject_Z (-1)) with (- (1))%Q; lra).
    rewrite <- Zle_Qle in Hk. destruct (Z.eq_dec k (-1)) as [Ek|]; [|lia]. exfalso.
    assert (T : (x az == inject_Z (-1) + (1 # 2))%Q).
    { rewrite Ek in R1. change (inject_Z (-1)) with (- (1))%Q in *. lra. }
    pose proof (round_tie _ _ T) as H. unfold k in Ek. rewrite Ek in H. discriminate H.
  - assert (Hk : (inject_Z k < inject_Z w)%Q) by lra. rewrite <- Zlt_Qlt in Hk. exact Hk.
Qed.

Lemma column_comp az az' : (az == az')%Q -> column pi w az = column pi w az'.
Proof. intros E. apply Z.le_antisymm; apply round_mono; rewrite E; apply Qle_refl. Qed.

Lemma column_seam az : (az == - pi)%Q -> column pi w az = if Z.even w then w else w - 1.
Proof.
  intros E. unfold column. fold (u az). fold (x az).
  assert (T : (x az == inject_Z (w - 1) + (1 # 2))%Q).
  { unfold x. assert (Z : (u az == 0)%Q) by (unfold u; rewrite E; field; lra). rewrite Z.
    unfold Z.sub. rewrite inject_Z_plus. change (inject_Z (- (1))) with (- (1))%Q. ring. }
  rewrite (round_tie _ _ T). replace (w - 1 + 1) with w by lia.
  replace (w - 1) with (w + -1) by lia. rewrite Z.even_add. change (Z.even (-1)) with false.
  destruct (Z.even w); reflexivity.
Qed.

Lemma checked_column_spec az : (- pi <= az <= pi)%Q ->
  (is_ok (checked_column pi w az) = false <-> (az == - pi)%Q /\ Z.even w = true).
Proof.
  intros [A B]. unfold checked_column. destruct (Qlt_le_dec (- pi) az) as [L|L].
  - pose proof (column_inside az (conj L B)) as H. replace (_ && _) with true by lia. cbn [is_ok]. split; [discriminate|].
    intros [E _]. lra.
  - assert (E : (az == - pi)%Q) by lra. rewrite (column_seam az E). destruct (Z.even w).
    + replace (_ && _) with false by lia. cbn [is_ok]. tauto.
    + replace (_ && _) with true by lia. cbn [is_ok]. split; [discriminate|]. intros [_ H]. discriminate.
Qed.

Lemma column_nearest az : (Qabs (az - centre pi w (column pi w az)) <= pi / inject_Z w)%Q.
Proof.
  pose proof wq as Wq. unfold column. fold (u az). fold (x az). pose proof (round_error (x az)) as R.
  set (k := round_half_even (x az)) in *.
  assert (E : (az - centre pi w k == - ((x az - inject_Z k) * (2 * pi / inject_Z w)))%Q).
  { assert (X := x_az az).
    assert (Y : (az == (inject_Z w - (1 # 2) - x az) * (2 * pi) / inject_Z w - pi)%Q).
    { rewrite X. field. lra. }
    transitivity ((inject_Z w - (1 # 2) - x az) * (2 * pi) / inject_Z w - pi - centre pi w k)%Q.
    - unfold Qminus. apply Qplus_comp; [exact Y|reflexivity].
    - unfold centre. field. lra. }
  rewrite E, Qabs_opp, Qabs_Qmult.
  assert (P : (0 < 2 * pi / inject_Z w)%Q) by (apply Qlt_shift_div_l; lra).
  rewrite (Qabs_pos (2 * pi / inject_Z w)) by lra.
  apply Qle_trans with ((1 # 2) * (2 * pi / inject_Z w))%Q.
  - apply Qmult_le_compat_r; lra.
  - apply Qle_lteq. right. field. lra.
Qed.

Lemma column_antitone az az' : (az <= az')%Q -> column pi w az' <= column pi w az.
Proof.
  intros H. apply round_mono. fold (u az) (u az'). pose proof wq as Wq.
  assert (U : (u az <= u az')%Q).
  { unfold u. unfold Qdiv. apply Qmult_le_compat_r; [lra|]. apply Qlt_le_weak, Qinv_lt_0_compat. lra. }
  assert (u az * inject_Z w <= u az' * inject_Z w)%Q by (apply Qmult_le_compat_r; lra). lra.
Qed.

Lemma column_centre c : column pi w (centre pi w c) = c.
Proof.
  unfold column. apply round_half_even_int. unfold centre. pose proof wq. field. lra.
Qed.

Lemma centre_inside c : 0 <= c < w -> (- pi < centre pi w c < pi)%Q.
Proof.
  intros Hc. unfold centre. pose proof wq as Wq.
  assert (A : (0 <= inject_Z c)%Q) by (change 0%Q with (inject_Z 0); rewrite <- Zle_Qle; lia).
  assert (B : (inject_Z c + 1 <= inject_Z w)%Q) by (change 1%Q with (inject_Z 1); rewrite <- inject_Z_plus, <- Zle_Qle; lia).
  assert (M : ((2 * inject_Z c + 1) * pi / inject_Z w < 2 * pi)%Q).
  { apply Qlt_shift_div_r; [exact Wq|].
    assert (((2 * inject_Z c + 1) * pi < (2 * inject_Z w) * pi)%Q) by (apply Qmult_lt_compat_r; lra). lra. }
  assert (N : (0 < (2 * inject_Z c + 1) * pi / inject_Z w)%Q).
  { apply Qlt_shift_div_l; [exact Wq|].
    assert (0 < (2 * inject_Z c + 1) * pi)%Q by (apply Qmult_lt_0_compat; lra). lra. }
  lra.
Qed.
End Column.

Lemma fold_azimuth_spec pi az : (0 < pi)%Q -> (- (2 * pi) <= az <= 2 * pi)%Q ->
  (- pi <= fold_azimuth pi az <= pi)%Q /\ same_direction pi (fold_azimuth pi az) az.
Proof.
  intros Hpi [A B]. unfold fold_azimuth, same_direction.
  destruct (Qle_bool az pi) eqn:E1; [apply Qle_bool_iff in E1|apply qle_false in E1];
  (destruct (Qle_bool (- pi) az) eqn:E2; [apply Qle_bool_iff in E2|apply qle_false in E2]); cbn [negb]; try (exfalso; lra).
  - split; [lra|]. exists 0. change (inject_Z 0) with 0%Q. ring.
  - split; [lra|]. exists 1. change (inject_Z 1) with 1%Q. ring.
  - split; [lra|]. exists (-1). change (inject_Z (-1)) with (-1)%Q. ring.
Qed.

Lemma column_azimuth_centre pi w corr c : 0 < w -> (column_azimuth pi w corr c == centre pi w c - corr)%Q.
Proof.
  intros Hw. unfold column_azimuth, centre. unfold Z.sub. rewrite inject_Z_plus, inject_Z_opp.
  assert (0 < inject_Z w)%Q by (change 0%Q with (inject_Z 0); rewrite <- Zlt_Qlt; exact Hw). field. lra.
Qed.

Theorem azimuth_round_trip pi w corr az c : (0 < pi)%Q -> 0 < w -> 0 <= c < w ->
  (- pi <= corr <= pi)%Q -> (- pi <= az <= pi)%Q -> same_direction pi az (column_azimuth pi w corr c) ->
  checked_column pi w (fold_azimuth pi (az + corr)) = Ok c.
Proof.
  intros Hpi Hw Hc Hcorr Haz [k Hk]. rewrite (column_azimuth_centre pi w corr c Hw) in Hk.
  destruct (fold_azimuth_spec pi (az + corr) Hpi) as [[A B] [j Hj]]; [lra|].
  pose proof (centre_inside pi w Hpi Hw c Hc) as [C D].
  set (f := fold_azimuth pi (az + corr)) in *.
  assert (E : (f == centre pi w c + inject_Z (k + j) * (2 * pi))%Q) by (rewrite Hj, Hk, inject_Z_plus; ring).
  assert (Z0 : k + j = 0).
  { assert (L : (inject_Z (k + j) * (2 * pi) < inject_Z 1 * (2 * pi))%Q) by (change (inject_Z 1) with 1%Q; lra).
    assert (G : (inject_Z (-1) * (2 * pi) < inject_Z (k + j) * (2 * pi))%Q) by (change (inject_Z (-1)) with (-1)%Q; lra).
    rewrite Qmult_lt_r in L, G by lra. rewrite <- Zlt_Qlt in L, G. lia. }
  rewrite Z0 in E. change (inject_Z 0) with 0%Q in E.
  assert (E' : (f == centre pi w c)%Q) by (rewrite E; ring).
  unfold checked_column. rewrite (column_comp pi w _ _ E'), (column_centre pi w Hpi Hw).
  replace (_ && _) with true by lia. reflexivity.
Qed.

(** ** Inclination to row *)
Lemma argmin_from_spec l : forall best bi i, (bi < i)%nat ->
  let k := argmin_from best bi i l in
  (k = bi /\ (forall j, (j < length l)%nat -> (best <= nth j l 0)%Q) \/
   (i <= k < i + length l)%nat /\ (nth (k - i) l 0 < best)%Q /\
     (forall j, (j < length l)%nat -> (nth (k - i) l 0 <= nth j l 0)%Q) /\
     (forall j, (j < k - i)%nat -> (nth (k - i) l 0 < nth j l 0)%Q)).
Proof.
  induction l as [|q l IH]; intros best bi i Hb; cbn [argmin_from length].
  - left. split; [reflexivity|]. intros j Hj. lia.
  - destruct (Qle_bool best q) eqn:E; cbn [negb].
    + apply Qle_bool_iff in E. destruct (IH best bi (S i) ltac:(lia)) as [[H1 H2]|(H1 & H2 & H3 & H4)].
      * left. split; [exact H1|]. intros [|j] Hj; cbn [nth]; [exact E|apply H2; lia].
      * right. set (k := argmin_from best bi (S i) l) in *. replace (k - i)%nat with (S (k - S i)) by lia. cbn [nth].
        split; [lia|]. split; [exact H2|]. split.
        -- intros [|j] Hj; cbn [nth]; [lra|apply H3; lia].
        -- intros [|j] Hj; cbn [nth]; [lra|apply H4; lia].
    + apply qle_false in E. destruct (IH q i (S i) ltac:(lia)) as [[H1 H2]|(H1 & H2 & H3 & H4)]; right.
      * rewrite H1. rewrite Nat.sub_diag. cbn [nth]. split; [lia|]. split; [exact E|]. split.
        -- intros [|j] Hj; cbn [nth]; [apply Qle_refl|apply H2; lia].
        -- intros j Hj. lia.
      * set (k := argmin_from q i (S i) l) in *. replace (k - i)%nat with (S (k - S i)) by lia. cbn [nth].
        split; [lia|]. split; [lra|]. split.
        -- intros [|j] Hj; cbn [nth]; [lra|apply H3; lia].
        -- intros [|j] Hj; cbn [nth]; [exact H2|apply H4; lia].
Qed.

Lemma argmin_spec l : l <> [] -> let k := argmin l in (k < length l)%nat /\
  (forall j, (j < length l)%nat -> (nth k l 0 <= nth j l 0)%Q) /\
  (forall j, (j < k)%nat -> (nth k l 0 < nth j l 0)%Q).
Proof.
  destruct l as [|q l]; [congruence|]. intros _. cbn [argmin].
  destruct (argmin_from_spec l q 0 1 ltac:(lia)) as [[H1 H2]|(H1 & H2 & H3 & H4)]; cbv zeta.
  - rewrite H1. cbn [nth length]. split; [lia|]. split; [|intros j Hj; lia].
    intros [|j] Hj; [apply Qle_refl|apply H2; lia].
  - set (k := argmin_from q 0 1 l) in *. destruct k as [|k]; [lia|]. cbn [nth length].
    replace (S k - 1)%nat with k in * by lia. split; [lia|]. split.
    + intros [|j] Hj; cbn [nth]; [lra|apply H3; lia].
    + intros [|j] Hj; cbn [nth]; [exact H2|apply H4; lia].
Qed.

Theorem row_nearest inclination incl : inclination <> [] ->
  (row inclination incl < length inclination)%nat /\
  (forall j, (j < length inclination)%nat ->
     (Qabs (incl - nth (row inclination incl) inclination 0) <= Qabs (incl - nth j inclination 0))%Q) /\
  (forall j, (j < row inclination incl)%nat ->
     (Qabs (incl - nth (row inclination incl) inclination 0) < Qabs (incl - nth j inclination 0))%Q).
Proof.
  intros Hn. unfold row. set (l := map (fun i => Qabs (incl - i)) inclination).
  destruct (argmin_spec l) as (H1 & H2 & H3).
  { unfold l. destruct inclination; [congruence|discriminate]. }
  assert (L : length l = length inclination) by apply map_length.
  assert (N : forall j, (j < length inclination)%nat -> nth j l 0%Q = Qabs (incl - nth j inclination 0)%Q).
  { intros j Hj. unfold l. now rewrite (ListLib.nth_map _ _ _ 0%Q). }
  rewrite L in H1, H2. split; [exact H1|]. split.
  - intros j Hj. rewrite <- !N by assumption. now apply H2.
  - intros j Hj. rewrite <- !N by lia. now apply H3.
Qed.

Theorem row_exact inclination k : (k < length inclination)%nat ->
  (forall j, (j < k)%nat -> ~ (nth j inclination 0 == nth k inclination 0)%Q) ->
  forall incl, (incl == nth k inclination 0)%Q -> row inclination incl = k.
Proof.
  intros Hk Hd incl E. destruct (row_nearest inclination incl) as (R1 & R2 & R3).
  { destruct inclination; [cbn in Hk; lia|discriminate]. }
  assert (A : (Qabs (incl - nth k inclination 0) == 0)%Q) by (rewrite E; setoid_replace (nth k inclination 0 - nth k inclination 0)%Q with 0%Q by ring; reflexivity).
  pose proof (R2 k Hk) as B. rewrite A in B.
  set (r := row inclination incl) in *.
  assert (C : (nth r inclination 0 == nth k inclination 0)%Q).
  { apply Qabs_Qle_condition in B. lra. }
  destruct (Nat.lt_trichotomy r k) as [L|[L|L]]; [|exact L|].
  - exfalso. exact (Hd r L C).
  - exfalso. pose proof (R3 k L) as D. rewrite A in D. pose proof (Qabs_nonneg (incl - nth r inclination 0)%Q). lra.
Qed.

(** ** Cropping *)
Lemma nth_error_skipn {A} n (l : list A) i : nth_error (skipn n l) i = nth_error l (n + i).
Proof. revert l. induction n as [|n IH]; intros l; [reflexivity|]. destruct l as [|a l]; [now destruct i|]. apply IH. Qed.
Lemma nth_error_firstn {A} n (l : list A) i : (i < n)%nat -> nth_error (firstn n l) i = nth_error l i.
Proof.
  revert l i. induction n as [|n IH]; intros l i Hi; [lia|]. destruct l as [|a l]; [reflexivity|].
  destruct i as [|i]; [reflexivity|]. cbn [firstn nth_error]. apply IH. lia.
Qed.
Lemma slice_length {A} l r (x : list A) : 0 <= l -> l <= r -> r <= Z.of_nat (length x) -> length (slice l r x) = Z.to_nat (r - l).
Proof. intros. unfold slice. rewrite firstn_length, skipn_length. lia. Qed.
Lemma nth_slice {A} l r (x : list A) k : (k < Z.to_nat (r - l))%nat ->
  nth_error (slice l r x) k = nth_error x (Z.to_nat l + k).
Proof. intros H. unfold slice. now rewrite nth_error_firstn, nth_error_skipn by exact H. Qed.

Definition asked_shift {A} (shift : option (list Z)) (ims : list A) : list Z :=
  match shift with None => repeat 0 (length ims) | Some s => s end.

Theorem crop_ok {A} width new_width shift (ims out : list (list (list A))) : width <> new_width ->
  (crop_range_image width new_width shift ims = Ok out <->
   1 <= new_width < width /\
   (forall s, In s (asked_shift shift ims) -> 0 <= (width - new_width) / 2 + s <= width - new_width) /\
   (length ims <= length (asked_shift shift ims))%nat /\
   out = map (fun i => let l := (width - new_width) / 2 + nth i (asked_shift shift ims) 0 in
                       map (slice l (l + new_width)) (nth i ims [])) (seq 0 (length ims))).
Proof.
  intros Hne. unfold crop_range_image. fold (asked_shift shift ims). set (sh := asked_shift shift ims). clearbody sh.
  rewrite (proj2 (Z.eqb_neq _ _) Hne).
  destruct (Z.ltb_spec new_width 1) as [H1|H1]; [split; [discriminate|lia]|].
  destruct (Z.leb_spec width new_width) as [H2|H2]; [split; [discriminate|lia]|].
  assert (Hex : existsb (fun lr => (fst lr <? 0) || (width <? snd lr))
     (combine (map (fun i => (width - new_width) / 2 + i) sh) (map (fun i => i + new_width) (map (fun i => (width - new_width) / 2 + i) sh))) = false
     <-> forall s, In s sh -> 0 <= (width - new_width) / 2 + s <= width - new_width).
  { rewrite map_map, combine_maps. rewrite <- not_true_iff_false, existsb_exists. split.
    - intros H s Hs. destruct (Z_le_dec 0 ((width - new_width) / 2 + s)) as [A1|A1]; [destruct (Z_le_dec ((width - new_width) / 2 + s) (width - new_width)) as [A2|A2]; [lia|]|];
      exfalso; apply H; exists ((width - new_width) / 2 + s, (width - new_width) / 2 + s + new_width); (split; [apply in_map_iff; exists s; auto|cbn [fst snd]; lia]).
    - intros H (lr & Hin & Hb). apply in_map_iff in Hin. destruct Hin as (s & <- & Hs). cbn [fst snd] in Hb. specialize (H s Hs). lia. }
  destruct (existsb _ _) eqn:E.
  - split; [discriminate|]. intros (_ & H & _). apply Hex in H. discriminate.
  - assert (Hs := proj1 Hex eq_refl). clear Hex E.
    assert (R : forall i, nth_error (map (fun i => i + new_width) (map (fun i => (width - new_width) / 2 + i) sh)) i =
                 match nth_error sh i with Some s => Some ((width - new_width) / 2 + s + new_width) | None => None end).
    { intros i. rewrite map_map, nth_error_map. now destruct (nth_error sh i). }
    assert (L : forall i, nth_error (map (fun i => (width - new_width) / 2 + i) sh) i =
                 match nth_error sh i with Some s => Some ((width - new_width) / 2 + s) | None => None end).
    { intros i. rewrite nth_error_map. now destruct (nth_error sh i). }
    split.
    + intros H. pose proof (mapM_inv _ _ _ H) as F.
      assert (Hlen : (length ims <= length sh)%nat).
      { destruct (Nat.le_gt_cases (length ims) (length sh)) as [Hle|Hgt]; [exact Hle|exfalso].
        destruct (forall2_in_l _ _ _ F (length sh)) as (b & _ & Hb); [apply in_seq; lia|].
        rewrite L, R in Hb. rewrite (proj2 (nth_error_None sh (length sh)) (le_n _)) in Hb.
        destruct (nth_error ims (length sh)); discriminate. }
      split; [lia|]. split; [exact Hs|]. split; [exact Hlen|].
      assert (M := mapM_ok (fun i => match nth_error ims i, nth_error (map (fun i => (width - new_width) / 2 + i) sh) i, nth_error (map (fun i => i + new_width) (map (fun i => (width - new_width) / 2 + i) sh)) i with
         | Some im, Some l, Some r => Ok (map (slice l r) im) | _, _, _ => Err IndexError end)
         (fun i => let l := (width - new_width) / 2 + nth i sh 0 in map (slice l (l + new_width)) (nth i ims [])) (seq 0 (length ims))).
      rewrite H in M. specialize (M ltac:(intros i Hi; apply in_seq in Hi; rewrite L, R;
        rewrite (nth_error_nth' ims []) by lia; rewrite (nth_error_nth' sh 0) by lia; reflexivity)). apply Ok_inj in M. exact M.
    + intros (_ & _ & Hlen & ->). apply mapM_ok. intros i Hi. apply in_seq in Hi. rewrite L, R.
      rewrite (nth_error_nth' ims []) by lia. rewrite (nth_error_nth' sh 0) by lia. reflexivity.
Qed.

Theorem crop_pixels {A} width new_width shift (ims out : list (list (list A))) : width <> new_width ->
  (forall im row, In im ims -> In row im -> Z.of_nat (length row) = width) ->
  crop_range_image width new_width shift ims = Ok out ->
  length out = length ims /\
  forall b im, nth_error ims b = Some im -> exists oim, nth_error out b = Some oim /\ length oim = length im /\
    forall r row, nth_error im r = Some row -> exists orow, nth_error oim r = Some orow /\
      Z.of_nat (length orow) = new_width /\
      forall c, 0 <= c < new_width -> nth_error orow (Z.to_nat c) =
        nth_error row (Z.to_nat ((width - new_width) / 2 + match shift with None => 0 | Some s => nth b s 0 end + c)).
Proof.
  intros Hne Hrow H. apply (crop_ok _ _ _ _ _ Hne) in H. destruct H as (Hw & Hs & Hl & ->).
  split; [rewrite map_length, seq_length; reflexivity|]. intros b im Hb.
  assert (Lb : (b < length ims)%nat) by (apply nth_error_Some; congruence).
  set (l := (width - new_width) / 2 + nth b (asked_shift shift ims) 0).
  exists (map (slice l (l + new_width)) im). split.
  { rewrite nth_error_map. rewrite (nth_error_nth' _ O) by (rewrite seq_length; exact Lb). rewrite seq_nth by exact Lb.
    cbn [option_map plus]. rewrite (nth_error_nth ims b [] Hb). reflexivity. }
  split; [apply map_length|]. intros r row Hr. exists (slice l (l + new_width) row).
  split; [rewrite nth_error_map, Hr; reflexivity|].
  assert (Rl : 0 <= l <= width - new_width) by (apply Hs, nth_In; lia).
  assert (Lr : Z.of_nat (length row) = width) by (apply (Hrow im); [exact (nth_error_In _ _ Hb)|exact (nth_error_In _ _ Hr)]).
  split; [rewrite slice_length by lia; lia|].
  intros c Hc. rewrite nth_slice by lia. f_equal.
  assert (Es : nth b (asked_shift shift ims) 0 = match shift with None => 0 | Some s => nth b s 0 end).
  { unfold asked_shift. destruct shift; [reflexivity|]. apply nth_repeat. }
  unfold l in *. rewrite <- Es. lia.
Qed.

(** ** Inclinations *)
Lemma qn_pos k : (0 <= inject_Z (Z.of_nat k))%Q.
Proof. change 0%Q with (inject_Z 0). rewrite <- Zle_Qle. lia. Qed.
Theorem inclination_spec lo hi height : (lo <= hi)%Q ->
  length (compute_inclination lo hi height) = height /\
  forall k, (k < height)%nat ->
    (lo <= nth k (compute_inclination lo hi height) 0 <= hi)%Q /\
    (nth k (compute_inclination lo hi height) 0 == lo + (inject_Z (2 * Z.of_nat k + 1) / inject_Z (2 * Z.of_nat height)) * (hi - lo))%Q /\
    (nth k (compute_inclination lo hi height) 0 + nth (height - 1 - k) (compute_inclination lo hi height) 0 == lo + hi)%Q.
Proof.
  intros Hh. unfold compute_inclination, tabulate. split; [rewrite map_length, seq_length; reflexivity|].
  intros k Hk. rewrite !nth_map_seq by lia.
  set (n := inject_Z (Z.of_nat height)).
  assert (Hn : (0 < n)%Q) by (unfold n; change 0%Q with (inject_Z 0); rewrite <- Zlt_Qlt; lia).
  assert (K : (inject_Z (Z.of_nat k) + 1 <= n)%Q) by (unfold n; change 1%Q with (inject_Z 1); rewrite <- inject_Z_plus, <- Zle_Qle; lia).
  pose proof (qn_pos k) as K0.
  assert (R : (0 <= ((1 # 2) + inject_Z (Z.of_nat k)) / n <= 1)%Q) by (split; [apply Qle_shift_div_l|apply Qle_shift_div_r]; lra).
  assert (S1 : (0 <= ((1 # 2) + inject_Z (Z.of_nat k)) / n * (hi - lo))%Q) by (apply Qmult_le_0_compat; lra).
  assert (S2 : (((1 # 2) + inject_Z (Z.of_nat k)) / n * (hi - lo) <= 1 * (hi - lo))%Q) by (apply Qmult_le_compat_r; lra).
  split; [lra|]. split.
  - rewrite inject_Z_plus, !inject_Z_mult. fold n. change (inject_Z 2) with 2%Q. change (inject_Z 1) with 1%Q. field. lra.
  - replace (Z.of_nat (height - 1 - k)) with (Z.of_nat height + - (1) + - Z.of_nat k) by lia.
    rewrite !inject_Z_plus, !inject_Z_opp. fold n. change (inject_Z 1) with 1%Q. field. lra.
Qed.

Theorem inclination_order lo hi height k k' : (lo < hi)%Q -> (k < k' < height)%nat ->
  (nth k (compute_inclination lo hi height) 0 < nth k' (compute_inclination lo hi height) 0)%Q.
Proof.
  intros Hh [Hk Hk']. destruct (inclination_spec lo hi height ltac:(lra)) as [_ P].
  destruct (P k ltac:(lia)) as (_ & E & _). destruct (P k' ltac:(lia)) as (_ & E' & _). rewrite E, E'.
  assert (D : (0 < hi - lo)%Q) by lra.
  apply Qplus_lt_r. apply Qmult_lt_compat_r; [exact D|]. unfold Qdiv. apply Qmult_lt_compat_r.
  - apply Qinv_lt_0_compat. change 0%Q with (inject_Z 0). rewrite <- Zlt_Qlt. lia.
  - rewrite <- Zlt_Qlt. lia.
Qed.

(** ** Camera depth image *)
Lemma qmin_le a b : (qmin a b <= a)%Q /\ (qmin a b <= b)%Q /\ (qmin a b = a \/ qmin a b = b).
Proof.
  unfold qmin. destruct (Qle_bool a b) eqn:E; [apply Qle_bool_iff in E|apply qle_false in E];
  repeat split; try lra; auto.
Qed.
Lemma pool_minq_least l : l <> [] -> In (pool_minq l) l /\ forall y, In y l -> (pool_minq l <= y)%Q.
Proof.
  destruct l as [|a l]; [congruence|]. intros _. cbn [pool_minq]. revert a.
  induction l as [|b l IH]; intros a; cbn [fold_left].
  - split; [now left|]. intros y [<-|[]]. apply Qle_refl.
  - destruct (IH (qmin a b)) as [H1 H2]. destruct (qmin_le a b) as (A & B & C). split.
    + destruct H1 as [H1|H1]; [|right; now right]. rewrite <- H1. destruct C as [->| ->]; [now left|right; now left].
    + pose proof (H2 _ (or_introl eq_refl)) as M.
      intros y [<-|[<-|Hy]]; [lra|lra|]. apply H2. now right.
Qed.
Definition shown (camera : Z) (p : projected) : option (Z * Z) :=
  shown_at camera (name1 p, x1 p, y1 p) (name2 p, x2 p, y2 p).

Lemma selected_shown camera p : shown camera p = if in_camera camera p then Some (selected camera p) else None.
Proof. unfold shown, shown_at, in_camera, selected. now destruct (name1 p =? camera), (name2 p =? camera). Qed.

Lemma at_pixel_shown camera l rc y : In y (at_pixel (map (selected camera) (filter (in_camera camera) l)) (map depth (filter (in_camera camera) l)) rc) <->
  exists p, In p l /\ shown camera p = Some rc /\ depth p = y.
Proof.
  unfold at_pixel. rewrite combine_maps. rewrite in_map_iff. split.
  - intros ((rc' & y') & Ey & Hin). apply filter_In in Hin. destruct Hin as [Hin Hb]. apply in_map_iff in Hin.
    destruct Hin as (p & Ep & Hp). apply filter_In in Hp. destruct Hp as [Hp Hc]. injection Ep as <- <-. cbn [fst snd] in *.
    exists p. split; [exact Hp|]. split; [|exact Ey]. rewrite selected_shown, Hc. f_equal.
    apply andb_true_iff in Hb. destruct Hb as [A B]. apply Z.eqb_eq in A, B. destruct (selected camera p), rc. cbn [fst snd] in *. congruence.
  - intros (p & Hp & Hs & <-). rewrite selected_shown in Hs. destruct (in_camera camera p) eqn:Hc; [|discriminate]. injection Hs as <-.
    exists (selected camera p, depth p). split; [reflexivity|]. apply filter_In. split.
    + apply in_map_iff. exists p. split; [reflexivity|]. apply filter_In. auto.
    + cbn [fst snd]. rewrite !Z.eqb_refl. reflexivity.
Qed.

Theorem depth_image_pixels h w camera l : 0 <= h -> 0 < w ->
  (forall p rc, In p l -> shown camera p = Some rc -> in_image h w rc) ->
  exists im, depth_image h w camera l = Ok im /\ length im = Z.to_nat (h * w) /\
  forall r c, in_image h w (r, c) ->
    let px := nth (Z.to_nat (r * w + c)) im 0%Q in
    ((forall p, In p l -> shown camera p <> Some (r, c)) -> px = 0%Q) /\
    (forall p, In p l -> shown camera p = Some (r, c) -> (px <= depth p)%Q) /\
    ((exists p, In p l /\ shown camera p = Some (r, c)) ->
      exists p, In p l /\ shown camera p = Some (r, c) /\ px = depth p).
Proof.
  intros Hh Hw Hin. unfold depth_image.
  set (idx := map (selected camera) (filter (in_camera camera) l)). set (val := map depth (filter (in_camera camera) l)).
  destruct (scatter_pixels 0%Q Qplus pool_minq h w idx val) as (im & E & L & P); try assumption.
  { intros [a b]. unfold Qplus. cbn [Qnum Qden]. f_equal. apply Z.mul_1_r. }
  { unfold idx, val. now rewrite !map_length. }
  { apply Forall_forall. intros rc H. unfold idx in H. apply in_map_iff in H. destruct H as (p & <- & Hp).
    apply filter_In in Hp. destruct Hp as [Hp Hc]. apply (Hin p _ Hp). now rewrite selected_shown, Hc. }
  exists im. split; [exact E|]. split; [exact L|]. intros r c Hrc. cbv zeta. rewrite (P r c Hrc).
  pose proof (at_pixel_shown camera l (r, c)) as S. fold idx val in S.
  destruct (at_pixel idx val (r, c)) as [|v vs] eqn:Ea.
  - split; [reflexivity|]. split.
    + intros p Hp Hs. exfalso. destruct (S (depth p)) as [_ X]. apply X. exists p. auto.
    + intros (p & Hp & Hs). exfalso. destruct (S (depth p)) as [_ X]. apply X. exists p. auto.
  - destruct (pool_minq_least (v :: vs)) as [M1 M2]; [discriminate|]. split; [|split].
    + intros H. exfalso. destruct (S v) as [X _]. destruct (X (or_introl eq_refl)) as (p & Hp & Hs & _). exact (H p Hp Hs).
    + intros p Hp Hs. apply M2. apply S. exists p. auto.
    + intros _. apply S in M1. destruct M1 as (p & Hp & Hs & Ed). exists p. auto.
Qed.

Theorem scatter_alias : exists im, scatter_nd_with_pool 0 Z.add (fun l => nth 0 l 0) 2 3 [(0, 3)] [7] = Ok im /\
  nth (Z.to_nat (1 * 3 + 0)) im 0 = 7.
Proof. eexists. split; vm_compute; reflexivity. Qed.

Theorem pixel_of_point_spec pi w inclination corr az incl rc :
  pixel_of_point pi w inclination corr az incl = Ok rc <->
  checked_column pi w (fold_azimuth pi (az + corr)) = Ok (snd rc) /\ fst rc = Z.of_nat (row inclination incl).
Proof.
  unfold pixel_of_point. destruct (checked_column _ _ _) as [c|e]; cbn [bind].
  - split; [intros H; apply Ok_inj in H; subst rc; auto|]. intros [H E]. apply Ok_inj in H. destruct rc as [a b]. cbn [fst snd] in *. congruence.
  - split; [discriminate|]. intros [H _]. discriminate.
Qed.

Theorem crop_defined {A} width new_width shift (ims : list (list (list A))) : width <> new_width ->
  (is_ok (crop_range_image width new_width shift ims) = true <->
   1 <= new_width < width /\
   (forall s, In s (match shift with None => repeat 0 (length ims) | Some l => l end) ->
      0 <= (width - new_width) / 2 + s <= width - new_width) /\
   (forall l, shift = Some l -> (length ims <= length l)%nat)).
Proof.
  intros Hne. pose proof (fun out => crop_ok width new_width shift ims out Hne) as H.
  split.
  - destruct (crop_range_image width new_width shift ims) as [out|]; [|discriminate]. intros _.
    destruct (proj1 (H out) eq_refl) as (A1 & A2 & A3 & _). split; [exact A1|]. split; [exact A2|].
    intros l El. rewrite El in A3. exact A3.
  - intros (A1 & A2 & A3). eassert (E : crop_range_image width new_width shift ims = Ok _); [|rewrite E; reflexivity].
    apply H. split; [exact A1|]. split; [exact A2|]. split; [|reflexivity].
    destruct shift as [l|]; [exact (A3 l eq_refl)|]. cbn [asked_shift]. rewrite repeat_length. lia.
Qed.

Theorem crop_same_width {A} width shift (ims : list (list (list A))) : crop_range_image width width shift ims = Ok ims.
Proof. unfold crop_range_image. now rewrite Z.eqb_refl. Qed.

Theorem seam_refused : exists az, (- (22 # 7) <= az <= 22 # 7)%Q /\ checked_column (22 # 7) 4 az = Err ValueError.
Proof. exists (- (22 # 7))%Q. split; [split; discriminate|vm_compute; reflexivity]. Qed.
